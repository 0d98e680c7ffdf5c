(** Filling a ReadBufferFixedSize; the theorems over all conforming buffers for the library classes. *)
From Verif Require Import Base Buffers Wire Schema Fields Message Api Spec SpecBuffer SpecLoad Contracts BufferProofs
  BufferProps BitLemmas SerProps DecodeProps.

(** The state of the object against the tape. *)
Definition tape_rel (cap : Z) (b : rfix) (st : list Z * nat) : Prop :=
  zlen (rf_data b) = cap /\ cap < 2 ^ 32 /\ Forall is_byte (rf_data b)
  /\ rf_w b = zlen (fst st) /\ zlen (fst st) <= cap /\ rf_r b = Z.of_nat (snd st) /\ rf_r b <= cap
  /\ fst st = firstn (length (fst st)) (rf_data b).

Lemma tape_get cap b l k x rest : tape_rel cap b (l, k) -> skipn k l = x :: rest ->
  rf_r b < rf_w b /\ aget (rf_data b) (rf_r b) = Done x.
Proof.
  intros (Hd & Hc & Hb & Hw & Hl & Hr & Hrc & El) Hs. cbn [fst snd] in *.
  assert (Hk : (k < length l)%nat).
  { destruct (Nat.lt_ge_cases k (length l)) as [H|H]; [exact H|]. rewrite skipn_all2 in Hs by exact H. discriminate Hs. }
  assert (En : nth_error l k = Some x).
  { clear - Hs. revert l Hs. induction k as [|k IH]; intros [|y l] Hs; cbn in *; try discriminate; [congruence|auto]. }
  split; [unfold zlen in *; lia|].
  unfold aget. rewrite (proj2 (Z.leb_le 0 (rf_r b))) by lia.
  rewrite Hr, Nat2Z.id.
  assert (En' : nth_error (rf_data b) k = Some x).
  { rewrite El in En. clear - En. revert k En. generalize (length l) as m. generalize (rf_data b) as d.
    induction d as [|y d IH]; intros [|m] [|k] En; cbn in *; try discriminate; auto. eapply IH. exact En. }
  rewrite En'. reflexivity.
Qed.

Lemma tape_none cap b l k : tape_rel cap b (l, k) -> skipn k l = [] -> rf_w b <= rf_r b.
Proof.
  intros (Hd & Hc & Hb & Hw & Hl & Hr & Hrc & El) Hs. cbn [fst snd] in *.
  apply (f_equal (@length Z)) in Hs. rewrite skipn_length in Hs. cbn in Hs. unfold zlen in *. lia.
Qed.

Lemma tape_step cap c b st : tape_rel cap b st -> lcall_plain cap c ->
  exists b', run_lcall cap c b = Done (fst (tape_call true cap c st), b') /\ tape_rel cap b' (snd (tape_call true cap c st)).
Proof.
  destruct st as [l k]. intros H (Hlg & Hp).
  pose proof H as (Hd & Hc & Hb & Hw & Hl & Hr & Hrc & El). cbn [fst snd] in Hw, Hl, Hr, El.
  destruct c as [c|bytes n]; [destruct c|]; cbn [run_lcall rfix_call tape_call].
  - (* push *)
    unfold rfix_push. rewrite Hw. destruct (Z.ltb_spec (zlen l) cap) as [Hlt|Hge].
    + rewrite aset_ok by (unfold zlen in *; lia). cbn [bind fst snd]. eexists. split; [reflexivity|].
      unfold tape_rel. cbn [rf_data rf_w rf_r fst snd]. rewrite u32_small by (unfold zlen in *; lia). rewrite zlen_upd, zlen_app, zlen_cons, zlen_nil.
      split; [exact Hd|]. split; [exact Hc|]. split; [now apply Forall_upd|]. split; [lia|]. split; [lia|].
      split; [exact Hr|]. split; [exact Hrc|].
      rewrite app_length. cbn [length]. rewrite Nat.add_1_r.
      replace (Z.to_nat (zlen l)) with (length l) by (unfold zlen; lia).
      rewrite firstn_S_upd by (unfold zlen in *; lia). now rewrite <- El.
    + cbn [bind fst snd]. eexists. split; [reflexivity|exact H].
  - (* pop *)
    unfold rfix_pop. destruct (skipn k l) as [|x rest] eqn:Es.
    + pose proof (tape_none _ _ _ _ H Es). destruct (Z.ltb_spec (rf_r b) (rf_w b)); [lia|]. cbn [bind fst snd]. eauto.
    + destruct (tape_get _ _ _ _ _ _ H Es) as (Hlt & Eg). destruct (Z.ltb_spec (rf_r b) (rf_w b)); [|lia]. rewrite Eg. cbn [bind fst snd].
      eexists. split; [reflexivity|]. unfold tape_rel. cbn [rf_data rf_w rf_r fst snd]. rewrite u32_small by lia.
      repeat (split; auto); lia.
  - (* peek *)
    unfold rfix_peek. destruct (skipn k l) as [|x rest] eqn:Es.
    + pose proof (tape_none _ _ _ _ H Es). destruct (Z.ltb_spec (rf_r b) (rf_w b)); [lia|]. cbn [bind fst snd]. eauto.
    + destruct (tape_get _ _ _ _ _ _ H Es) as (Hlt & Eg). destruct (Z.ltb_spec (rf_r b) (rf_w b)); [|lia]. rewrite Eg. cbn [bind fst snd]. eauto.
  - (* advance *)
    unfold rfix_advance. destruct (skipn k l) as [|x rest] eqn:Es.
    + pose proof (tape_none _ _ _ _ H Es). destruct (Z.ltb_spec (rf_r b) (rf_w b)); [lia|]. cbn [bind fst snd]. eauto.
    + destruct (tape_get _ _ _ _ _ _ H Es) as (Hlt & Eg). destruct (Z.ltb_spec (rf_r b) (rf_w b)); [|lia]. cbn [bind fst snd].
      eexists. split; [reflexivity|]. unfold tape_rel. cbn [rf_data rf_w rf_r fst snd]. rewrite u32_small by lia.
      repeat (split; auto); lia.
  - (* advance n *)
    cbn in Hlg, Hp. unfold rfix_advance_n. rewrite u32_small by lia. rewrite Hr, Hw.
    destruct (Z.leb_spec (Z.of_nat k + n) (zlen l)); cbn [bind fst snd]; [|eauto].
    eexists. split; [reflexivity|]. unfold tape_rel. cbn [rf_data rf_w rf_r fst snd].
    repeat (split; auto); lia.
  - (* clear *)
    cbn [fst snd]. eexists. split; [reflexivity|]. unfold tape_rel, rfix_clear. cbn [rf_data rf_w rf_r fst snd].
    pose proof (zlen_nonneg (rf_data b)). repeat (split; auto); try lia.
    unfold zlen. cbn. lia.
  - (* load *)
    cbn in Hlg, Hp. destruct Hlg as (Hf & Hlb & Hn). subst n. cbn [fst snd]. eexists. split; [reflexivity|].
    unfold tape_rel, rfix_set_bytes_written, rfix_write_data. cbn [rf_data rf_w rf_r fst snd].
    rewrite Z.min_l by lia.
    split; [unfold zlen in *; rewrite app_length, skipn_length; lia|]. split; [exact Hc|].
    split; [apply Forall_app; split; [exact Hf|now apply Forall_skipn]|].
    split; [reflexivity|]. split; [exact Hlb|]. split; [exact Hr|]. split; [exact Hrc|].
    rewrite firstn_app, Nat.sub_diag, firstn_all. cbn. now rewrite app_nil_r.
Qed.

Lemma tape_run cap cs : forall b st, tape_rel cap b st -> Forall (lcall_plain cap) cs ->
  exists b', run_lcalls cap cs b = Done (fst (run_tape true cap cs st), b') /\ tape_rel cap b' (snd (run_tape true cap cs st)).
Proof.
  induction cs as [|c cs IH]; intros b st H Hp; cbn [run_lcalls run_tape].
  - eauto.
  - inversion Hp as [|? ? Hc Hcs]; subst. destruct (tape_step cap c b st H Hc) as (b1 & E & H1).
    rewrite E. cbn [bind]. destruct (tape_call true cap c st) as [o st1] eqn:Et. cbn [fst snd] in *.
    destruct (IH b1 st1 H1 Hcs) as (b2 & E2 & H2). rewrite E2. cbn [bind].
    destruct (run_tape true cap cs st1) as [os st2]. cbn [fst snd] in *. eauto.
Qed.

Lemma tape_init cap : 0 <= cap < 2 ^ 32 -> tape_rel cap (rfix_init cap) ([], O).
Proof.
  intros H. unfold tape_rel, rfix_init. cbn [rf_data rf_w rf_r fst snd]. rewrite zlen_zrepeat by lia.
  change (zlen (@nil Z)) with 0. split; [reflexivity|]. split; [lia|].
  split; [|cbn [length firstn]; repeat split; lia].
  apply Forall_forall. intros x Hx. apply repeat_spec in Hx. subst x. unfold is_byte. lia.
Qed.

(** Without a load after reading, keeping or restarting makes no difference. *)
Lemma tape_same cap cs : forall st, loads_unread cap cs st -> run_tape true cap cs st = run_tape false cap cs st.
Proof.
  induction cs as [|c cs IH]; intros st H; cbn [run_tape loads_unread] in *; [reflexivity|].
  destruct H as (H0 & H). destruct st as [l k].
  assert (E : tape_call true cap c (l, k) = tape_call false cap c (l, k)).
  { destruct c as [c|bytes n]; [reflexivity|]. cbn in H0. subst k. reflexivity. }
  rewrite E. destruct (tape_call false cap c (l, k)) as [o st1]. cbn [snd] in H. now rewrite IH.
Qed.

Lemma load_history cap cs : 0 <= cap < 2 ^ 32 -> Forall (lcall_plain cap) cs -> loads_unread cap cs ([], O) ->
  exists b, run_lcalls cap cs (rfix_init cap) = Done (fst (run_tape false cap cs ([], O)), b).
Proof.
  intros Hc Hp Hl. destruct (tape_run cap cs _ _ (tape_init cap Hc) Hp) as (b & E & _).
  rewrite <- (tape_same cap cs) by exact Hl. eauto.
Qed.

(** Every history, also with loads after reads: the read position survives a load. *)
Lemma load_kept cap cs : 0 <= cap < 2 ^ 32 -> Forall (lcall_plain cap) cs ->
  exists b, run_lcalls cap cs (rfix_init cap) = Done (fst (run_tape true cap cs ([], O)), b).
Proof. intros Hc Hp. destruct (tape_run cap cs _ _ (tape_init cap Hc) Hp) as (b & E & _). eauto. Qed.

Lemma load_refuted x y : is_byte x -> is_byte y ->
  exists b, run_lcalls 1 [LLoad [x] 1; LCall RPop; LLoad [y] 1; LCall RPop] (rfix_init 1)
    = Done ([OBool true; OByte (Some x); OBool true; OByte None], b)
  /\ fst (run_tape false 1 [LLoad [x] 1; LCall RPop; LLoad [y] 1; LCall RPop] ([], O))
    = [OBool true; OByte (Some x); OBool true; OByte (Some y)].
Proof. intros Hx Hy. eexists. split; reflexivity. Qed.

(** ** No access outside the array, whatever the arguments. *)
Definition inside (cap : Z) (b : rfix) : Prop :=
  zlen (rf_data b) = cap /\ cap < 2 ^ 32 /\ 0 <= rf_r b /\ 0 <= rf_w b <= cap.

Lemma inside_step cap c b : inside cap b -> lcall_legal cap c ->
  exists o b', run_lcall cap c b = Done (o, b') /\ inside cap b'.
Proof.
  intros (Hd & Hc & Hr & Hw) Hl.
  assert (Hget : rf_r b < rf_w b -> exists x, aget (rf_data b) (rf_r b) = Done x).
  { intros H. unfold aget. rewrite (proj2 (Z.leb_le 0 (rf_r b))) by lia.
    destruct (nth_error (rf_data b) (Z.to_nat (rf_r b))) as [x|] eqn:E; [eauto|].
    apply nth_error_None in E. unfold zlen in *. lia. }
  assert (Hi : inside cap b) by (repeat split; auto; lia).
  destruct c as [c|bytes n]; [destruct c|]; cbn [run_lcall rfix_call].
  - unfold rfix_push. destruct (Z.ltb_spec (rf_w b) cap).
    + rewrite aset_ok by (unfold zlen in *; lia). cbn [bind]. do 2 eexists. split; [reflexivity|].
      unfold inside. cbn [rf_data rf_w rf_r]. rewrite zlen_upd, u32_small by lia. repeat split; auto; lia.
    + cbn [bind]. eauto.
  - unfold rfix_pop. destruct (Z.ltb_spec (rf_r b) (rf_w b)) as [H|H]; cbn [bind]; [|eauto].
    destruct (Hget H) as (x & ->). cbn [bind]. do 2 eexists. split; [reflexivity|].
    unfold inside. cbn [rf_data rf_w rf_r]. rewrite u32_small by lia. repeat split; auto; lia.
  - unfold rfix_peek. destruct (Z.ltb_spec (rf_r b) (rf_w b)) as [H|H]; cbn [bind]; [|eauto].
    destruct (Hget H) as (x & ->). cbn [bind]. eauto.
  - unfold rfix_advance. destruct (Z.ltb_spec (rf_r b) (rf_w b)) as [H|H]; cbn [bind]; [|eauto].
    do 2 eexists. split; [reflexivity|]. unfold inside. cbn [rf_data rf_w rf_r]. rewrite u32_small by lia. repeat split; auto; lia.
  - unfold rfix_advance_n. destruct (Z.leb_spec (u32 (rf_r b + n)) (rf_w b)) as [H|H]; cbn [bind]; [|eauto].
    do 2 eexists. split; [reflexivity|]. unfold inside. cbn [rf_data rf_w rf_r]. unfold u32 in *.
    pose proof (Z.mod_pos_bound (rf_r b + n) (2 ^ 32)). repeat split; auto; lia.
  - do 2 eexists. split; [reflexivity|]. unfold inside, rfix_clear. cbn [rf_data rf_w rf_r].
    pose proof (zlen_nonneg (rf_data b)). repeat split; auto; lia.
  - cbn in Hl. destruct Hl as (Hf & Hlb & Hn). do 2 eexists. split; [reflexivity|].
    unfold inside, rfix_set_bytes_written, rfix_write_data. cbn [rf_data rf_w rf_r].
    split; [unfold zlen in *; rewrite app_length, skipn_length; lia|].
    pose proof (zlen_nonneg (rf_data b)). repeat split; auto; lia.
Qed.

Lemma load_inside cap cs : 0 <= cap < 2 ^ 32 -> Forall (lcall_legal cap) cs ->
  exists outs b, run_lcalls cap cs (rfix_init cap) = Done (outs, b) /\ zlen (rf_data b) = cap
    /\ 0 <= r_get_size (rfix_ops cap) b <= cap.
Proof.
  intros Hc Hl. assert (H0 : inside cap (rfix_init cap)).
  { unfold inside, rfix_init. cbn [rf_data rf_w rf_r]. rewrite zlen_zrepeat by lia. repeat split; lia. }
  assert (Hg : forall b, inside cap b -> exists outs b', run_lcalls cap cs b = Done (outs, b') /\ inside cap b').
  { clear H0. induction Hl as [|c cs Hlc Hl IH]; intros b Hb; cbn [run_lcalls]; [eauto|].
    destruct (inside_step cap c b Hb Hlc) as (o & b1 & E & H1). rewrite E. cbn [bind].
    destruct (IH b1 H1) as (os & b2 & E2 & H2). rewrite E2. cbn [bind]. eauto. }
  destruct (Hg _ H0) as (outs & b & E & (Hd & _ & _ & Hw)). exists outs, b. cbn [rfix_ops r_get_size]. auto.
Qed.

(** ** A filled buffer is one of the theorems over conforming readers. *)
Lemma tape_within cap c l k : lcall_legal cap c -> (k <= length l)%nat ->
  (snd (snd (tape_call false cap c (l, k))) <= length (fst (snd (tape_call false cap c (l, k)))))%nat.
Proof.
  intros Hl Hk. destruct c as [c|bytes n]; [destruct c|]; cbn [tape_call].
  - destruct (_ <? _); cbn [fst snd]; rewrite ?app_length; lia.
  - destruct (skipn k l) eqn:E; cbn [fst snd]; [lia|]. apply (f_equal (@length Z)) in E. rewrite skipn_length in E. cbn in E. lia.
  - destruct (skipn k l) eqn:E; cbn [fst snd]; lia.
  - destruct (skipn k l) eqn:E; cbn [fst snd]; [lia|]. apply (f_equal (@length Z)) in E. rewrite skipn_length in E. cbn in E. lia.
  - cbn in Hl. destruct (Z.leb_spec (Z.of_nat k + n) (zlen l)); cbn [fst snd]; unfold zlen in *; lia.
  - cbn. lia.
  - cbn. lia.
Qed.

Lemma tape_within_run cap cs : Forall (lcall_plain cap) cs -> forall l k, (k <= length l)%nat ->
  (snd (snd (run_tape false cap cs (l, k))) <= length (fst (snd (run_tape false cap cs (l, k)))))%nat.
Proof.
  induction 1 as [|c cs (Hc & _) Hcs IH]; intros l k Hk; cbn [run_tape]; [exact Hk|].
  pose proof (tape_within cap c l k Hc Hk) as H1.
  destruct (tape_call false cap c (l, k)) as [o [l1 k1]]. cbn [fst snd] in H1.
  specialize (IH l1 k1 H1). destruct (run_tape false cap cs (l1, k1)) as [os st2]. exact IH.
Qed.

Lemma filled_rel cap b bytes : filled cap b bytes -> rfix_rel cap b bytes.
Proof.
  intros (Hc & cs & outs & Hp & Hl & E & <-).
  destruct (tape_run cap cs _ _ (tape_init cap Hc) Hp) as (b' & E' & H). rewrite E in E'.
  injection E' as _ <-. rewrite (tape_same cap cs) in H by exact Hl.
  pose proof (tape_within_run cap cs Hp [] O (le_n _)) as Hk.
  destruct (run_tape false cap cs ([], O)) as [o [l k]]. cbn [snd fst] in *.
  destruct H as (Hd & Hc32 & Hb & Hw & Hlc & Hr & Hrc & El). cbn [fst snd] in *.
  unfold rfix_rel. repeat (split; [first [assumption|unfold zlen in *; lia]|]).
  unfold unread. cbn [fst snd]. rewrite El at 1. rewrite skipn_firstn_comm. f_equal; [unfold zlen in *; lia|].
  f_equal. lia.
Qed.

(** push() byte by byte, and copying all at once, fill a new buffer. *)
Lemma pushes_filled cap bytes : 0 <= cap < 2 ^ 32 -> Forall is_byte bytes -> zlen bytes <= cap ->
  exists b, run_lcalls cap (map (fun x => LCall (RPush x)) bytes) (rfix_init cap)
            = Done (map (fun _ => OBool true) bytes, b) /\ filled cap b bytes.
Proof.
  intros Hc Hf Hl.
  assert (Hp : Forall (lcall_plain cap) (map (fun x => LCall (RPush x)) bytes)).
  { apply Forall_map. eapply Forall_impl; [|exact Hf]. intros x Hx. split; [exact Hx|exact I]. }
  assert (Hu : forall st, loads_unread cap (map (fun x => LCall (RPush x)) bytes) st).
  { clear. induction bytes as [|x bs IH]; intros st; cbn [map loads_unread]; auto. }
  assert (Et : forall l, zlen l + zlen bytes <= cap ->
    run_tape false cap (map (fun x => LCall (RPush x)) bytes) (l, O) = (map (fun _ => OBool true) bytes, (l ++ bytes, O))).
  { clear. induction bytes as [|x bs IH]; intros l H; cbn [map run_tape]; [now rewrite app_nil_r|].
    rewrite zlen_cons in H. pose proof (zlen_nonneg bs). cbn [tape_call].
    destruct (Z.ltb_spec (zlen l) cap); [|lia]. rewrite IH by (rewrite zlen_app, zlen_cons, zlen_nil; lia).
    now rewrite <- app_assoc. }
  destruct (load_history cap _ Hc Hp (Hu _)) as (b & E).
  specialize (Et [] ltac:(rewrite zlen_nil; lia)). rewrite Et in E. exists b. split; [exact E|].
  split; [exact Hc|]. do 2 eexists. split; [exact Hp|]. split; [apply Hu|]. split; [exact E|].
  now rewrite Et.
Qed.

Lemma load_filled cap bytes : 0 <= cap < 2 ^ 32 -> Forall is_byte bytes -> zlen bytes <= cap ->
  exists b, run_lcalls cap [LLoad bytes (zlen bytes)] (rfix_init cap) = Done ([OBool true], b) /\ filled cap b bytes.
Proof.
  intros Hc Hf Hl. pose proof (zlen_nonneg bytes).
  assert (Hp : Forall (lcall_plain cap) [LLoad bytes (zlen bytes)]).
  { repeat constructor; auto; lia. }
  destruct (load_history cap _ Hc Hp) as (b & E); [cbn; auto|].
  exists b. split; [exact E|]. split; [exact Hc|]. do 2 eexists. split; [exact Hp|]. split; [cbn; auto|].
  split; [exact E|reflexivity].
Qed.

(** ** Serialization into a WriteBufferFixedSize *)
Lemma fixed_prefix_or_all fs os v cap b c n : let t := EMsg fs os in
  wt t v -> desc_ok t -> zlen (enc t (view t v)) < 2 ^ 32 -> wfix_rel cap b c (Some n) ->
  exists e b', serialize t v wfix (wfix_ops cap) b = Done (e, b') /\ zlen (wf_data b') = cap
    /\ ((e = NoErrors /\ wfix_content b' = wfix_content b ++ enc t (view t v))
        \/ (e = BufferFull /\ exists pre suf, enc t (view t v) = pre ++ suf /\ suf <> []
             /\ wfix_content b' = wfix_content b ++ pre)).
Proof.
  intros t Hwt Hd Hz Hr.
  assert (Hcont : forall b c r, wfix_rel cap b c r -> c = wfix_content b /\ zlen (wf_data b) = cap).
  { intros b0 c0 r0 (Hl & _ & _ & _ & Ec & _). split; [exact Ec|exact Hl]. }
  destruct (prefix_or_all fs os v Hwt Hd Hz wfix (wfix_ops cap) (wfix_rel cap) False (wfix_ok cap) b c (Some n) Hr)
    as (e & b' & E & Hcase).
  exists e, b'. split; [exact E|]. destruct (Hcont _ _ _ Hr) as (Ec & _).
  destruct Hcase as [(He & Hr')|(He & pre & suf & m & Eq & Hne & _ & Hr')]; destruct (Hcont _ _ _ Hr') as (Ec' & Hl);
    (split; [exact Hl|]).
  - left. split; [exact He|]. now rewrite <- Ec', <- Ec.
  - right. split; [exact He|]. exists pre, suf. rewrite <- Ec', <- Ec. auto.
Qed.

(** From the object of the sender through the two buffers into the object of the receiver. *)
Lemma fixed_round_trip fs os v v0 cap b c n b' : let t := EMsg fs os in
  desc_ok t -> wt t v -> zlen (enc t (view t v)) < 2 ^ 32 ->
  v0 = default_value t \/ (exists w, wt t w /\ clear t w = Done v0) ->
  wfix_rel cap b c (Some n) -> serialize t v _ (wfix_ops cap) b = Done (NoErrors, b') ->
  exists bytes : list Z, wfix_content b' = wfix_content b ++ bytes /\
  forall cap' r, filled cap' r bytes -> forall fuel, (length bytes < fuel)%nat ->
  exists v' r', deserialize fuel t rfix (rfix_ops cap') v0 r = Done (NoErrors, v', r')
    /\ view t v' = norm t (view t v) /\ (no_neg_zero t (view t v) -> view t v' = view t v).
Proof.
  intros t Hd Hwt Hz H0 Hr Hs. destruct (round_trip fs os v v0 Hd Hwt Hz H0 cap b c n b' Hr Hs) as (bytes & Eb & H).
  exists bytes. split; [exact Eb|]. intros cap' r Hf fuel Hfu.
  exact (H _ _ _ (rfix_ok cap') r (filled_rel _ _ _ Hf) fuel Hfu).
Qed.

Lemma fixed_merge fs os v bs new cap r : let t := EMsg fs os in
  desc_ok t -> wt t v -> clean t v -> mdec fs os (view t v) bs new -> filled cap r bs ->
  forall fuel, (length bs < fuel)%nat ->
  exists v' r', deserialize fuel t rfix (rfix_ops cap) v r = Done (NoErrors, v', r')
    /\ view t v' = new /\ wt t v' /\ clean t v' /\ r_pop (rfix_ops cap) r' = Done (None, r').
Proof.
  intros t Hd Hwt Hc Hm Hf fuel Hfu.
  destruct (decode_merge fs os v bs new Hd Hwt Hc Hm _ _ _ (rfix_ok cap) r (filled_rel _ _ _ Hf) fuel Hfu)
    as (v' & r' & E & Hr & Ev & Hwt' & Hc').
  exists v', r'. repeat (split; [assumption|]). cbn [rfix_ops r_pop].
  pose proof (rfix_rel_len _ _ _ Hr) as Hl. rewrite zlen_nil in Hl. unfold rfix_pop.
  destruct (Z.ltb_spec (rf_r r') (rf_w r')); [lia|reflexivity].
Qed.

Lemma fixed_unknown fs os v bs new bs' cap1 r1 cap2 r2 : let t := EMsg fs os in
  desc_ok t -> wt t v -> clean t v -> padded fs os (view t v) bs new bs' ->
  filled cap1 r1 bs -> filled cap2 r2 bs' ->
  forall fuel1 fuel2, (length bs < fuel1)%nat -> (length bs' < fuel2)%nat ->
  exists v1 s1 v2 s2, deserialize fuel1 t rfix (rfix_ops cap1) v r1 = Done (NoErrors, v1, s1)
    /\ deserialize fuel2 t rfix (rfix_ops cap2) v r2 = Done (NoErrors, v2, s2) /\ view t v1 = view t v2.
Proof.
  intros t Hd Hw Hc Hp Hf1 Hf2 fuel1 fuel2 H1 H2. destruct (padded_mdec _ _ _ _ _ _ Hp) as [Hm1 Hm2].
  destruct (fixed_merge fs os v bs new cap1 r1 Hd Hw Hc Hm1 Hf1 fuel1 H1) as (v1 & s1 & E1 & Ev1 & _).
  destruct (fixed_merge fs os v bs' new cap2 r2 Hd Hw Hc Hm2 Hf2 fuel2 H2) as (v2 & s2 & E2 & Ev2 & _).
  exists v1, s1, v2, s2. split; [exact E1|]. split; [exact E2|]. unfold t in *. congruence.
Qed.
