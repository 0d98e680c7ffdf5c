(** * AccessProofs: reading and writing single elements of strings, bytes and repeated fields (C80). *)
From Verif Require Import Base Buffers Wire Schema Fields Message Api Spec SpecApi SpecAccess Contracts BitLemmas
  ScalarProofs BufferProofs Struct SerProofs Tables DecodeProofs ClearProofs TidyProofs AssignProofs
  WriteProofs ReadProofs SafetyProofs SafetyMsg SafetyProps DecodeProps ApiProofs ApiProps.
From Coq Require Import ZifyBool ZifyNat ZifyN.
Ltac Zify.zify_post_hook ::= Z.div_mod_to_equations.

Lemma bytes_read : forall st max v bs index, capacity_ok max -> wt (EBytes st max) v -> view (EBytes st max) v = SvB bs -> 0 <= index ->
  match nth_error bs (Z.to_nat index) with
  | Some b => bytes_get_const_checked v index = Done (NoErrors, Some b) /\ bytes_get_const v index = Done b
  | None => bytes_get_const_checked v index = Done (IndexOutOfBound, None) /\ exists b, is_byte b /\ bytes_get_const v index = Done b
  end.
Proof.
  intros st max v bs index Hc Hw Hv Hi. destruct v as [| |len data| |]; try contradiction. destruct Hw as (Hlen & Hz & Hb). unfold capacity_ok in Hc.
  cbn [view] in Hv. injection Hv as <-. cbn [bytes_get_const_checked bytes_get_const]. rewrite Hz, u32_small by lia.
  destruct (Z.ltb_spec index len).
  - rewrite nth_error_firstn_lt by lia. rewrite Z.min_l by lia. destruct (aget_ok data index) as (y & E & Ey); [lia|]. rewrite Ey, E. auto.
  - assert (N : nth_error (firstn (Z.to_nat len) data) (Z.to_nat index) = None).
    { apply nth_error_None. rewrite firstn_length. lia. }
    rewrite N. split; [reflexivity|]. destruct (aget_ok data (Z.min index (max - 1))) as (y & E & Ey); [lia|]. exists y. split; [|exact E].
    apply all_Forall in Hb. eapply Forall_forall in Hb; [exact Hb|]. eapply nth_error_In. exact Ey.
Qed.

Lemma list_read : forall max t len data l index, capacity_ok max -> wt_field (KRep max) (wt t) (VR len data) ->
  oview (ORep max t) (VR len data) = SvR l -> 0 <= index ->
  exists y, rep_get_const data index = Done y /\ wt t y
    /\ match nth_error l (Z.to_nat index) with
       | Some x => rep_get_const_checked (VR len data) index = Done (NoErrors, Some y) /\ view t y = x
       | None => rep_get_const_checked (VR len data) index = Done (IndexOutOfBound, None)
       end.
Proof.
  intros max t len data l index Hc Hw Hv Hi. destruct Hw as (Hlen & Hz & Hb). unfold capacity_ok in Hc.
  cbn [oview view_field] in Hv. injection Hv as <-. cbn [rep_get_const_checked]. unfold rep_get_const. rewrite Hz, u32_small by lia.
  destruct (aget_ok data (Z.min index (max - 1))) as (y & E & Ey); [lia|]. exists y. split; [exact E|].
  split; [apply all_Forall in Hb; eapply Forall_forall in Hb; [exact Hb|]; eapply nth_error_In; exact Ey|].
  destruct (Z.ltb_spec index len).
  - rewrite Z.min_l in E, Ey by lia. rewrite <- firstn_map, nth_error_firstn_lt by lia. erewrite map_nth_error by exact Ey. rewrite E. auto.
  - assert (N : nth_error (map (view t) (firstn (Z.to_nat len) data)) (Z.to_nat index) = None).
    { apply nth_error_None. rewrite map_length, firstn_length. lia. }
    now rewrite N.
Qed.

(** *** Growing *)
Lemma upd_split {A} (x : A) : forall k l, (k < length l)%nat -> upd k x l = firstn k l ++ x :: skipn (S k) l.
Proof. induction k as [|k IH]; intros [|y l] H; cbn [length] in H; try lia; cbn; [reflexivity|]. f_equal. apply IH. lia. Qed.

Lemma skipn_add' {A} : forall b a (l : list A), skipn (b + a) l = skipn a (skipn b l).
Proof. induction b as [|b IH]; intros a [|y l]; cbn [skipn Nat.add]; auto. now rewrite skipn_nil. Qed.

Definition rest {A} (P : A -> Prop) (len : Z) (data : list A) : Prop := Forall P (skipn (Z.to_nat len) data).

Lemma rest_put {A B} (f : A -> B) d max (data : list A) len i x : 0 <= len <= max -> zlen data = max -> 0 < max < 2 ^ 31 -> 0 <= i ->
  rest (fun y => f y = d) len data ->
  let k := Z.min i (max - 1) in let len' := if len <=? k then k + 1 else len in
  map f (firstn (Z.to_nat len') (upd (Z.to_nat k) x data)) = put_padded d max (map f (firstn (Z.to_nat len) data)) i (f x)
  /\ rest (fun y => f y = d) len' (upd (Z.to_nat k) x data).
Proof.
  intros Hl Hz Hm Hi Hr k len'. assert (Hk : 0 <= k < max) by lia. unfold zlen in Hz.
  assert (Hlen : zlen (map f (firstn (Z.to_nat len) data)) = len) by (rewrite zlen_map, zlen_firstn; unfold zlen; lia).
  unfold put_padded. fold k. rewrite Hlen. unfold len', rest in *. clear len'. destruct (Z.leb_spec len k), (Z.ltb_spec k len); try lia.
  - replace (Z.to_nat (k + 1)) with (S (Z.to_nat k)) by lia. split.
    + rewrite firstn_S_upd by lia.
      assert (E : firstn (Z.to_nat k) data = firstn (Z.to_nat len) data ++ firstn (Z.to_nat (k - len)) (skipn (Z.to_nat len) data)).
      { replace (Z.to_nat k) with (Z.to_nat len + Z.to_nat (k - len))%nat by lia.
        rewrite <- (firstn_skipn (Z.to_nat len) data) at 1. rewrite firstn_app, firstn_length.
        replace (Nat.min (Z.to_nat len) (length data)) with (Z.to_nat len) by lia.
        rewrite firstn_firstn. replace (Nat.min (Z.to_nat len + Z.to_nat (k - len)) (Z.to_nat len)) with (Z.to_nat len) by lia.
        replace (Z.to_nat len + Z.to_nat (k - len) - Z.to_nat len)%nat with (Z.to_nat (k - len)) by lia. reflexivity. }
      rewrite E, !map_app. cbn [map]. rewrite <- app_assoc. do 2 f_equal.
      assert (L : (Z.to_nat (k - len) <= length (skipn (Z.to_nat len) data))%nat) by (rewrite skipn_length; lia).
      revert Hr L. generalize (skipn (Z.to_nat len) data) as r, (Z.to_nat (k - len)) as n. clear.
      intros r n. revert r. induction n as [|n IH]; intros r Hr L; [reflexivity|]. destruct r as [|y r]; cbn [length] in L; [lia|].
      inversion Hr; subst. cbn [firstn map repeat]. f_equal. apply IH; [assumption|lia].
    + rewrite skipn_upd_lt by lia. replace (S (Z.to_nat k)) with (Z.to_nat len + (S (Z.to_nat k) - Z.to_nat len))%nat by lia.
      rewrite skipn_add'. rewrite <- (firstn_skipn (S (Z.to_nat k) - Z.to_nat len) (skipn (Z.to_nat len) data)) in Hr. apply Forall_app in Hr. apply Hr.
  - split.
    + rewrite firstn_upd_lt by lia. rewrite map_upd, upd_split by (rewrite map_length, firstn_length; lia). reflexivity.
    + rewrite skipn_upd_lt by lia. exact Hr.
Qed.

Lemma bytes_grown : forall st max ops fuel v0, let ty := OElem (EBytes st max) in
  capacity_ok max -> Forall (op_ok ty) ops -> Forall grows ops -> owt ty v0 ->
  let l := fold_left (bytes_step max) ops [] in
  (exists v, run_ops fuel ops ty (construct ty) = Done v /\ oview ty v = SvB l)
  /\ (exists v, run_ops fuel (OpClear :: ops) ty v0 = Done v /\ oview ty v = SvB l).
Proof.
  intros st max ops fuel v0 ty Hc Hok Hg Hw l. unfold l. clear l. unfold capacity_ok in Hc.
  assert (G : forall ops v bs, Forall (op_ok ty) ops -> Forall grows ops -> (exists len data, v = VB len data /\ 0 <= len <= max /\ zlen data = max
      /\ rest (fun y => y = 0) len data /\ bs = firstn (Z.to_nat len) data) ->
    exists v', run_ops fuel ops ty v = Done v' /\ oview ty v' = SvB (fold_left (bytes_step max) ops bs)).
  { clear Hok Hg Hw ops v0. induction ops as [|o ops IH]; intros v bs Hok Hg (len & data & -> & Hl & Hz & Hr & ->).
    - eexists. split; [reflexivity|]. reflexivity.
    - inversion Hok as [|? ? Ho Hok']; subst. inversion Hg as [|? ? Hgo Hg']; subst. cbn [run_ops fold_left].
      destruct o; cbn [grows op_ok ty] in Hgo, Ho; try contradiction.
      + (* clear *) cbn [run_op ty clear bytes_clear bind]. apply IH; auto. exists 0, (zrepeat 0 (zlen data)). split; [reflexivity|]. split; [lia|].
        split; [rewrite zlen_zrepeat; lia|]. split; [|reflexivity]. unfold rest. cbn [Z.to_nat skipn]. unfold zrepeat. apply Forall_forall. intros y Hy.
        now apply repeat_spec in Hy.
      + (* put *) destruct Ho as [Hi Hb]. unfold legal_index in Hi. cbn [run_op ty bytes_put]. unfold bytes_get. rewrite u32_small by lia.
        rewrite aset_ok by lia. cbn [bind].
        destruct (rest_put (fun y => y) 0 _ data len index b Hl eq_refl ltac:(lia) ltac:(lia) Hr) as [E Hr']. rewrite !map_id in E.
        apply IH; auto. do 2 eexists. split; [reflexivity|]. rewrite zlen_upd. split; [destruct (Z.leb_spec len (Z.min index (zlen data - 1))); lia|].
        split; [reflexivity|]. split; [exact Hr'|]. symmetry. exact E. }
  split.
  { apply G; auto. exists 0, (zrepeat 0 max). split; [reflexivity|]. split; [lia|]. split; [rewrite zlen_zrepeat; lia|]. split; [|reflexivity].
    unfold rest. cbn [Z.to_nat skipn]. unfold zrepeat. apply Forall_forall. intros y Hy. now apply repeat_spec in Hy. }
  cbn [run_ops]. destruct v0 as [| |len data| |]; try contradiction. destruct Hw as (Hl & Hz & _). cbn [run_op ty clear bytes_clear bind].
  apply G; auto. exists 0, (zrepeat 0 (zlen data)). split; [reflexivity|]. split; [lia|].
  split; [rewrite zlen_zrepeat; lia|]. split; [|reflexivity]. unfold rest. cbn [Z.to_nat skipn]. unfold zrepeat. apply Forall_forall. intros y Hy.
  now apply repeat_spec in Hy.
Qed.

Lemma list_grown : forall max t ops fuel v0, let ty := ORep max t in
  oty_ok ty -> Forall (op_ok ty) ops -> Forall grows ops -> owt ty v0 ->
  let l := fold_left (list_step t max) ops [] in
  (exists v, run_ops fuel ops ty (construct ty) = Done v /\ oview ty v = SvR l)
  /\ (exists v, run_ops fuel (OpClear :: ops) ty v0 = Done v /\ oview ty v = SvR l).
Proof.
  intros max t ops fuel v0 ty Hty Hok Hg Hw l. unfold l. clear l. pose proof Hty as [Hd Hc]. unfold capacity_ok in Hc.
  assert (C : forall v, owt ty v -> exists data, run_op fuel OpClear ty v = Done (NoErrors, VR 0 data) /\ zlen data = max
    /\ all (wt t) data /\ Forall (tidy t) data /\ Forall (fun y => view t y = sdefault t) data).
  { intros v Hv. destruct v as [| | |len data|]; try contradiction. destruct Hv as (Hlen & Hz & Hall).
    destruct (map_res_ok (clear t) (wt t) (fun y => good t y (sdefault t)) data (fun x Hx => clear_good t x Hx Hd) Hall) as (l' & E & Hl' & Hz').
    exists l'. cbn [run_op ty rep_clear]. rewrite E. cbn [bind]. split; [reflexivity|]. split; [lia|].
    split; [eapply all_impl; [|exact Hl']; intros x Hx; apply Hx|]. apply all_Forall in Hl'.
    split; (eapply Forall_impl; [|exact Hl']); intros x Hx; [now apply fresh_tidy|apply Hx]. }
  assert (G : forall ops v l, Forall (op_ok ty) ops -> Forall grows ops -> (exists len data, v = VR len data /\ 0 <= len <= max /\ zlen data = max
      /\ all (wt t) data /\ Forall (tidy t) data /\ rest (fun y => view t y = sdefault t) len data /\ l = map (view t) (firstn (Z.to_nat len) data)) ->
    exists v', run_ops fuel ops ty v = Done v' /\ oview ty v' = SvR (fold_left (list_step t max) ops l)).
  { clear Hok Hg Hw ops v0. induction ops as [|o ops IH]; intros v l Hok Hg (len & data & -> & Hl & Hz & Hall & Ht & Hr & ->).
    - eexists. split; reflexivity.
    - inversion Hok as [|? ? Ho Hok']; subst. inversion Hg as [|? ? Hgo Hg']; subst.
      assert (P : forall i src, 0 <= i -> wt t src -> exists x', (let* old := aget data (Z.min i (zlen data - 1)) in assign t old src) = Done x' /\ wt t x' /\ tidy t x' /\ view t x' = view t src).
      { intros i src Hi Hs. destruct (aget_ok data (Z.min i (zlen data - 1))) as (x & -> & Ex); [lia|]. cbn [bind]. apply all_Forall in Hall.
        assert (Hx : wt t x) by (eapply Forall_forall in Hall; [exact Hall|]; eapply nth_error_In; exact Ex).
        assert (Htx : tidy t x) by (eapply Forall_forall in Ht; [exact Ht|]; eapply nth_error_In; exact Ex).
        exact (assign_ok t Hd x src (asg_pre_intro t x Hx Htx) Hs). }
      assert (Q : forall i src x', 0 <= i -> wt t x' -> tidy t x' -> view t x' = view t src ->
        let k := Z.min i (zlen data - 1) in
        exists v', run_ops fuel ops ty (VR (if len <=? k then k + 1 else len) (upd (Z.to_nat k) x' data)) = Done v'
          /\ oview ty v' = SvR (fold_left (list_step t (zlen data)) ops (put_padded (sdefault t) (zlen data) (map (view t) (firstn (Z.to_nat len) data)) i (view t src)))).
      { intros i src x' Hi Hw' Ht' Hv' k.
        destruct (rest_put (view t) (sdefault t) _ data len i x' Hl eq_refl ltac:(lia) Hi Hr) as [E Hr']. fold k in E, Hr'.
        apply IH; auto. do 2 eexists. split; [reflexivity|]. rewrite zlen_upd. split; [destruct (Z.leb_spec len k); lia|].
        split; [reflexivity|]. split; [apply all_Forall; apply Forall_upd; [now apply all_Forall|exact Hw']|]. split; [now apply Forall_upd|].
        split; [exact Hr'|]. rewrite <- Hv'. symmetry. exact E. }
      cbn [run_ops fold_left]. destruct o; cbn [grows op_ok ty] in Hgo, Ho; try contradiction.
      + (* clear *) destruct (C (VR len data)) as (d' & -> & Hz' & Hw' & Ht' & Hr'); [split; auto|]. cbn [bind].
        apply IH; auto. exists 0, d'. split; [reflexivity|]. split; [lia|]. auto 10.
      + (* set *) destruct Ho as [Hi Hs]. unfold legal_index in Hi. destruct (P index src ltac:(lia) Hs) as (x' & E & Hw' & Ht' & Hv').
        cbn [run_op ty rep_set]. rewrite (rep_get_ok len data index _ eq_refl Hc).
        destruct (aget_ok data (Z.min index (zlen data - 1))) as (x & Ex & _); [lia|]. rewrite Ex in *. cbn [bind] in *. rewrite E. cbn [bind].
        rewrite aset_ok by lia. cbn [bind list_step]. apply Q; auto. lia.
      + (* add *) cbn [run_op ty rep_add list_step]. rewrite zlen_map, zlen_firstn. replace (Z.min (Z.of_nat (Z.to_nat len)) (zlen data)) with len by lia.
        destruct (Z.ltb_spec len (zlen data)).
        * destruct (P len src ltac:(lia) Ho) as (x' & E & Hw' & Ht' & Hv'). rewrite Z.min_l in E by lia.
          destruct (aget_ok data len) as (x & Ex & _); [lia|]. rewrite Ex in *. cbn [bind] in *. rewrite E. cbn [bind].
          rewrite aset_ok by lia. cbn [bind].
          pose proof (Q len src x' ltac:(lia) Hw' Ht' Hv') as R. cbv zeta in R. rewrite Z.min_l in R by lia. destruct (Z.leb_spec len len); [|lia].
          unfold put_padded in R. rewrite zlen_map, zlen_firstn in R. replace (Z.min (Z.of_nat (Z.to_nat len)) (zlen data)) with len in R by lia.
          rewrite Z.min_l in R by lia. rewrite Z.ltb_irrefl, Z.sub_diag in R. exact R.
        * cbn [bind]. apply IH; auto. exists len, data. auto 10. }
  split.
  { destruct (construct_ok ty Hty) as (Hw0 & Ht0 & _). cbn [construct default_field_of ty] in *. destruct Hw0 as (_ & Hz0 & Hall0).
    apply G; auto. do 2 eexists. split; [reflexivity|]. split; [lia|]. split; [exact Hz0|]. split; [exact Hall0|]. split; [exact Ht0|]. split; [|reflexivity].
    unfold rest. cbn [Z.to_nat skipn]. unfold zrepeat. apply Forall_forall. intros y Hy. apply repeat_spec in Hy as ->. now apply default_ok. }
  cbn [run_ops]. destruct (C v0 Hw) as (d' & -> & Hz' & Hw' & Ht' & Hr'). cbn [bind].
  apply G; auto. exists 0, d'. split; [reflexivity|]. split; [lia|]. auto 10.
Qed.

(** *** What shows up in a gap *)
Lemma nth_error_skipn {A} : forall n j (l : list A), nth_error (skipn n l) j = nth_error l (n + j).
Proof. induction n as [|n IH]; intros j [|y l]; cbn [skipn Nat.add nth_error]; auto. now destruct j. Qed.

(** [data'] is [data] with the first elements replaced. *)
Lemma behind {A B} (f : A -> B) (data data' : list A) n j : skipn n data' = skipn n data -> (n <= j)%nat ->
  nth_error (map f data') j = nth_error (map f data) j.
Proof.
  intros H Hj. replace j with (n + (j - n))%nat by lia. rewrite <- !nth_error_skipn, !skipn_map, H. reflexivity.
Qed.

Lemma bytes_gap : forall st max old new i b fuel, let ty := OElem (EBytes st max) in
  capacity_ok max -> Forall is_byte old -> zlen old <= max -> Forall is_byte new -> zlen new <= i < max -> is_byte b ->
  exists v bs, run_ops fuel [OpBytesSet old (zlen old); OpBytesSet new (zlen new); OpBytesPut i b] ty (construct ty) = Done v
    /\ oview ty v = SvB bs /\ zlen bs = i + 1 /\ firstn (length new) bs = new
    /\ forall j x, (length new <= j < Z.to_nat i)%nat -> nth_error old j = Some x -> nth_error bs j = Some x.
Proof.
  intros st max old new i b fuel ty Hc Ho Hlo Hn Hln Hb. unfold capacity_ok in Hc. pose proof (zlen_nonneg old). pose proof (zlen_nonneg new). cbn [run_ops run_op ty construct default_value].
  assert (Hz0 : zlen (zrepeat 0 max) = max) by (rewrite zlen_zrepeat; lia).
  cbn [bytes_set]. rewrite Hz0. destruct (Z.leb_spec (zlen old) max); [|lia]. rewrite memcpy_ok by lia. cbn [bind Z.to_nat firstn app].
  set (d1 := firstn (Z.to_nat (zlen old)) old ++ skipn (Z.to_nat (0 + zlen old)) (zrepeat 0 max)).
  assert (Hd1 : zlen d1 = max) by (unfold d1; rewrite zlen_app, zlen_firstn, zlen_skipn; lia).
  cbn [bytes_set]. rewrite Hd1. destruct (Z.leb_spec (zlen new) max); [|lia]. rewrite memcpy_ok by lia. cbn [bind Z.to_nat firstn app].
  set (d2 := firstn (Z.to_nat (zlen new)) new ++ skipn (Z.to_nat (0 + zlen new)) d1).
  assert (Hd2 : zlen d2 = max) by (unfold d2; rewrite zlen_app, zlen_firstn, zlen_skipn; lia).
  cbn [bytes_put]. unfold bytes_get. rewrite Hd2, u32_small by lia. rewrite Z.min_l by lia. destruct (Z.leb_spec (zlen new) i); [|lia].
  rewrite aset_ok by lia. cbn [bind]. do 2 eexists. split; [reflexivity|]. cbn [oview view]. split; [reflexivity|].
  unfold zlen in *. split; [rewrite firstn_length, length_upd; lia|].
  replace (Z.to_nat (i + 1)) with (S (Z.to_nat i)) by lia. split.
  - rewrite firstn_firstn. rewrite Nat.min_l by lia. rewrite firstn_upd_ge by lia. unfold d2. rewrite Nat2Z.id, firstn_all, firstn_app, Nat.sub_diag, firstn_O, firstn_all.
    apply app_nil_r.
  - intros j x Hj Hx. rewrite nth_error_firstn_lt by lia. rewrite nth_error_upd_other by lia. unfold d2. rewrite Nat2Z.id, firstn_all.
    rewrite nth_error_app2 by lia. rewrite nth_error_skipn. replace (Z.to_nat (0 + Z.of_nat (length new)) + (j - length new))%nat with j by lia.
    unfold d1. rewrite Nat2Z.id, firstn_all. rewrite nth_error_app1; [exact Hx|]. apply nth_error_Some. congruence.
Qed.

Lemma list_gap : forall max t old new i b fuel, let ty := ORep max t in
  oty_ok ty -> Forall (wt t) old -> zlen old <= max -> Forall (wt t) new -> zlen new <= i < max -> wt t b ->
  exists v l, run_ops fuel [OpRepSetData old (zlen old); OpRepSetData new (zlen new); OpRepSet i b] ty (construct ty) = Done v
    /\ oview ty v = SvR l /\ zlen l = i + 1 /\ firstn (length new) l = map (view t) new
    /\ forall j x, (length new <= j < Z.to_nat i)%nat -> nth_error old j = Some x -> nth_error l j = Some (view t x).
Proof.
  intros max t old new i b fuel ty Hok Ho Hlo Hn Hln Hb. pose proof Hok as [Hd Hc]. unfold capacity_ok in Hc. pose proof (zlen_nonneg old). pose proof (zlen_nonneg new).
  destruct (construct_ok ty Hok) as (Hw0 & Ht0 & _). cbn [run_ops run_op ty]. cbn [construct default_field_of ty] in *.
  destruct Hw0 as (_ & Hz0 & Hall0). cbn [otidy tidy_field] in Ht0. set (d0 := zrepeat (default_value t) max) in *.
  cbn [rep_set_data]. rewrite Hz0. destruct (Z.leb_spec (zlen old) max); [|lia].
  destruct (set_data_loop_ok t (assign_ok t) Hd (Z.to_nat (zlen old)) 0 d0 old) as (d1 & -> & Hz1 & Hw1 & Ht1 & Hf1 & _); try lia; auto. cbn [bind].
  cbn [rep_set_data]. rewrite Hz1, Hz0. destruct (Z.leb_spec (zlen new) max); [|lia].
  destruct (set_data_loop_ok t (assign_ok t) Hd (Z.to_nat (zlen new)) 0 d1 new) as (d2 & -> & Hz2 & Hw2 & Ht2 & Hf2 & Hs2); try lia; auto. cbn [bind].
  cbn [Z.to_nat Nat.add firstn app skipn] in Hf1, Hf2, Hs2.
  cbn [rep_set]. rewrite (rep_get_ok (zlen new) d2 i max ltac:(lia) Hc). rewrite Z.min_l by lia.
  destruct (aget_ok d2 i) as (x & -> & Ex); [lia|]. cbn [bind]. apply all_Forall in Hw2.
  assert (Hx : wt t x) by (eapply Forall_forall in Hw2; [exact Hw2|]; eapply nth_error_In; exact Ex).
  assert (Htx : tidy t x) by (eapply Forall_forall in Ht2; [exact Ht2|]; eapply nth_error_In; exact Ex).
  destruct (assign_ok t Hd x b (asg_pre_intro t x Hx Htx) Hb) as (x' & -> & Hw' & Ht' & Hv'). cbn [bind].
  rewrite aset_ok by lia. cbn [bind]. destruct (Z.leb_spec (zlen new) i); [|lia].
  do 2 eexists. split; [reflexivity|]. cbn [oview view_field]. split; [reflexivity|].
  unfold zlen in *. split; [rewrite map_length, firstn_length, length_upd; lia|].
  replace (Z.to_nat (i + 1)) with (S (Z.to_nat i)) by lia. rewrite Nat2Z.id in *. split.
  - rewrite <- !firstn_map, map_upd, firstn_firstn. rewrite Nat.min_l by lia. rewrite firstn_upd_ge by lia. rewrite Hf2.
    rewrite <- (map_length (view t) new). apply firstn_all.
  - intros j y Hj Hy. rewrite <- firstn_map, map_upd, nth_error_firstn_lt by lia. rewrite nth_error_upd_other by lia.
    rewrite (behind (view t) d1 d2 (length new) j Hs2) by lia.
    assert (Hjo : (j < length old)%nat) by (apply nth_error_Some; congruence).
    rewrite <- (nth_error_firstn_lt (length old)) by exact Hjo. rewrite Hf1. rewrite nth_error_firstn_lt by exact Hjo. now apply map_nth_error.
Qed.
