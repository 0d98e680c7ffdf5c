(** What follows from the count: bounds, and growth with the nesting (C72). *)
From Verif Require Import Base Buffers Wire Schema Fields Message Spec Contracts BitLemmas WriteProofs
  ReadProofs ScalarProofs BufferProofs Struct SerProofs SerProps SpecWork Metered MeteredProofs.
From Coq Require Import ZifyBool ZifyNat ZifyN.
Ltac Zify.zify_post_hook ::= Z.div_mod_to_equations.

Theorem serialize_count : forall t v, wt t v -> desc_ok t -> zlen (enc t (view t v)) < 2 ^ 32 ->
  forall S (W : wops S) s,
  match metered_serialize t v S W (s, 0) with
  | Done (e, (s', k)) => serialize t v S W s = Done (e, s') /\ 0 <= k <= work t (view t v)
      /\ (sticky W -> e = NoErrors -> k = work t (view t v))
  | UB => serialize t v S W s = UB
  | Fuel => serialize t v S W s = Fuel
  end.
Proof.
  intros t v Hw Hd Hl S W s. pose proof (metered_ok t v Hw Hd Hl S W s 0) as H. unfold magree in H.
  destruct (metered_serialize t v S W (s, 0)) as [[e [s' k]]| |], (serialize t v S W s) as [[e2 s2]| |]; try contradiction; auto.
  destruct H as (-> & -> & H1 & H2). auto.
Qed.

(** ** The upper bound *)
Definition bounded (t : ety) : Prop := match t with EBytes _ _ => True | _ => forall x, work t x <= 4 ^ depth t * zlen (enc t x) end.

Lemma fold_max_In {A} (f : A -> Z) x l : In x l -> f x <= fold_right Z.max 0 (map f l).
Proof. induction l as [|y l IH]; intros []; cbn [map fold_right]; [subst; lia|specialize (IH H); lia]. Qed.
Lemma fold_max_nonneg l : 0 <= fold_right Z.max 0 l.
Proof. induction l; cbn [fold_right]; lia. Qed.
Lemma depth_nonneg t : 0 <= depth t.
Proof. destruct t; cbn [depth]; try lia. pose proof (fold_max_nonneg (map (fun f : fdesc => depth (snd f)) fields)). lia. Qed.

Lemma zlen_tag_pos num w : 1 <= zlen (tag num w).
Proof. pose proof (tag_nonempty num w). destruct (tag num w); [congruence|]. rewrite zlen_cons. pose proof (zlen_nonneg l). lia. Qed.
Lemma header_pos num p : 2 <= header num p.
Proof. unfold header. pose proof (zlen_tag_pos num LENDEL). pose proof (zlen_varint_pos (zlen p)). lia. Qed.
Lemma zlen_record num p : zlen (tag num LENDEL ++ delimited p) = header num p + zlen p.
Proof. unfold delimited, header. rewrite !zlen_app. lia. Qed.

Lemma mul_mono a b c : 0 <= a -> 0 <= b -> a <= c -> a * b <= c * b.
Proof. intros. apply Z.mul_le_mono_nonneg_r; lia. Qed.

Lemma work_elem_bound num t x C : bounded t -> 4 * 4 ^ depth t <= C ->
  work_elem num t (enc t x) (work t x) <= C * zlen (enc_elem num t (enc t x)).
Proof.
  intros Hb HC. pose proof (depth_nonneg t). assert (1 <= 4 ^ depth t) by (pose proof (Z.pow_pos_nonneg 4 (depth t)); lia).
  destruct t as [sc|st max|fs os]; cbn [work_elem enc_elem].
  - rewrite zlen_app. pose proof (zlen_nonneg (tag num (scalar_wiretype sc))). pose proof (zlen_nonneg (enc (EScalar sc) x)). nia.
  - rewrite zlen_record. set (p := enc (EBytes st max) x). pose proof (header_pos num p). pose proof (zlen_nonneg p).
    assert (again p 1 <= zlen p) by (destruct p; cbn [again]; [cbn; lia|rewrite zlen_cons; pose proof (zlen_nonneg p); lia]). nia.
  - rewrite zlen_record. set (t := EMsg fs os) in *. specialize (Hb x). change (work t x <= 4 ^ depth t * zlen (enc t x)) in Hb.
    pose proof (header_pos num (enc t x)). pose proof (zlen_nonneg (enc t x)).
    pose proof (mul_mono (4 * 4 ^ depth t) (zlen (enc t x)) C). pose proof (mul_mono 1 (header num (enc t x)) C). 
    pose proof (work_nonneg t x). lia.
Qed.

Lemma work_item_bound num t x C : bounded t -> is_packed t = false -> 4 * 4 ^ depth t <= C ->
  2 * work_item num (enc t) (work t) x <= C * zlen (enc_elem num t (enc t x)).
Proof.
  intros Hb Hp HC. pose proof (depth_nonneg t). assert (1 <= 4 ^ depth t) by (pose proof (Z.pow_pos_nonneg 4 (depth t)); lia).
  unfold work_item. destruct t as [sc|st max|fs os]; [discriminate| |]; cbn [enc_elem]; rewrite zlen_record.
  - cbn [work]. set (p := enc (EBytes st max) x). pose proof (header_pos num p). pose proof (zlen_nonneg p).
    assert (again p 1 <= zlen p) by (destruct p; cbn [again]; [cbn; lia|rewrite zlen_cons; pose proof (zlen_nonneg p); lia]). nia.
  - set (t := EMsg fs os) in *. specialize (Hb x). change (work t x <= 4 ^ depth t * zlen (enc t x)) in Hb.
    pose proof (header_pos num (enc t x)). pose proof (zlen_nonneg (enc t x)).
    pose proof (mul_mono (4 * 4 ^ depth t) (zlen (enc t x)) C). pose proof (mul_mono 2 (header num (enc t x)) C).
    assert (again (enc t x) (work t x) <= work t x) by (pose proof (work_nonneg t x); destruct (enc t x); cbn [again]; lia). lia.
Qed.

Lemma work_field_bound num k t v C : bounded t -> 4 * 4 ^ depth t <= C ->
  work_field num k t (enc t) (work t) v <= C * zlen (enc_field num k t (enc t) v).
Proof.
  intros Hb HC. pose proof (depth_nonneg t). assert (H1 : 1 <= 4 ^ depth t) by (pose proof (Z.pow_pos_nonneg 4 (depth t)); lia).
  assert (H0 : forall l : list Z, 0 <= C * zlen l) by (intros l; pose proof (zlen_nonneg l); nia).
  assert (He : forall x, work_elem num t (enc t x) (work t x) <= C * zlen (enc_elem num t (enc t x))) by (intros x; apply work_elem_bound; assumption).
  assert (Hm : forall x, is_packed t = true \/ (match t with EMsg _ _ => True | _ => False end) -> enc t x = [] -> work t x <= 0).
  { intros x Ht E. destruct t as [sc|st max|fs os]; [|destruct Ht; [discriminate|tauto]|]; specialize (Hb x); rewrite E in Hb; change (zlen []) with 0 in Hb; lia. }
  destruct k; cbn [work_field enc_field]; try (apply H0).
  - destruct t as [sc|st max|fs os].
    + assert (G : match enc (EScalar sc) v with [] => work (EScalar sc) v | _ => work_elem num (EScalar sc) (enc (EScalar sc) v) (work (EScalar sc) v) end
        <= C * zlen (match enc (EScalar sc) v with [] => [] | p => enc_elem num (EScalar sc) p end)).
      { specialize (Hm v (or_introl eq_refl)). specialize (He v). destruct (enc (EScalar sc) v); [change (zlen []) with 0; specialize (Hm eq_refl); lia|exact He]. }
      destruct v; try exact G. destruct (is_zero sc z); [apply H0|apply He].
    + assert (G : again (enc (EBytes st max) v) (work_elem num (EBytes st max) (enc (EBytes st max) v) (work (EBytes st max) v))
        <= C * zlen (match enc (EBytes st max) v with [] => [] | p => enc_elem num (EBytes st max) p end)).
      { specialize (He v). destruct (enc (EBytes st max) v); cbn [again]; [apply (H0 [])|exact He]. }
      destruct v; exact G.
    + assert (G : match enc (EMsg fs os) v with [] => work (EMsg fs os) v | _ => work_elem num (EMsg fs os) (enc (EMsg fs os) v) (work (EMsg fs os) v) end
        <= C * zlen (match enc (EMsg fs os) v with [] => [] | p => enc_elem num (EMsg fs os) p end)).
      { specialize (Hm v (or_intror I)). specialize (He v). destruct (enc (EMsg fs os) v); [change (zlen []) with 0; specialize (Hm eq_refl); lia|exact He]. }
      destruct v; exact G.
  - destruct v; try apply (H0 []). apply He.
  - destruct v; try apply (H0 []). destruct t as [sc|st max|fs os].
    + cbv zeta. set (p := flat_map (enc (EScalar sc)) elems). destruct elems as [|y l] eqn:El; [subst p; cbn; lia|].
      rewrite zlen_record. fold p. pose proof (header_pos num p). pose proof (zlen_nonneg p).
      assert (again p (header num p + zlen p) <= header num p + zlen p) by (destruct p; cbn [again]; lia). nia.
    + assert (Hi : forall x, 2 * work_item num (enc (EBytes st max)) (work (EBytes st max)) x <= C * zlen (enc_elem num (EBytes st max) (enc (EBytes st max) x)))
        by (intros x; apply work_item_bound; auto).
      clear He Hm Hb. induction elems as [|y l IH]; [cbn; lia|]. cbn [map zsum fold_right flat_map]. rewrite zlen_app. specialize (Hi y). unfold zsum in IH. lia.
    + assert (Hi : forall x, 2 * work_item num (enc (EMsg fs os)) (work (EMsg fs os)) x <= C * zlen (enc_elem num (EMsg fs os) (enc (EMsg fs os) x)))
        by (intros x; apply work_item_bound; auto).
      clear He Hm Hb. induction elems as [|y l IH]; [cbn; lia|]. cbn [map zsum fold_right flat_map]. rewrite zlen_app. specialize (Hi y). unfold zsum in IH. lia.
Qed.

Lemma pow4_mono a b : 0 <= a -> a + 1 <= b -> 4 * 4 ^ a <= 4 ^ b.
Proof. intros Ha Hab. rewrite <- Z.pow_succ_r by lia. apply Z.pow_le_mono_r; lia. Qed.

Lemma bounded_all t : bounded t.
Proof.
  induction t as [sc|st max|fs os Hf Ho] using ety_ind'; [|exact I|].
  - intros x. cbn [work depth]. change (4 ^ 0) with 1. lia.
  - intros x. set (C := 4 ^ depth (EMsg fs os)). cbn [work enc]. pose proof (zlen_nonneg (enc (EMsg fs os) x)) as Hz.
    assert (HC : 0 <= C) by (apply Z.pow_nonneg; lia).
    assert (H0 : forall l : list Z, 0 <= C * zlen l) by (intros l; pose proof (zlen_nonneg l); nia).
    destruct x; try (apply (H0 [])). rewrite zlen_app, Z.mul_add_distr_l. apply Z.add_le_mono.
    + assert (Hc : Forall (fun f : fdesc => bounded (snd f) /\ 4 * 4 ^ depth (snd f) <= C) fs).
      { apply Forall_forall. intros f Hin. split; [eapply Forall_forall in Hf; [exact Hf|exact Hin]|].
        apply pow4_mono; [apply depth_nonneg|]. cbn [depth]. pose proof (fold_max_In (fun f : fdesc => depth (snd f)) f fs Hin). cbv beta in *. lia. }
      clearbody C. clear Hf Ho Hz. revert fields. induction Hc as [|[[num k] t] fs (H1 & H2) Hc IH]; intros vs; cbn [map work_fields enc_fields]; [apply (H0 [])|].
      destruct vs as [|v vs]; [apply (H0 [])|]. rewrite zlen_app, Z.mul_add_distr_l. specialize (IH vs). pose proof (work_field_bound num k t v C H1 H2). lia.
    + assert (Hc : Forall (Forall (fun m : Z * ety => bounded (snd m) /\ 4 * 4 ^ depth (snd m) <= C)) os).
      { apply Forall_forall. intros ms Hms. apply Forall_forall. intros m Hin. eapply Forall_forall in Ho; [|exact Hms]. eapply Forall_forall in Ho; [|exact Hin].
        split; [exact Ho|]. apply pow4_mono; [apply depth_nonneg|]. cbn [depth]. pose proof (fold_max_In (fun m : Z * ety => depth (snd m)) m ms Hin).
        pose proof (fold_max_In (fun ms : odesc => fold_right Z.max 0 (map (fun m : Z * ety => depth (snd m)) ms)) ms os Hms). cbv beta in *. lia. }
      clearbody C. clear Hf Ho Hz. revert oneofs. induction Hc as [|ms os Hm Hc IH]; intros vs; cbn [map work_oneofs enc_oneofs]; [apply (H0 [])|].
      destruct vs as [|[w v] vs]; [apply (H0 [])|]. rewrite zlen_app, Z.mul_add_distr_l. specialize (IH vs). apply Z.add_le_mono; [|exact IH].
      unfold work_oneof, enc_oneof. cbn [fst snd]. rewrite (lookup_map (fun t => (t, enc t, work t))), (lookup_map (fun t => (t, enc t))).
      destruct (lookup ms w) as [t|] eqn:E; [|apply (H0 [])]. apply lookup_In in E. eapply Forall_forall in Hm; [|exact E]. destruct Hm as (H1 & H2).
      destruct v; try apply (H0 []). apply work_elem_bound; assumption.
Qed.

Theorem work_bound : forall fs os x, work (EMsg fs os) x <= 4 ^ depth (EMsg fs os) * zlen (enc (EMsg fs os) x).
Proof. intros fs os x. exact (bounded_all (EMsg fs os) x). Qed.

(** ** The lower bound *)
Lemma work_fields_In fs vs num k t v : In ((num, k, t), v) (combine fs vs) ->
  work_field num k t (enc t) (work t) v <= work_fields (map (fun '(num, k, t) => (num, k, t, enc t, work t)) fs) vs.
Proof.
  revert vs. induction fs as [|[[n0 k0] t0] fs IH]; intros vs; [intros []|]. destruct vs as [|v0 vs]; [intros []|]. cbn [combine map work_fields].
  assert (0 <= work_fields (map (fun '(num, k, t) => (num, k, t, enc t, work t)) fs) vs) by (apply work_fields_nonneg; apply Forall_forall; intros; apply work_nonneg).
  pose proof (work_field_nonneg n0 k0 t0 (enc t0) (work t0) v0 (work_nonneg t0)).
  intros [E|Hin]; [injection E as -> -> -> ->; lia|]. specialize (IH vs Hin). lia.
Qed.

Lemma work_twice : forall fs os vs ovs num ifs ios v, In ((num, KPlain, EMsg ifs ios), v) (combine fs vs) -> enc (EMsg ifs ios) v <> [] ->
  2 * work (EMsg ifs ios) v + 2 <= work (EMsg fs os) (SvM vs ovs).
Proof.
  intros fs os vs ovs num ifs ios v Hin Hne. pose proof (work_fields_In fs vs _ _ _ _ Hin) as H. set (t := EMsg ifs ios) in *.
  assert (E : work_field num KPlain t (enc t) (work t) v = work t v + header num (enc t v) + work t v).
  { cbn [work_field]. unfold t at 1. destruct (enc t v) eqn:Ee; [congruence|]. destruct v; reflexivity. }
  rewrite E in H. pose proof (header_pos num (enc t v)). cbn [work].
  pose proof (work_oneofs_nonneg os) as Ho. specialize (Ho ltac:(apply Forall_forall; intros; apply Forall_forall; intros; apply work_nonneg) ovs). lia.
Qed.

Lemma work_four_times : forall fs os vs ovs num max ifs ios l v, In ((num, KRep max, EMsg ifs ios), SvR l) (combine fs vs) -> In v l ->
  enc (EMsg ifs ios) v <> [] -> 4 * work (EMsg ifs ios) v + 4 <= work (EMsg fs os) (SvM vs ovs).
Proof.
  intros fs os vs ovs num max ifs ios l v Hin Hv Hne. pose proof (work_fields_In fs vs _ _ _ _ Hin) as H. set (t := EMsg ifs ios) in *.
  change (work_field num (KRep max) t (enc t) (work t) (SvR l)) with (2 * zsum (map (work_item num (enc t) (work t)) l)) in H.
  assert (E : work_item num (enc t) (work t) v <= zsum (map (work_item num (enc t) (work t)) l)).
  { clear H Hin. induction l as [|y l IH]; [destruct Hv|]. cbn [map zsum fold_right].
    assert (0 <= zsum (map (work_item num (enc t) (work t)) l)) by (apply zsum_nonneg; apply Forall_map; apply Forall_forall; intros; apply work_item_nonneg; apply work_nonneg).
    pose proof (work_item_nonneg num (enc t) (work t) y (work_nonneg t y)). unfold zsum in *. destruct Hv as [->|Hv]; [lia|specialize (IH Hv); lia]. }
  unfold work_item at 1 in E. assert (Ea : again (enc t v) (work t v) = work t v) by (destruct (enc t v); [congruence|reflexivity]). rewrite Ea in E.
  pose proof (header_pos num (enc t v)). cbn [work].
  pose proof (work_oneofs_nonneg os) as Ho. specialize (Ho ltac:(apply Forall_forall; intros; apply Forall_forall; intros; apply work_nonneg) ovs). lia.
Qed.

Lemma nest_msg rep n : exists fs os, nest rep n = EMsg fs os.
Proof. destruct n; cbn [nest]; eauto. Qed.

Lemma nest_ok rep n : desc_ok (nest rep n).
Proof.
  induction n as [|n IH]; cbn [nest desc_ok field_numbers map flat_map app all].
  - repeat split; auto; try lia. repeat constructor; intros [].
  - repeat split; auto; try lia; [repeat constructor; intros []|]. destruct rep; [unfold capacity_ok; lia|exact I].
Qed.

Lemma nest_wt rep n : wt (nest rep n) (nest_v rep n).
Proof.
  induction n as [|n IH]; cbn [nest nest_v wt all2 all wt_oneof].
  - repeat split; auto; cbn; lia.
  - destruct rep; cbn [wt_field all]; repeat split; auto; cbn; lia.
Qed.

Lemma nest_view rep n : view (nest rep (S n)) (nest_v rep (S n)) =
  SvM [if rep then SvR [view (nest rep n) (nest_v rep n)] else view (nest rep n) (nest_v rep n)] [].
Proof. destruct rep; reflexivity. Qed.

Lemma zlen_varint_le v : 0 <= v < 2 ^ 32 -> zlen (varint v) <= 5.
Proof.
  intros H. assert (G : forall n m k, 0 <= m < 128 ^ Z.of_nat (Datatypes.S n) -> (n < k)%nat -> zlen (varint_groups k m) <= Z.of_nat n + 1).
  { induction n as [|n IH]; intros m k Hm Hk; (destruct k as [|k]; [lia|]); cbn [varint_groups]; destruct (Z.ltb_spec m 128); try (change (zlen [m]) with 1; lia).
    rewrite zlen_cons. specialize (IH (m / 128) k). rewrite Nat2Z.inj_succ, Z.pow_succ_r in Hm by lia.
    specialize (IH ltac:(split; [apply Z.div_pos; lia|apply Z.div_lt_upper_bound; lia]) ltac:(lia)). lia. }
  apply (G 4%nat); [|lia]. change (128 ^ Z.of_nat 5) with (2 ^ 35). lia.
Qed.

Lemma nest_enc rep n : enc (nest rep n) (view (nest rep n) (nest_v rep n)) <> []
  /\ (Z.of_nat n < 2 ^ 29 -> zlen (enc (nest rep n) (view (nest rep n) (nest_v rep n))) <= 6 * Z.of_nat n + 2).
Proof.
  induction n as [|n (IH1 & IH2)].
  - change (enc (nest rep 0) (view (nest rep 0) (nest_v rep 0))) with [8; 1]. split; [discriminate|]. intros _. cbn. lia.
  - rewrite nest_view. set (t := nest rep n) in *. set (x := view t (nest_v rep n)) in *.
    assert (E : enc (nest rep (S n)) (SvM [if rep then SvR [x] else x] []) = tag 1 LENDEL ++ delimited (enc t x)).
    { destruct (nest_msg rep n) as (fs & os & Et). fold t in Et.
      cbn [nest enc map]. fold t. cbn [enc_fields enc_oneofs]. rewrite !app_nil_r. destruct rep.
      - cbn [enc_field flat_map]. rewrite Et at 1. rewrite app_nil_r. unfold enc_elem. rewrite Et at 1. reflexivity.
      - cbn [enc_field]. rewrite Et at 1. destruct (enc t x) eqn:Ee; [congruence|]. unfold enc_elem. rewrite Et. destruct x; reflexivity. }
    rewrite E. split.
    + destruct (tag 1 LENDEL) eqn:Et; [now apply tag_nonempty in Et|discriminate].
    + intros Hn. specialize (IH2 ltac:(lia)). rewrite zlen_record. unfold header. pose proof (zlen_nonneg (enc t x)).
      pose proof (zlen_varint_le (zlen (enc t x)) ltac:(lia)). change (zlen (tag 1 LENDEL)) with 1. lia.
Qed.

Lemma nest_work (rep : bool) n : (if rep then 4 else 2) ^ Z.of_nat n <= work (nest rep n) (view (nest rep n) (nest_v rep n)).
Proof.
  induction n as [|n IH]; [destruct rep; vm_compute; discriminate|]. destruct (nest_enc rep n) as (Hne & _).
  rewrite nest_view, Nat2Z.inj_succ, Z.pow_succ_r by lia. cbn [nest]. destruct (nest_msg rep n) as (fs & os & Et). destruct rep.
  - pose proof (work_four_times [(1, KRep 1, nest true n)] [] [SvR [view (nest true n) (nest_v true n)]] [] 1 1 fs os
      [view (nest true n) (nest_v true n)] (view (nest true n) (nest_v true n))) as H. rewrite <- Et in H.
    specialize (H (or_introl eq_refl) (or_introl eq_refl) Hne). lia.
  - pose proof (work_twice [(1, KPlain, nest false n)] [] [view (nest false n) (nest_v false n)] [] 1 fs os (view (nest false n) (nest_v false n))) as H. rewrite <- Et in H.
    specialize (H (or_introl eq_refl) Hne). lia.
Qed.

Lemma magree_lower {S} (W : wops S) n k r1 r2 e s' k' : magree W n k r1 r2 -> r1 = Done (e, (s', k')) -> k <= k'.
Proof. intros H ->. cbn [magree] in H. destruct r2 as [[e2 s2]| |]; try contradiction. lia. Qed.

Theorem serialize_exponential : forall (rep : bool) n, Z.of_nat n < 2 ^ 28 ->
  let t := nest rep (S n) in let v := nest_v rep (S n) in
  desc_ok t /\ wt t v /\ zlen (enc t (view t v)) <= 6 * Z.of_nat n + 8 /\
  forall S (W : wops S) s e s' k, metered_serialize t v S W (s, 0) = Done (e, (s', k)) -> (if rep then 4 else 2) ^ Z.of_nat n <= k.
Proof.
  intros rep n Hn t v. split; [apply nest_ok|]. split; [apply nest_wt|]. split.
  { pose proof (proj2 (nest_enc rep (S n)) ltac:(lia)). unfold t, v. lia. }
  intros S W s e s' k H. pose proof (nest_work rep n) as Hw. pose proof (proj2 (nest_enc rep n) ltac:(lia)) as Hl.
  unfold t, v in H. cbn [nest nest_v metered_serialize map mfields_serialize mfield_serialize] in H.
  assert (Hend : forall r, (let* (e, s') := r in if is_ok e then Done (NoErrors, s') else Done (e, s')) = (r : res (err * (S * Z)))).
  { intros r. destruct r as [[e0 s0]| |]; cbn [bind]; try reflexivity. destruct e0; reflexivity. }
  cbn [moneofs_serialize] in H. rewrite !Hend in H.
  destruct (nest_msg rep n) as (fs & os & Et). pose proof (nest_ok rep n) as Hd. pose proof (nest_wt rep n) as Hv.
  pose proof (metered_ok (nest rep n)) as Hm. destruct rep.
  - set (t0 := nest true n) in *. set (x := view t0 (nest_v true n)) in *.
    assert (Hf : zlen (flat_map (fun x => enc_elem 1 t0 (enc t0 x)) [x]) < 2 ^ 32).
    { cbn [flat_map]. rewrite app_nil_r. unfold enc_elem. rewrite Et at 1. rewrite zlen_record. unfold header. change (zlen (tag 1 LENDEL)) with 1.
      pose proof (zlen_nonneg (enc t0 x)). pose proof (zlen_varint_le (zlen (enc t0 x)) ltac:(lia)). lia. }
    pose proof (rep_list_counts W t0 1 1 [nest_v true n] 1 s 0) as G.
    specialize (G ltac:(rewrite Et; reflexivity) Hm ltac:(cbn [wt_field all]; repeat split; auto; cbn; lia) Hd ltac:(unfold capacity_ok; lia) ltac:(lia) Hf).
    pose proof (magree_lower W _ _ _ _ _ _ _ G H) as Hk. clear G H.
    change (firstn (Z.to_nat 1) [nest_v true n]) with [nest_v true n] in Hk. cbn [map zsum fold_right] in Hk. fold x in Hk.
    unfold work_item in Hk. pose proof (header_nonneg 1 (enc t0 x)). pose proof (again_nonneg (enc t0 x) (work t0 x) (work_nonneg t0 x)). lia.
  - set (t0 := nest false n) in *. rewrite Et in H at 1. assert (Hm' := Hm). 
    assert (H' : melem_serialize_with_id t0 (metered_serialize t0) (nest_v false n) 1 false S W (s, 0) = Done (e, (s', k))).
    { rewrite Et. rewrite Et in H. destruct n; exact H. }
    pose proof (elem_msg_counts W fs os (nest_v false n) 1 false s 0) as G. rewrite <- Et in G. specialize (G Hm Hv Hd ltac:(lia) ltac:(lia)).
    pose proof (magree_lower W _ _ _ _ _ _ _ G H'). lia.
Qed.
