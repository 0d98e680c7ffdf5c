(** Calls whose argument refers into the object itself. *)
From Verif Require Import Base Buffers Wire Schema Fields Message Api Spec SpecApi Contracts BitLemmas
  ScalarProofs BufferProofs Struct SerProofs Tables DecodeProofs ClearProofs TidyProofs AssignProofs
  SafetyProofs SafetyMsg SafetyProps ApiProofs ApiProps Alias SpecAlias.
From Coq Require Import ZifyBool ZifyNat ZifyN.
Ltac Zify.zify_post_hook ::= Z.div_mod_to_equations.

(** *** Arrays *)
Lemma aget_aset_same {A} (l : list A) i x l' : aset l i x = Done l' -> aget l' i = Done x.
Proof.
  intros H. destruct (aset_Done _ _ _ _ H) as [-> Hi]. unfold aget. destruct (Z.leb_spec 0 i); [|lia].
  assert (Hn : (Z.to_nat i < length l)%nat) by (unfold zlen in Hi; lia). clear - Hn. revert l Hn.
  induction (Z.to_nat i) as [|n IH]; intros [|y l] Hn; cbn in Hn |- *; try lia; [reflexivity|]. apply IH. lia.
Qed.

Lemma nth_upd_other {A} : forall n m (x : A) l, n <> m -> nth_error (upd n x l) m = nth_error l m.
Proof. induction n as [|n IH]; intros [|m] x [|y l] H; cbn; auto; try congruence. Qed.

Lemma aget_aset_other {A} (l : list A) i j x l' : aset l i x = Done l' -> i <> j -> aget l' j = aget l j.
Proof.
  intros H Hij. destruct (aset_Done _ _ _ _ H) as [-> Hi]. unfold aget. destruct (Z.leb_spec 0 j); [|reflexivity].
  rewrite nth_upd_other by lia. reflexivity.
Qed.

Lemma upd_upd {A} : forall n (x y : A) l, upd n y (upd n x l) = upd n y l.
Proof. induction n as [|n IH]; intros x y [|z l]; cbn; auto. now rewrite IH. Qed.

Lemma aset_aset {A} (l : list A) i x y l' : aset l i x = Done l' -> aset l' i y = aset l i y.
Proof.
  intros H. destruct (aset_Done _ _ _ _ H) as [-> Hi]. unfold aset. rewrite zlen_upd, upd_upd. reflexivity.
Qed.

Lemma aset_zlen {A} (l : list A) i x l' : aset l i x = Done l' -> zlen l' = zlen l.
Proof. intros H. destruct (aset_Done _ _ _ _ H) as [-> Hi]. apply zlen_upd. Qed.

Lemma aset_same {A} (l : list A) i x : aget l i = Done x -> aset l i x = Done l.
Proof.
  intros H. unfold aget in H. destruct (Z.leb_spec 0 i); [|discriminate]. destruct (nth_error l (Z.to_nat i)) eqn:E; [|discriminate].
  injection H as <-. assert (Hn : (Z.to_nat i < length l)%nat) by (apply nth_error_Some; congruence).
  rewrite aset_ok by (unfold zlen; lia). f_equal. now apply upd_same.
Qed.

Lemma aset_exists {A} (l : list A) i x y l' : aset l i x = Done l' -> exists l'', aset l i y = Done l''.
Proof. intros H. destruct (aset_Done _ _ _ _ H) as [-> Hi]. rewrite aset_ok by lia. eauto. Qed.

(** *** The has_ flags *)
Lemma presence_set_twice pres i pres' : presence_set pres i = Done pres' -> presence_set pres' i = Done pres'.
Proof.
  unfold presence_set. destruct (aget pres (presence_index i)) as [w| |]; cbn [bind]; try discriminate. intros H.
  rewrite (aget_aset_same _ _ _ _ H). cbn [bind]. rewrite <- Z.lor_assoc, Z.lor_diag. apply aset_same. eapply aget_aset_same; exact H.
Qed.

Lemma mask_pow i : presence_mask i = 2 ^ (i mod 32).
Proof.
  unfold presence_mask, u32. rewrite Z.shiftl_mul_pow2, Z.mul_1_l by (apply Z.mod_pos_bound; lia).
  assert (0 <= i mod 32 < 32) by (apply Z.mod_pos_bound; lia). apply Z.mod_small. split; [apply Z.pow_nonneg; lia|].
  apply Z.pow_lt_mono_r; lia.
Qed.

Lemma presence_set_noop pres i : presence_has pres i = Done true -> presence_set pres i = Done pres.
Proof.
  unfold presence_has, presence_set. destruct (aget pres (presence_index i)) as [w| |] eqn:E; cbn [bind]; try discriminate.
  intros H. injection H as H. assert (Ew : Z.lor w (presence_mask i) = w); [|rewrite Ew; now apply aset_same].
  rewrite mask_pow in *. assert (Hi : 0 <= i mod 32) by (apply Z.mod_pos_bound; lia). set (b := i mod 32) in *. clearbody b.
  assert (Hb : Z.testbit w b = true).
  { destruct (Z.testbit w b) eqn:Eb; [reflexivity|]. exfalso. apply Bool.negb_true_iff, Z.eqb_neq in H. apply H.
    apply Z.bits_inj'. intros n Hn. rewrite Z.land_spec, Z.bits_0. destruct (Z.eq_dec n b) as [->|]; [rewrite Eb; apply Bool.andb_false_r|].
    rewrite Z.pow2_bits_false by lia. reflexivity. }
  apply Z.bits_inj'. intros n Hn. rewrite Z.lor_spec. destruct (Z.eq_dec n b) as [->|]; [rewrite Hb; reflexivity|].
  rewrite Z.pow2_bits_false by lia. apply Bool.orb_false_r.
Qed.

Lemma presence_clear_noop pres i : Forall is_u32 pres -> presence_has pres i = Done false -> presence_clear pres i = Done pres.
Proof.
  unfold presence_has, presence_clear. intros Hu. destruct (aget pres (presence_index i)) as [w| |] eqn:E; cbn [bind]; try discriminate.
  intros H. injection H as H. assert (Hw : is_u32 w). { apply aget_Done in E. destruct E as [E _]. eapply Forall_forall in Hu; [exact Hu|]. eapply nth_error_In; exact E. }
  assert (Ew : Z.land w (u32 (Z.lnot (presence_mask i))) = w); [|rewrite Ew; now apply aset_same].
  rewrite mask_pow in *. assert (Hi : 0 <= i mod 32) by (apply Z.mod_pos_bound; lia). set (b := i mod 32) in *. clearbody b.
  assert (Hb : Z.testbit w b = false).
  { destruct (Z.testbit w b) eqn:Eb; [|reflexivity]. exfalso. apply Bool.negb_false_iff, Z.eqb_eq in H.
    assert (H2 : Z.testbit (Z.land (2 ^ b) w) b = false) by (rewrite H; apply Z.bits_0). rewrite Z.land_spec, Eb, Z.pow2_bits_true in H2 by lia. discriminate. }
  unfold is_u32 in Hw. apply Z.bits_inj'. intros n Hn. rewrite Z.land_spec. destruct (Z.testbit w n) eqn:En; [|reflexivity]. cbn [andb].
  assert (Hn32 : n < 32). { destruct (Z.lt_ge_cases n 32); [assumption|]. exfalso. rewrite Z.bits_above_log2 in En; [discriminate|lia|].
    destruct (Z.eq_dec w 0) as [->|]; [cbn; lia|]. assert (Z.log2 w < 32) by (apply Z.log2_lt_pow2; lia). lia. }
  unfold u32. rewrite Z.mod_pow2_bits_low by lia. rewrite Z.lnot_spec by lia. rewrite Z.pow2_bits_false by congruence. reflexivity.
Qed.

(** *** An object assigned to itself *)
Lemma memcpy_self {A} (data : list A) len : 0 <= len <= zlen data -> memcpy data 0 data len = Done data.
Proof.
  intros H. rewrite memcpy_ok by lia. cbn [Z.to_nat firstn app]. rewrite Z.add_0_l, firstn_skipn. reflexivity.
Qed.

Lemma bytes_self st max len data : wt (EBytes st max) (VB len data) -> bytes_set_from (VB len data) (VB len data) = Done (NoErrors, VB len data).
Proof.
  intros (Hl & Hz & _). cbn [bytes_set_from bytes_set]. destruct (Z.leb_spec len (zlen data)); [|lia]. rewrite memcpy_self by lia. reflexivity.
Qed.

Definition self_ok (t : ety) : Prop := forall v, desc_ok t -> wt t v -> self_assign t v = assign t v v.

Lemma elem_self_ok t v : self_ok t -> desc_ok t -> wt t v -> elem_self t (self_assign t) v = elem_set t (assign t) v v.
Proof.
  intros H Hd Hw. destruct t as [sc|st max|fs os]; cbn [elem_self elem_set]; auto.
  destruct v as [| |len data| |]; try contradiction. rewrite (bytes_self st max) by exact Hw. reflexivity.
Qed.

Lemma rep_self_loop_ok t : self_ok t -> desc_ok t -> forall n i dst src, 0 <= i -> i + Z.of_nat n <= zlen src -> zlen src < 2 ^ 31 ->
  Forall (wt t) src -> (forall j, i <= j -> aget dst j = aget src j) ->
  rep_self_loop (self_assign t) n i dst = rep_copy (assign t) n i dst src.
Proof.
  intros Hs Hd. induction n as [|n IH]; intros i dst src Hi Hn Hz Hw Hag; cbn [rep_self_loop rep_copy]; [reflexivity|].
  unfold rep_get_const. rewrite u32_small by lia. rewrite Z.min_l by lia.
  destruct (aget_ok src i) as (x & Ex & Enx); [lia|]. rewrite (Hag i) by lia. rewrite Ex. cbn [bind].
  rewrite Hs; [|exact Hd|eapply Forall_forall in Hw; [exact Hw|]; eapply nth_error_In; exact Enx].
  destruct (assign t x x) as [x'| |]; cbn [bind]; auto. destruct (aset dst i x') as [dst'| |] eqn:Es; cbn [bind]; auto.
  apply IH; auto; try lia. intros j Hj. rewrite (aget_aset_other _ _ _ _ _ Es) by lia. apply Hag. lia.
Qed.

Lemma rep_self_ok t max v : self_ok t -> desc_ok t -> capacity_ok max -> wt_field (KRep max) (wt t) v ->
  rep_self (self_assign t) v = rep_assign (assign t) v v.
Proof.
  intros Hs Hd Hc Hw. destruct v as [| | |len data|]; try contradiction. destruct Hw as (Hl & Hz & Hall). unfold capacity_ok in Hc.
  cbn [rep_self rep_assign]. rewrite (rep_self_loop_ok t Hs Hd _ _ _ data); auto; try lia. now apply all_Forall.
Qed.

Lemma bind_ext {A B} (m : res A) (f g : A -> res B) : (forall x, m = Done x -> f x = g x) -> bind m f = bind m g.
Proof. intros H. destruct m; cbn; auto. Qed.

Lemma fields_self_ok pres : Forall is_u32 pres -> forall fs vs oi,
  Forall (fun '(_, k, t) => self_ok t /\ desc_ok t /\ match k with KRep max => capacity_ok max | _ => True end) fs ->
  all2 (fun '(_, k, t) x => wt_field k (wt t) x) fs vs ->
  fields_self (map (fun '(_, k, t) => (k, t, self_assign t)) fs) oi pres vs
  = fields_assign (map (fun '(num, k, t) => (num, k, t, assign t)) fs) oi pres pres vs vs.
Proof.
  intros Hu. induction fs as [|[[num k] t] fs IH]; intros [|x vs] oi Hf Hw; cbn [map fields_self fields_assign all2] in *; try contradiction; auto.
  destruct Hw as [Hx Hw]. apply Forall_cons_iff in Hf. destruct Hf as [(Hs & Hd & Hk) Hf'].
  assert (E : field_self k t (self_assign t) oi pres x = field_assign k t (clear t) (assign t) oi pres pres x x
     /\ forall p' x', field_assign k t (clear t) (assign t) oi pres pres x x = Done (p', x') -> p' = pres).
  { destruct k as [| |max|]; cbn [field_self field_assign wt_field] in *.
    - rewrite elem_self_ok by auto. split; [reflexivity|]. destruct (elem_set t (assign t) x x); cbn [bind]; congruence.
    - rewrite elem_self_ok by auto. destruct (presence_has pres oi) as [[]| |] eqn:Eh; cbn [bind]; try (split; [reflexivity|discriminate]).
      + rewrite (presence_set_noop _ _ Eh). cbn [bind]. split; [reflexivity|]. destruct (elem_set t (assign t) x x); cbn [bind]; congruence.
      + cbn [field_clear]. rewrite (presence_clear_noop _ _ Hu Eh). cbn [bind]. split; [reflexivity|]. destruct (clear t x); cbn [bind]; congruence.
    - rewrite (rep_self_ok t max) by auto. split; [reflexivity|]. destruct (rep_assign (assign t) x x); cbn [bind]; congruence.
    - split; [reflexivity|congruence]. }
  destruct E as [-> Hp]. apply bind_ext. intros [p' x'] E. rewrite (Hp _ _ E). rewrite IH by auto. reflexivity.
Qed.

Lemma oneofs_self_ok : forall os ovs,
  Forall (fun ms => forall id t, lookup ms id = Some t -> self_ok t /\ desc_ok t) os ->
  all2 (fun ms o => wt_oneof (map (fun '(num, t) => (num, wt t)) ms) o) os ovs ->
  oneofs_self (map (map (fun '(num, t) => (num, t, self_assign t))) os) ovs
  = oneofs_assign (map (map (fun '(num, t) => (num, t, assign t))) os) ovs ovs.
Proof.
  induction os as [|ms os IH]; intros [|[which x] ovs] Hf Hw; cbn [map oneofs_self oneofs_assign all2] in *; try contradiction; auto.
  destruct Hw as [Hx Hw]. apply Forall_cons_iff in Hf. destruct Hf as [Hs Hf']. rewrite IH by auto. f_equal.
  unfold oneof_self, oneof_assign. cbn [fst snd]. rewrite Z.eqb_refl. cbn [fst snd]. rewrite (find_member_map self_assign), (find_member_map assign), Z.eqb_refl. cbn [fst snd].
  unfold wt_oneof in Hx. cbn [fst snd] in Hx. rewrite (lookup_map wt) in Hx. destruct (lookup ms which) as [t|] eqn:El; [|reflexivity].
  destruct (Hs which t El) as [H1 H2]. rewrite elem_self_ok by auto. reflexivity.
Qed.

Theorem self_assign_ok t : self_ok t.
Proof.
  induction t as [sc|st max|fs os Hf Ho] using ety_ind'; intros v Hd Hw.
  - destruct v; try contradiction. reflexivity.
  - destruct v; try contradiction. reflexivity.
  - destruct v as [| | | |pres vs ovs]; try contradiction. pose proof Hw as Hw0. cbn [wt] in Hw. destruct Hw as (Hz & Hu & Hw1 & Hw2). apply all_Forall in Hu.
    cbn [self_assign assign]. rewrite (fields_self_ok pres Hu fs vs 0); [| |exact Hw1].
    2:{ apply Forall_forall. intros [[num k] t] Hin. destruct (In_nth_error _ _ Hin) as [i En]. destruct (desc_field fs os i num k t Hd En) as (H1 & _ & H2).
        eapply Forall_forall in Hf; [|exact Hin]. auto. }
    rewrite (oneofs_self_ok os ovs); [reflexivity| |exact Hw2].
    apply Forall_forall. intros ms Hin id t El. destruct (In_nth_error _ _ Hin) as [i En]. destruct (desc_member fs os i ms id t Hd En El) as [H1 _].
    eapply Forall_forall in Ho; [|exact Hin]. eapply Forall_forall in Ho; [|eapply lookup_In; exact El]. auto.
Qed.

(** *** Places *)
Ltac inv_bind H :=
  match type of H with
  | bind ?m _ = Done _ => let E := fresh "E" in destruct m eqn:E; cbn [bind] in H; [|discriminate H|discriminate H]
  end.

Lemma members_find ms id : find_member (members ms) id = match lookup ms id with Some t => Some (t, tt) | None => None end.
Proof. apply (find_member_map (fun _ => tt)). Qed.

Lemma oneof_init_fst {X} (ms : list (Z * ety * X)) id d : fst (oneof_init ms id d) = id.
Proof. unfold oneof_init. destruct (find_member ms id) as [[]|]; reflexivity. Qed.

(** The call of [run_op] at a place. *)
Lemma run_nest fuel o : forall p ty v tty, type_at ty p = Some tty ->
  run_op fuel (nest p o) ty v = update_at ty p (run_op fuel o) v.
Proof.
  induction p as [|[pos|i|pos id] p IH]; intros ty v tty Ht; cbn [nest update_at type_at run_op] in *; [reflexivity| | |].
  - destruct ty as [[| |fs os]|]; try discriminate. destruct (nth_error fs pos) as [[[num k] t]|]; [|discriminate].
    assert (Ht' : k <> KRecursive /\ type_at (oty_of k t) p = Some tty) by (destruct k; try discriminate; split; auto; congruence).
    destruct Ht' as [Hk Ht']. destruct v as [| | | |pres vs ovs]; destruct k; try congruence; auto;
      apply bind_ext; intros x _; apply bind_ext; intros p' _; rewrite (IH _ _ _ Ht'); reflexivity.
  - destruct ty as [|max t]; try discriminate. destruct ((0 <=? i) && (i <? 2 ^ 32)); [|discriminate].
    destruct v as [| | |len data|]; auto. destruct (rep_get len data i) as [j len']. apply bind_ext; intros x _. rewrite (IH _ _ _ Ht). reflexivity.
  - destruct ty as [[| |fs os]|]; try discriminate. destruct (nth_error os pos) as [ms|]; [|discriminate]. destruct (lookup ms id) as [t|] eqn:El; [|discriminate].
    destruct v as [| | | |pres vs ovs]; auto. rewrite members_find, El. apply bind_ext; intros d _. rewrite (IH _ _ _ Ht). reflexivity.
Qed.

Definition touch (_ : oty) (d : value) : res (err * value) := Done (NoErrors, d).

(** If the call gets to its end, so do the accessors alone. *)
Lemma touch_Done : forall p ty v g r, update_at ty p g v = Done r -> exists v1, update_at ty p touch v = Done (NoErrors, v1).
Proof.
  induction p as [|[pos|i|pos id] p IH]; intros ty v g r H; cbn [update_at] in *.
  - unfold touch. eauto.
  - destruct ty as [[| |fs os]|]; try discriminate. destruct v as [| | | |pres vs ovs]; try discriminate. destruct (nth_error fs pos) as [[[num k] t]|]; [|discriminate].
    destruct (aget vs (Z.of_nat pos)) as [x| |]; cbn [bind] in *; try discriminate.
    destruct (match k with KOpt => presence_set pres (opt_index fs pos) | _ => Done pres end) as [p'| |]; cbn [bind] in *; try discriminate.
    destruct (update_at (oty_of k t) p g x) as [[e x']| |] eqn:E; cbn [bind] in *; try discriminate.
    destruct (IH _ _ _ _ E) as [x1 ->]. cbn [bind]. inv_bind H. destruct (aset_exists _ _ _ x1 _ E0) as [l ->]. cbn [bind]. eauto.
  - destruct ty as [|max t]; try discriminate. destruct v as [| | |len data|]; try discriminate. destruct (rep_get len data i) as [j len'].
    destruct (aget data j) as [x| |]; cbn [bind] in *; try discriminate.
    destruct (update_at (OElem t) p g x) as [[e x']| |] eqn:E; cbn [bind] in *; try discriminate.
    destruct (IH _ _ _ _ E) as [x1 ->]. cbn [bind]. inv_bind H. destruct (aset_exists _ _ _ x1 _ E0) as [l ->]. cbn [bind]. eauto.
  - destruct ty as [[| |fs os]|]; try discriminate. destruct v as [| | | |pres vs ovs]; try discriminate. destruct (nth_error os pos) as [ms|]; [|discriminate].
    destruct (find_member (members ms) id) as [[t u]|]; [|discriminate]. destruct (aget ovs (Z.of_nat pos)) as [d| |]; cbn [bind] in *; try discriminate.
    cbv zeta in *. destruct (update_at (OElem t) p g (snd (if id =? fst d then d else oneof_init (members ms) id d))) as [[e x']| |] eqn:E; cbn [bind] in *; try discriminate.
    destruct (IH _ _ _ _ E) as [x1 ->]. cbn [bind]. inv_bind H.
    destruct (aset_exists _ _ _ (fst (if id =? fst d then d else oneof_init (members ms) id d), x1) _ E0) as [l ->]. cbn [bind]. eauto.
Qed.

Lemma rep_get_twice len data data' i j len' : rep_get len data i = (j, len') -> zlen data' = zlen data -> rep_get len' data' i = (j, len').
Proof.
  unfold rep_get. intros H Hz. injection H as <- <-. rewrite Hz. f_equal. set (k := Z.min i (u32 (zlen data - 1))).
  destruct (Z.leb_spec len k); [destruct (Z.leb_spec (k + 1) k); lia|]. destruct (Z.leb_spec len k); lia.
Qed.

(** After the accessors have been used once, using them again changes nothing more. *)
Lemma update_touched : forall p ty v v1 g e, update_at ty p touch v = Done (e, v1) -> update_at ty p g v1 = update_at ty p g v.
Proof.
  induction p as [|[pos|i|pos id] p IH]; intros ty v v1 g e H; cbn [update_at] in *.
  - unfold touch in H. congruence.
  - destruct ty as [[| |fs os]|]; try discriminate. destruct v as [| | | |pres vs ovs]; try discriminate. destruct (nth_error fs pos) as [[[num k] t]|]; [|discriminate].
    destruct (aget vs (Z.of_nat pos)) as [x| |] eqn:Ex; cbn [bind] in *; try discriminate.
    destruct (match k with KOpt => presence_set pres (opt_index fs pos) | _ => Done pres end) as [p'| |] eqn:Ep; cbn [bind] in *; try discriminate.
    destruct (update_at (oty_of k t) p touch x) as [[e1 x1]| |] eqn:E; cbn [bind] in *; try discriminate.
    destruct (aset vs (Z.of_nat pos) x1) as [vs1| |] eqn:Es; cbn [bind] in *; try discriminate. injection H as <- <-.
    rewrite (aget_aset_same _ _ _ _ Es). cbn [bind].
    assert (Ep2 : match k with KOpt => presence_set p' (opt_index fs pos) | _ => Done p' end = Done p').
    { destruct k; auto. eapply presence_set_twice; exact Ep. }
    rewrite Ep2. cbn [bind]. rewrite (IH _ _ _ g _ E). apply bind_ext. intros [e2 x2] _. rewrite (aset_aset _ _ _ x2 _ Es). reflexivity.
  - destruct ty as [|max t]; try discriminate. destruct v as [| | |len data|]; try discriminate. destruct (rep_get len data i) as [j len'] eqn:Er.
    destruct (aget data j) as [x| |] eqn:Ex; cbn [bind] in *; try discriminate.
    destruct (update_at (OElem t) p touch x) as [[e1 x1]| |] eqn:E; cbn [bind] in *; try discriminate.
    destruct (aset data j x1) as [data1| |] eqn:Es; cbn [bind] in *; try discriminate. injection H as <- <-.
    rewrite (rep_get_twice _ _ data1 _ _ _ Er (aset_zlen _ _ _ _ Es)). rewrite (aget_aset_same _ _ _ _ Es). cbn [bind].
    rewrite (IH _ _ _ g _ E). apply bind_ext. intros [e2 x2] _. rewrite (aset_aset _ _ _ x2 _ Es). reflexivity.
  - destruct ty as [[| |fs os]|]; try discriminate. destruct v as [| | | |pres vs ovs]; try discriminate. destruct (nth_error os pos) as [ms|]; [|discriminate].
    destruct (find_member (members ms) id) as [[t u]|]; [|discriminate]. destruct (aget ovs (Z.of_nat pos)) as [d| |] eqn:Ex; cbn [bind] in *; try discriminate.
    cbv zeta in *. set (d' := if id =? fst d then d else oneof_init (members ms) id d) in *.
    assert (Hd : fst d' = id). { unfold d'. destruct (Z.eqb_spec id (fst d)); [auto|apply oneof_init_fst]. }
    destruct (update_at (OElem t) p touch (snd d')) as [[e1 x1]| |] eqn:E; cbn [bind] in *; try discriminate.
    destruct (aset ovs (Z.of_nat pos) (fst d', x1)) as [ovs1| |] eqn:Es; cbn [bind] in *; try discriminate. injection H as <- <-.
    rewrite (aget_aset_same _ _ _ _ Es). cbn [bind fst snd]. rewrite Hd, Z.eqb_refl. cbn [fst snd].
    rewrite (IH _ _ _ g _ E). apply bind_ext. intros [e2 x2] _. rewrite (aset_aset _ _ _ _ _ Es). reflexivity.
Qed.

(** The object the accessors lead to. *)
Lemma touched_read : forall p ty v v1 e, update_at ty p touch v = Done (e, v1) -> exists d, read_at ty p v1 = Done d.
Proof.
  induction p as [|[pos|i|pos id] p IH]; intros ty v v1 e H; cbn [update_at read_at] in *.
  - eauto.
  - destruct ty as [[| |fs os]|]; try discriminate. destruct v as [| | | |pres vs ovs]; try discriminate. destruct (nth_error fs pos) as [[[num k] t]|] eqn:En; [|discriminate].
    destruct (aget vs (Z.of_nat pos)) as [x| |] eqn:Ex; cbn [bind] in *; try discriminate.
    destruct (match k with KOpt => presence_set pres (opt_index fs pos) | _ => Done pres end) as [p'| |] eqn:Ep; cbn [bind] in *; try discriminate.
    destruct (update_at (oty_of k t) p touch x) as [[e1 x1]| |] eqn:E; cbn [bind] in *; try discriminate.
    destruct (aset vs (Z.of_nat pos) x1) as [vs1| |] eqn:Es; cbn [bind] in *; try discriminate. injection H as <- <-.
    rewrite (aget_aset_same _ _ _ _ Es). cbn [bind]. eapply IH; exact E.
  - destruct ty as [|max t]; try discriminate. destruct v as [| | |len data|]; try discriminate. destruct (rep_get len data i) as [j len'] eqn:Er.
    destruct (aget data j) as [x| |] eqn:Ex; cbn [bind] in *; try discriminate.
    destruct (update_at (OElem t) p touch x) as [[e1 x1]| |] eqn:E; cbn [bind] in *; try discriminate.
    destruct (aset data j x1) as [data1| |] eqn:Es; cbn [bind] in *; try discriminate. injection H as <- <-.
    unfold rep_get_const. rewrite (aset_zlen _ _ _ _ Es). unfold rep_get in Er. injection Er as Ej _. rewrite Ej, (aget_aset_same _ _ _ _ Es). cbn [bind]. eapply IH; exact E.
  - destruct ty as [[| |fs os]|]; try discriminate. destruct v as [| | | |pres vs ovs]; try discriminate. destruct (nth_error os pos) as [ms|]; [|discriminate].
    destruct (find_member (members ms) id) as [[t u]|]; [|discriminate]. destruct (aget ovs (Z.of_nat pos)) as [d| |] eqn:Ex; cbn [bind] in *; try discriminate.
    cbv zeta in *. set (d' := if id =? fst d then d else oneof_init (members ms) id d) in *.
    assert (Hd : fst d' = id). { unfold d'. destruct (Z.eqb_spec id (fst d)); [auto|apply oneof_init_fst]. }
    destruct (update_at (OElem t) p touch (snd d')) as [[e1 x1]| |] eqn:E; cbn [bind] in *; try discriminate.
    destruct (aset ovs (Z.of_nat pos) (fst d', x1)) as [ovs1| |] eqn:Es; cbn [bind] in *; try discriminate. injection H as <- <-.
    rewrite (aget_aset_same _ _ _ _ Es). cbn [bind fst snd]. rewrite Hd, Z.eqb_refl. eapply IH; exact E.
Qed.

Lemma update_ext : forall p ty v d tty g g', read_at ty p v = Done d -> type_at ty p = Some tty -> g tty d = g' tty d ->
  update_at ty p g v = update_at ty p g' v.
Proof.
  induction p as [|[pos|i|pos id] p IH]; intros ty v d tty g g' H Ht Hg; cbn [update_at read_at type_at] in *.
  - congruence.
  - destruct ty as [[| |fs os]|]; try discriminate. destruct v as [| | | |pres vs ovs]; try discriminate. destruct (nth_error fs pos) as [[[num k] t]|]; [|discriminate].
    assert (Ht' : type_at (oty_of k t) p = Some tty) by (destruct k; auto; discriminate).
    destruct (aget vs (Z.of_nat pos)) as [x| |]; cbn [bind] in *; try discriminate.
    apply bind_ext. intros p' _. now rewrite (IH _ _ _ _ _ _ H Ht' Hg).
  - destruct ty as [|max t]; try discriminate. destruct v as [| | |len data|]; try discriminate. destruct ((0 <=? i) && (i <? 2 ^ 32)); [|discriminate].
    unfold rep_get_const in H. unfold rep_get. destruct (aget data (Z.min i (u32 (zlen data - 1)))) as [x| |]; cbn [bind] in *; try discriminate.
    now rewrite (IH _ _ _ _ _ _ H Ht Hg).
  - destruct ty as [[| |fs os]|]; try discriminate. destruct v as [| | | |pres vs ovs]; try discriminate. destruct (nth_error os pos) as [ms|]; [|discriminate].
    rewrite members_find in *. destruct (lookup ms id) as [t|]; [|discriminate]. destruct (aget ovs (Z.of_nat pos)) as [d0| |]; cbn [bind] in *; try discriminate.
    cbv zeta. destruct (id =? fst d0); [|discriminate]. now rewrite (IH _ _ _ _ _ _ H Ht Hg).
Qed.

Lemma read_app : forall p r ty v tty, type_at ty p = Some tty ->
  read_at ty (p ++ r) v = (let* d := read_at ty p v in read_at tty r d).
Proof.
  induction p as [|[pos|i|pos id] p IH]; intros r ty v tty Ht; cbn [app read_at type_at] in *.
  - now injection Ht as ->.
  - destruct ty as [[| |fs os]|]; try discriminate. destruct v as [| | | |pres vs ovs]; auto. destruct (nth_error fs pos) as [[[num k] t]|]; [|discriminate].
    assert (Ht' : type_at (oty_of k t) p = Some tty) by (destruct k; auto; discriminate).
    destruct (aget vs (Z.of_nat pos)) as [x| |]; cbn [bind]; auto.
  - destruct ty as [|max t]; try discriminate. destruct v as [| | |len data|]; auto. destruct ((0 <=? i) && (i <? 2 ^ 32)); [|discriminate].
    destruct (rep_get_const data i); cbn [bind]; auto.
  - destruct ty as [[| |fs os]|]; try discriminate. destruct v as [| | | |pres vs ovs]; auto. destruct (nth_error os pos) as [ms|]; [|discriminate].
    rewrite members_find in *. destruct (lookup ms id) as [t|]; [|discriminate]. destruct (aget ovs (Z.of_nat pos)) as [d0| |]; cbn [bind]; auto.
    destruct (id =? fst d0); auto.
Qed.

(** *** Valid objects *)
Lemma owt_sub fs os pres vs ovs pos num k t : oty_ok (OElem (EMsg fs os)) -> owt (OElem (EMsg fs os)) (VM pres vs ovs) ->
  nth_error fs pos = Some (num, k, t) -> k <> KRecursive -> exists x, aget vs (Z.of_nat pos) = Done x /\ oty_ok (oty_of k t) /\ owt (oty_of k t) x.
Proof.
  intros Hok Hw En Hk. cbn [owt wt] in Hw. destruct Hw as (_ & _ & Hw & _). destruct (all2_nth _ _ _ _ _ Hw En) as (x & Ex & Hx).
  destruct (desc_field fs os pos num k t Hok En) as (Hd & _ & Hc). exists x. split; [now apply aget_nat|]. split; [destruct k; cbn; auto|]. now apply owt_field.
Qed.

Lemma owt_at max t len data j : owt (ORep max t) (VR len data) -> 0 <= j < max -> exists x, aget data j = Done x /\ wt t x.
Proof.
  intros (Hl & Hz & Hw) Hj. destruct (aget_ok data j) as (x & Ex & En); [lia|]. exists x. split; [exact Ex|].
  apply all_Forall in Hw. eapply Forall_forall in Hw; [exact Hw|]. eapply nth_error_In; exact En.
Qed.

Lemma owt_member fs os pres vs ovs pos ms id t : oty_ok (OElem (EMsg fs os)) -> owt (OElem (EMsg fs os)) (VM pres vs ovs) ->
  nth_error os pos = Some ms -> lookup ms id = Some t ->
  desc_ok t /\ exists d, aget ovs (Z.of_nat pos) = Done d /\ (id = fst d -> wt t (snd d)).
Proof.
  intros Hok Hw En El. destruct (desc_member fs os pos ms id t Hok En El) as [Hd _]. split; [exact Hd|].
  cbn [owt wt] in Hw. destruct Hw as (_ & _ & _ & Hw). destruct (all2_nth _ _ _ _ _ Hw En) as (d & Ex & Hx). exists d. split; [now apply aget_nat|].
  intros ->. unfold wt_oneof in Hx. rewrite (lookup_map wt), El in Hx. exact Hx.
Qed.

Lemma read_owt : forall q ty v sty x, oty_ok ty -> owt ty v -> type_at ty q = Some sty -> read_at ty q v = Done x -> oty_ok sty /\ owt sty x.
Proof.
  induction q as [|[pos|i|pos id] q IH]; intros ty v sty x Hok Hw Ht H; cbn [read_at type_at] in *.
  - split; congruence.
  - destruct ty as [[| |fs os]|]; try discriminate. destruct v as [| | | |pres vs ovs]; try discriminate. destruct (nth_error fs pos) as [[[num k] t]|] eqn:En; [|discriminate].
    assert (Ht' : k <> KRecursive /\ type_at (oty_of k t) q = Some sty) by (destruct k; try discriminate; split; auto; congruence). destruct Ht' as [Hk Ht'].
    destruct (owt_sub fs os pres vs ovs pos num k t Hok Hw En Hk) as (y & Ey & Hok' & Hw'). rewrite Ey in H. cbn [bind] in H. eapply IH; eauto.
  - destruct ty as [|max t]; try discriminate. destruct v as [| | |len data|]; try discriminate. destruct ((0 <=? i) && (i <? 2 ^ 32)) eqn:Ei; [|discriminate].
    destruct Hok as [Hd Hc]. unfold rep_get_const in H. pose proof Hw as (_ & Hz & _). unfold capacity_ok in Hc. rewrite Hz, u32_small in H by lia.
    destruct (owt_at max t len data (Z.min i (max - 1)) Hw) as (y & Ey & Hy); [lia|]. rewrite Ey in H. cbn [bind] in H. eapply IH; [| |exact Ht|exact H]; auto.
  - destruct ty as [[| |fs os]|]; try discriminate. destruct v as [| | | |pres vs ovs]; try discriminate. destruct (nth_error os pos) as [ms|] eqn:En; [|discriminate].
    rewrite members_find in H. destruct (lookup ms id) as [t|] eqn:El; [|discriminate]. destruct (owt_member fs os pres vs ovs pos ms id t Hok Hw En El) as (Hd & d & Ed & Hx).
    rewrite Ed in H. cbn [bind] in H. destruct (Z.eqb_spec id (fst d)); [|discriminate]. eapply IH; [| |exact Ht|exact H]; auto. cbn. auto.
Qed.

(** *** Classes do not contain themselves *)
Fixpoint esize (t : ety) : nat :=
  match t with
  | EScalar _ | EBytes _ _ => 1
  | EMsg fs os => S (list_sum (map (fun '(_, _, t) => esize t) fs) + list_sum (map (fun ms => list_sum (map (fun '(_, t) => esize t) ms)) os))
  end%nat.
Definition osize (ty : oty) : nat := match ty with OElem t => 2 * esize t | ORep _ t => 2 * esize t + 1 end%nat.

Lemma list_sum_In {A} (f : A -> nat) l x : In x l -> (f x <= list_sum (map f l))%nat.
Proof. induction l as [|y l IH]; cbn; intros H; [contradiction|]. destruct H as [->|H]; [lia|]. specialize (IH H). unfold list_sum in *. lia. Qed.

Lemma size_field fs os pos num k t : nth_error fs pos = Some (num, k, t) -> (osize (oty_of k t) < osize (OElem (EMsg fs os)))%nat.
Proof.
  intros H. apply nth_error_In in H. apply (list_sum_In (fun '(_, _, t) => esize t)) in H. destruct k; cbn [oty_of osize esize]; lia.
Qed.
Lemma size_member fs os pos ms id t : nth_error os pos = Some ms -> lookup ms id = Some t -> (osize (OElem t) < osize (OElem (EMsg fs os)))%nat.
Proof.
  intros H El. apply nth_error_In in H. apply lookup_In in El. apply (list_sum_In (fun ms => list_sum (map (fun '(_, t) => esize t) ms))) in H.
  apply (list_sum_In (fun '(_, t) => esize t)) in El. cbn [osize esize]. lia.
Qed.

Lemma size_at : forall p ty tty, type_at ty p = Some tty -> (osize tty <= osize ty)%nat /\ (p <> [] -> osize tty < osize ty)%nat.
Proof.
  induction p as [|[pos|i|pos id] p IH]; intros ty tty Ht; cbn [type_at] in *.
  - injection Ht as ->. split; [lia|congruence].
  - destruct ty as [[| |fs os]|]; try discriminate. destruct (nth_error fs pos) as [[[num k] t]|] eqn:En; [|discriminate].
    assert (Ht' : type_at (oty_of k t) p = Some tty) by (destruct k; auto; discriminate). pose proof (size_field fs os _ _ _ _ En). destruct (IH _ _ Ht'). split; intros; lia.
  - destruct ty as [|max t]; try discriminate. destruct ((0 <=? i) && (i <? 2 ^ 32)); [|discriminate]. destruct (IH _ _ Ht). cbn [osize] in *. split; intros; lia.
  - destruct ty as [[| |fs os]|]; try discriminate. destruct (nth_error os pos) as [ms|] eqn:En; [|discriminate]. destruct (lookup ms id) as [t|] eqn:El; [|discriminate].
    pose proof (size_member fs os _ _ _ _ En El). destruct (IH _ _ Ht). split; intros; lia.
Qed.

(** The accessors of the target leave the source alone, unless the two are rivals. *)
Lemma read_touch : forall p q ty v v1 e x tty sty, oty_ok ty -> owt ty v -> type_at ty p = Some tty -> type_at ty q = Some sty ->
  (osize sty <= osize tty)%nat ->
  update_at ty p touch v = Done (e, v1) -> read_at ty q v = Done x -> ~ rivals ty p q -> read_at ty q v1 = Done x.
Proof.
  induction p as [|sp p IH]; intros q ty v v1 e x tty sty Hok Hw Htp Htq Hs Hu Hr Hn; [cbn in Hu; unfold touch in Hu; congruence|].
  destruct q as [|sq q]; [exfalso; injection Htq as <-; destruct (size_at _ _ _ Htp) as [_ H]; specialize (H ltac:(discriminate)); lia|].
  destruct sp as [pos|i|pos id]; cbn [update_at type_at] in Htp, Hu.
  - destruct ty as [[| |fs os]|]; try discriminate. destruct v as [| | | |pres vs ovs]; try discriminate. destruct (nth_error fs pos) as [[[num k] t]|] eqn:En; [|discriminate].
    assert (Ht' : k <> KRecursive /\ type_at (oty_of k t) p = Some tty) by (destruct k; try discriminate; split; auto; congruence). destruct Ht' as [Hk Htp'].
    destruct (owt_sub fs os pres vs ovs pos num k t Hok Hw En Hk) as (y & Ey & Hok' & Hw'). rewrite Ey in Hu. cbn [bind] in Hu.
    destruct (match k with KOpt => presence_set pres (opt_index fs pos) | _ => Done pres end) as [p'| |]; cbn [bind] in *; try discriminate.
    destruct (update_at (oty_of k t) p touch y) as [[e1 y1]| |] eqn:E; cbn [bind] in *; try discriminate.
    destruct (aset vs (Z.of_nat pos) y1) as [vs1| |] eqn:Es; cbn [bind] in *; try discriminate. injection Hu as <- <-.
    destruct sq as [pos'|j|pos' id']; cbn [read_at type_at] in *; try discriminate; [|exact Hr].
    destruct (nth_error fs pos') as [[[num' k'] t']|] eqn:En'; [|discriminate].
    destruct (Nat.eq_dec pos pos') as [<-|Hne].
    + rewrite En in En'. injection En' as <- <- <-. rewrite (aget_aset_same _ _ _ _ Es). rewrite Ey in Hr. cbn [bind] in *.
      assert (Htq' : type_at (oty_of k t) q = Some sty) by (destruct k; auto; discriminate).
      eapply (IH q (oty_of k t) y); eauto. intros Hri. apply Hn. cbn [rivals]. rewrite En. auto.
    + rewrite (aget_aset_other _ _ _ _ _ Es) by lia. exact Hr.
  - destruct ty as [|max t]; try discriminate. destruct v as [| | |len data|]; try discriminate. destruct ((0 <=? i) && (i <? 2 ^ 32)) eqn:Ei; [|discriminate].
    pose proof Hok as [Hd Hc]. pose proof Hw as (_ & Hz & _). unfold capacity_ok in Hc. rewrite (rep_get_ok len data i max Hz Hc) in Hu.
    destruct (owt_at max t len data (Z.min i (max - 1)) Hw) as (y & Ey & Hy); [lia|]. rewrite Ey in Hu. cbn [bind] in Hu.
    destruct (update_at (OElem t) p touch y) as [[e1 y1]| |] eqn:E; cbn [bind] in *; try discriminate.
    destruct (aset data (Z.min i (max - 1)) y1) as [data1| |] eqn:Es; cbn [bind] in *; try discriminate. injection Hu as <- <-.
    destruct sq as [pos'|j|pos' id']; cbn [read_at type_at] in *; try discriminate. destruct ((0 <=? j) && (j <? 2 ^ 32)) eqn:Ej; [|discriminate].
    unfold rep_get_const in *. rewrite (aset_zlen _ _ _ _ Es). rewrite Hz, u32_small in * by lia.
    destruct (Z.eq_dec (Z.min i (max - 1)) (Z.min j (max - 1))) as [Eij|Hne].
    + rewrite <- Eij in *. rewrite (aget_aset_same _ _ _ _ Es). rewrite Ey in Hr. cbn [bind] in *.
      eapply (IH q (OElem t) y); eauto. intros Hri. apply Hn. cbn [rivals]. rewrite Eij. auto.
    + rewrite (aget_aset_other _ _ _ _ _ Es) by lia. exact Hr.
  - destruct ty as [[| |fs os]|]; try discriminate. destruct v as [| | | |pres vs ovs]; try discriminate. destruct (nth_error os pos) as [ms|] eqn:En; [|discriminate].
    rewrite members_find in Hu. destruct (lookup ms id) as [t|] eqn:El; [|discriminate]. destruct (owt_member fs os pres vs ovs pos ms id t Hok Hw En El) as (Hd & d & Ed & Hx).
    rewrite Ed in Hu. cbn [bind] in Hu. cbv zeta in Hu.
    destruct (update_at (OElem t) p touch (snd (if id =? fst d then d else oneof_init (members ms) id d))) as [[e1 y1]| |] eqn:E; cbn [bind] in *; try discriminate.
    destruct (aset ovs (Z.of_nat pos) _) as [ovs1| |] eqn:Es; cbn [bind] in *; try discriminate. injection Hu as <- <-.
    destruct sq as [pos'|j|pos' id']; cbn [read_at type_at] in *; try discriminate; [exact Hr|].
    destruct (nth_error os pos') as [ms'|] eqn:En'; [|discriminate].
    destruct (Nat.eq_dec pos pos') as [<-|Hne].
    + rewrite En in En'. injection En' as <-. rewrite (aget_aset_same _ _ _ _ Es). rewrite Ed in Hr. cbn [bind fst snd] in *. rewrite members_find in *.
      destruct (lookup ms id') as [t'|] eqn:El'; [|discriminate]. destruct (Z.eqb_spec id' (fst d)) as [E1|]; [|discriminate].
      cbn [rivals] in Hn. rewrite En, El in Hn. destruct (Z.eq_dec id id') as [<-|Hne]; [|exfalso; apply Hn; auto].
      rewrite El in El'. injection El' as <-. destruct (Z.eqb_spec id (fst d)); [|congruence]. cbn [snd fst] in *.
      destruct (Z.eqb_spec id (fst d)); [|congruence]. eapply (IH q (OElem t) (snd d)); eauto. cbn. auto.
    + rewrite (aget_aset_other _ _ _ _ _ Es) by lia. exact Hr.
Qed.

(** A rival is dead once the target's init has run. *)
Lemma read_rival : forall p q ty v v1 e x, oty_ok ty -> owt ty v ->
  update_at ty p touch v = Done (e, v1) -> read_at ty q v = Done x -> rivals ty p q -> (exists tty, type_at ty p = Some tty) -> read_at ty q v1 = UB.
Proof.
  induction p as [|sp p IH]; intros q ty v v1 e x Hok Hw Hu Hr Hn [tty Htp]; [contradiction|].
  destruct q as [|sq q]; [destruct sp; contradiction|].
  destruct sp as [pos|i|pos id]; cbn [update_at type_at] in Htp, Hu; destruct sq as [pos'|j|pos' id']; cbn [rivals] in Hn; try contradiction.
  - destruct ty as [[| |fs os]|]; try discriminate. destruct v as [| | | |pres vs ovs]; try discriminate. destruct (nth_error fs pos) as [[[num k] t]|] eqn:En; [|discriminate].
    assert (Ht' : k <> KRecursive /\ type_at (oty_of k t) p = Some tty) by (destruct k; try discriminate; split; auto; congruence). destruct Ht' as [Hk Htp'].
    destruct (owt_sub fs os pres vs ovs pos num k t Hok Hw En Hk) as (y & Ey & Hok' & Hw'). rewrite Ey in Hu. cbn [bind] in Hu.
    destruct (match k with KOpt => presence_set pres (opt_index fs pos) | _ => Done pres end) as [p'| |]; cbn [bind] in *; try discriminate.
    destruct (update_at (oty_of k t) p touch y) as [[e1 y1]| |] eqn:E; cbn [bind] in *; try discriminate.
    destruct (aset vs (Z.of_nat pos) y1) as [vs1| |] eqn:Es; cbn [bind] in *; try discriminate. injection Hu as <- <-.
    destruct Hn as [<- Hn]. cbn [read_at] in *. rewrite En in *. rewrite (aget_aset_same _ _ _ _ Es). rewrite Ey in Hr. cbn [bind] in *.
    eapply (IH q (oty_of k t) y); eauto.
  - destruct ty as [|max t]; try discriminate. destruct v as [| | |len data|]; try discriminate. destruct ((0 <=? i) && (i <? 2 ^ 32)) eqn:Ei; [|discriminate].
    pose proof Hok as [Hd Hc]. pose proof Hw as (_ & Hz & _). unfold capacity_ok in Hc. rewrite (rep_get_ok len data i max Hz Hc) in Hu.
    destruct (owt_at max t len data (Z.min i (max - 1)) Hw) as (y & Ey & Hy); [lia|]. rewrite Ey in Hu. cbn [bind] in Hu.
    destruct (update_at (OElem t) p touch y) as [[e1 y1]| |] eqn:E; cbn [bind] in *; try discriminate.
    destruct (aset data (Z.min i (max - 1)) y1) as [data1| |] eqn:Es; cbn [bind] in *; try discriminate. injection Hu as <- <-.
    destruct Hn as [Eij Hn]. cbn [read_at] in *. unfold rep_get_const in *. rewrite (aset_zlen _ _ _ _ Es). rewrite Hz, u32_small in * by lia.
    rewrite <- Eij in *. rewrite (aget_aset_same _ _ _ _ Es). rewrite Ey in Hr. cbn [bind] in *. eapply (IH q (OElem t) y); eauto.
  - destruct ty as [[| |fs os]|]; try discriminate. destruct v as [| | | |pres vs ovs]; try discriminate. destruct (nth_error os pos) as [ms|] eqn:En; [|discriminate].
    rewrite members_find in Hu. destruct (lookup ms id) as [t|] eqn:El; [|discriminate]. destruct (owt_member fs os pres vs ovs pos ms id t Hok Hw En El) as (Hd & d & Ed & Hx).
    rewrite Ed in Hu. cbn [bind] in Hu. cbv zeta in Hu.
    destruct (update_at (OElem t) p touch (snd (if id =? fst d then d else oneof_init (members ms) id d))) as [[e1 y1]| |] eqn:E; cbn [bind] in *; try discriminate.
    destruct (aset ovs (Z.of_nat pos) _) as [ovs1| |] eqn:Es; cbn [bind] in *; try discriminate. injection Hu as <- <-.
    destruct Hn as [<- Hn]. cbn [read_at] in *. rewrite En in *. rewrite (aget_aset_same _ _ _ _ Es). rewrite Ed in Hr. cbn [bind fst snd] in *. rewrite members_find in *.
    destruct (lookup ms id') as [t'|] eqn:El'; [|reflexivity]. destruct (Z.eqb_spec id' (fst d)) as [E1|]; [|discriminate].
    destruct (Z.eqb_spec id (fst d)) as [E2|E2]; cbn [fst snd].
    + subst id'. rewrite <- E2, El in El'. injection El' as <-. rewrite Z.eqb_refl.
      destruct Hn as [Hn|Hn]; [congruence|]. eapply (IH q (OElem t) (snd d)); eauto; cbn; auto.
    + rewrite oneof_init_fst. destruct (Z.eqb_spec id' id); [congruence|reflexivity].
Qed.

(** *** The same place *)
Lemma same_read : forall p q ty v x, oty_ok ty -> owt ty v -> (exists sty, type_at ty q = Some sty) ->
  same_place ty p q = true -> read_at ty q v = Done x -> read_at ty p v = Done x.
Proof.
  induction p as [|sp p IH]; intros q ty v x Hok Hw [sty Htq] Hs Hr.
  - destruct q; [exact Hr|discriminate].
  - destruct q as [|sq q]; [destruct sp; discriminate|].
    destruct sp as [pos|i|pos id]; destruct sq as [pos'|j|pos' id']; cbn [same_place] in Hs; try discriminate; cbn [read_at type_at] in *.
    + destruct ty as [[| |fs os]|]; try discriminate. destruct (nth_error fs pos) as [[[num k] t]|] eqn:En; [|discriminate].
      apply andb_prop in Hs. destruct Hs as [E Hs]. apply Nat.eqb_eq in E. subst pos'. rewrite En in *.
      assert (Ht' : k <> KRecursive /\ type_at (oty_of k t) q = Some sty) by (destruct k; try discriminate; split; auto; congruence). destruct Ht' as [Hk Htq'].
      destruct v as [| | | |pres vs ovs]; try discriminate.
      destruct (owt_sub fs os pres vs ovs pos num k t Hok Hw En Hk) as (y & Ey & Hok' & Hw'). rewrite Ey in *. cbn [bind] in *. eapply IH; eauto.
    + destruct ty as [|max t]; try discriminate. apply andb_prop in Hs. destruct Hs as [E Hs]. apply Z.eqb_eq in E.
      destruct v as [| | |len data|]; try discriminate. destruct ((0 <=? j) && (j <? 2 ^ 32)) eqn:Ej; [|discriminate].
      pose proof Hok as [Hd Hc]. pose proof Hw as (_ & Hz & _). unfold capacity_ok in Hc. unfold rep_get_const in *. rewrite Hz, u32_small in * by lia. rewrite E.
      destruct (owt_at max t len data (Z.min j (max - 1)) Hw) as (y & Ey & Hy); [lia|]. rewrite Ey in *. cbn [bind] in *. eapply IH; eauto.
    + destruct ty as [[| |fs os]|]; try discriminate. destruct (nth_error os pos) as [ms|] eqn:En; [|discriminate].
      rewrite members_find in *. destruct (lookup ms id) as [t|] eqn:El; [|discriminate]. apply andb_prop in Hs. destruct Hs as [E Hs]. apply andb_prop in E. destruct E as [E1 E2].
      apply Nat.eqb_eq in E1. apply Z.eqb_eq in E2. subst pos' id'. rewrite En, El in *.
      destruct v as [| | | |pres vs ovs]; try discriminate.
      destruct (owt_member fs os pres vs ovs pos ms id t Hok Hw En El) as (Hd & d & Ed & Hx). rewrite Ed in *. cbn [bind] in *. rewrite members_find, El in *.
      destruct (Z.eqb_spec id (fst d)); [|discriminate]. eapply IH; eauto. cbn. auto.
Qed.

Lemma same_touch : forall p r q ty v v1 e x, oty_ok ty -> owt ty v -> (exists tty, type_at ty p = Some tty) -> (exists sty, type_at ty q = Some sty) ->
  update_at ty p touch v = Done (e, v1) -> same_place ty (p ++ r) q = true -> read_at ty q v = Done x -> read_at ty (p ++ r) v1 = read_at ty q v1.
Proof.
  induction p as [|sp p IH]; intros r q ty v v1 e x Hok Hw [tty Htp] [sty Htq] Hu Hs Hr.
  - cbn [app update_at] in *. unfold touch in Hu. injection Hu as _ <-. rewrite Hr. eapply same_read; eauto.
  - destruct q as [|sq q]; [destruct sp; discriminate|].
    destruct sp as [pos|i|pos id]; destruct sq as [pos'|j|pos' id']; cbn [app same_place] in Hs; try discriminate; cbn [app read_at type_at update_at] in *.
    + destruct ty as [[| |fs os]|]; try discriminate. destruct (nth_error fs pos) as [[[num k] t]|] eqn:En; [|discriminate].
      apply andb_prop in Hs. destruct Hs as [E Hs]. apply Nat.eqb_eq in E. subst pos'. rewrite En in *.
      assert (Ht' : k <> KRecursive /\ type_at (oty_of k t) q = Some sty /\ type_at (oty_of k t) p = Some tty) by (destruct k; try discriminate; repeat split; auto; congruence). destruct Ht' as (Hk & Htq' & Htp').
      destruct v as [| | | |pres vs ovs]; try discriminate.
      destruct (owt_sub fs os pres vs ovs pos num k t Hok Hw En Hk) as (y & Ey & Hok' & Hw'). rewrite Ey in *. cbn [bind] in *.
      destruct (match k with KOpt => presence_set pres (opt_index fs pos) | _ => Done pres end) as [p'| |]; cbn [bind] in *; try discriminate.
      destruct (update_at (oty_of k t) p touch y) as [[e1 y1]| |] eqn:E; cbn [bind] in *; try discriminate.
      destruct (aset vs (Z.of_nat pos) y1) as [vs1| |] eqn:Es; cbn [bind] in *; try discriminate. injection Hu as <- <-.
      rewrite (aget_aset_same _ _ _ _ Es). cbn [bind]. eapply IH; eauto.
    + destruct ty as [|max t]; try discriminate. apply andb_prop in Hs. destruct Hs as [E0 Hs]. apply Z.eqb_eq in E0.
      destruct v as [| | |len data|]; try discriminate. destruct ((0 <=? i) && (i <? 2 ^ 32)) eqn:Ei; [|discriminate]. destruct ((0 <=? j) && (j <? 2 ^ 32)) eqn:Ej; [|discriminate].
      pose proof Hok as [Hd Hc]. pose proof Hw as (_ & Hz & _). unfold capacity_ok in Hc. rewrite (rep_get_ok len data i max Hz Hc) in Hu.
      destruct (owt_at max t len data (Z.min i (max - 1)) Hw) as (y & Ey & Hy); [lia|]. rewrite Ey in Hu. cbn [bind] in Hu.
      destruct (update_at (OElem t) p touch y) as [[e1 y1]| |] eqn:E; cbn [bind] in *; try discriminate.
      destruct (aset data (Z.min i (max - 1)) y1) as [data1| |] eqn:Es; cbn [bind] in *; try discriminate. injection Hu as <- <-.
      unfold rep_get_const in *. rewrite (aset_zlen _ _ _ _ Es). rewrite Hz, u32_small in * by lia. rewrite <- E0 in *.
      rewrite (aget_aset_same _ _ _ _ Es). rewrite Ey in Hr. cbn [bind] in *. eapply IH; eauto.
    + destruct ty as [[| |fs os]|]; try discriminate. destruct (nth_error os pos) as [ms|] eqn:En; [|discriminate].
      rewrite members_find in *. destruct (lookup ms id) as [t|] eqn:El; [|discriminate]. apply andb_prop in Hs. destruct Hs as [E Hs]. apply andb_prop in E. destruct E as [E1 E2].
      apply Nat.eqb_eq in E1. apply Z.eqb_eq in E2. subst pos' id'. rewrite En, El in *.
      destruct v as [| | | |pres vs ovs]; try discriminate.
      destruct (owt_member fs os pres vs ovs pos ms id t Hok Hw En El) as (Hd & d & Ed & Hx). rewrite Ed in *. cbn [bind] in *. cbv zeta in Hu. rewrite members_find, El in *.
      destruct (Z.eqb_spec id (fst d)) as [E1|]; [|discriminate].
      destruct (update_at (OElem t) p touch (snd d)) as [[e1 y1]| |] eqn:E; cbn [bind] in *; try discriminate.
      destruct (aset ovs (Z.of_nat pos) _) as [ovs1| |] eqn:Es; cbn [bind] in *; try discriminate. injection Hu as <- <-.
      rewrite (aget_aset_same _ _ _ _ Es). cbn [bind fst snd]. rewrite <- E1, Z.eqb_refl. eapply IH; eauto. cbn. auto.
Qed.

(** *** The object at the target *)
Lemma touched_owt : forall p ty v v1 e d tty, oty_ok ty -> owt ty v -> type_at ty p = Some tty ->
  update_at ty p touch v = Done (e, v1) -> read_at ty p v1 = Done d -> oty_ok tty /\ ((exists sc, tty = OElem (EScalar sc)) \/ owt tty d).
Proof.
  induction p as [|sp p IH]; intros ty v v1 e d tty Hok Hw Htp Hu Hr.
  - cbn [update_at read_at type_at] in *. unfold touch in Hu. injection Hu as _ <-. injection Hr as <-. injection Htp as <-. auto.
  - destruct sp as [pos|i|pos id]; cbn [read_at type_at update_at] in *.
    + destruct ty as [[| |fs os]|]; try discriminate. destruct (nth_error fs pos) as [[[num k] t]|] eqn:En; [|discriminate].
      assert (Ht' : k <> KRecursive /\ type_at (oty_of k t) p = Some tty) by (destruct k; try discriminate; repeat split; auto; congruence). destruct Ht' as (Hk & Htp').
      destruct v as [| | | |pres vs ovs]; try discriminate.
      destruct (owt_sub fs os pres vs ovs pos num k t Hok Hw En Hk) as (y & Ey & Hok' & Hw'). rewrite Ey in *. cbn [bind] in *.
      destruct (match k with KOpt => presence_set pres (opt_index fs pos) | _ => Done pres end) as [p'| |]; cbn [bind] in *; try discriminate.
      destruct (update_at (oty_of k t) p touch y) as [[e1 y1]| |] eqn:E; cbn [bind] in *; try discriminate.
      destruct (aset vs (Z.of_nat pos) y1) as [vs1| |] eqn:Es; cbn [bind] in *; try discriminate. injection Hu as <- <-.
      rewrite (aget_aset_same _ _ _ _ Es) in Hr. cbn [bind] in Hr. exact (IH (oty_of k t) y y1 e1 d tty Hok' Hw' Htp' E Hr).
    + destruct ty as [|max t]; try discriminate.
      destruct v as [| | |len data|]; try discriminate. destruct ((0 <=? i) && (i <? 2 ^ 32)) eqn:Ei; [|discriminate].
      pose proof Hok as [Hd Hc]. pose proof Hw as (_ & Hz & _). unfold capacity_ok in Hc. rewrite (rep_get_ok len data i max Hz Hc) in Hu.
      destruct (owt_at max t len data (Z.min i (max - 1)) Hw) as (y & Ey & Hy); [lia|]. rewrite Ey in Hu. cbn [bind] in Hu.
      destruct (update_at (OElem t) p touch y) as [[e1 y1]| |] eqn:E; cbn [bind] in *; try discriminate.
      destruct (aset data (Z.min i (max - 1)) y1) as [data1| |] eqn:Es; cbn [bind] in *; try discriminate. injection Hu as <- <-.
      unfold rep_get_const in *. rewrite (aset_zlen _ _ _ _ Es) in Hr. rewrite Hz, u32_small in * by lia.
      rewrite (aget_aset_same _ _ _ _ Es) in Hr. cbn [bind] in *. exact (IH (OElem t) y y1 e1 d tty Hd Hy Htp E Hr).
    + destruct ty as [[| |fs os]|]; try discriminate. destruct (nth_error os pos) as [ms|] eqn:En; [|discriminate].
      rewrite members_find in *. destruct (lookup ms id) as [t|] eqn:El; [|discriminate].
      destruct v as [| | | |pres vs ovs]; try discriminate.
      destruct (owt_member fs os pres vs ovs pos ms id t Hok Hw En El) as (Hd & d0 & Ed & Hx). rewrite Ed in *. cbn [bind] in *. cbv zeta in Hu.
      set (d' := if id =? fst d0 then d0 else oneof_init (members ms) id d0) in *.
      assert (Hd' : fst d' = id). { unfold d'. destruct (Z.eqb_spec id (fst d0)); [auto|apply oneof_init_fst]. }
      destruct (update_at (OElem t) p touch (snd d')) as [[e1 y1]| |] eqn:E; cbn [bind] in *; try discriminate.
      destruct (aset ovs (Z.of_nat pos) _) as [ovs1| |] eqn:Es; cbn [bind] in *; try discriminate. injection Hu as <- <-.
      rewrite (aget_aset_same _ _ _ _ Es) in Hr. cbn [bind fst snd] in Hr. rewrite Hd', Z.eqb_refl in Hr.
      assert (Hcase : (exists sc, t = EScalar sc) \/ wt t (snd d')).
      { destruct t as [sc|st max|fs' os']; [left; eauto|right|right]; unfold d'; (destruct (Z.eqb_spec id (fst d0)) as [E1|E1]; [now apply Hx|]);
          unfold oneof_init; rewrite members_find, El; cbn [snd is_enum placement_new]; now apply default_ok. }
      destruct Hcase as [[sc ->]|Hwd].
      * destruct p as [|s p]; [|destruct s; discriminate]. cbn [type_at] in Htp. injection Htp as <-. split; [exact Hd|left; eauto].
      * exact (IH (OElem t) (snd d') y1 e1 d tty Hd Hwd Htp E Hr).
Qed.

(** Legal calls with a copy are legal calls at a place. *)
Lemma with_copy_ok c tty sty x : suits c tty sty -> oty_ok sty -> owt sty x -> op_ok tty (with_copy c x).
Proof.
  intros Hs Hok Hw. destruct c as [| | |i]; cbn [suits with_copy] in *.
  - subst sty. destruct x; try exact Hw. destruct tty as [[| |]|]; try contradiction; exact Hw.
  - destruct tty as [[|st max|]|]; try contradiction. destruct Hs as [max' ->]. exists max'. auto.
  - destruct tty as [|max t]; [contradiction|]. subst sty. exact Hw.
  - destruct tty as [|max t]; [contradiction|]. destruct Hs as [Hi ->]. split; assumption.
Qed.

Lemma nest_ok o : forall p ty tty, type_at ty p = Some tty -> op_ok tty o ->
  (forall sc, tty = OElem (EScalar sc) -> exists z, o = OpScalarSet z) -> op_ok ty (nest p o).
Proof.
  induction p as [|[pos|i|pos id] p IH]; intros ty tty Ht Ho Hsc; cbn [nest type_at op_ok] in *.
  - injection Ht as ->. exact Ho.
  - destruct ty as [[| |fs os]|]; try discriminate. destruct (nth_error fs pos) as [[[num k] t]|] eqn:En; [|discriminate].
    destruct k; try discriminate; eapply IH; eauto.
  - destruct ty as [|max t]; try discriminate. destruct ((0 <=? i) && (i <? 2 ^ 32)) eqn:Ei; [|discriminate]. split; [unfold legal_index; lia|]. eapply IH; eauto.
  - destruct ty as [[| |fs os]|]; try discriminate. destruct (nth_error os pos) as [ms|] eqn:En; [|discriminate]. destruct (lookup ms id) as [t|] eqn:El; [|discriminate].
    destruct t as [sc|st max|fs' os']; [|eapply IH; eauto|eapply IH; eauto].
    destruct p as [|s p]; [|destruct s; discriminate]. cbn [type_at nest] in *. injection Ht as <-. destruct (Hsc sc eq_refl) as [z ->]. exact Ho.
Qed.

Lemma suits_size c tty sty : suits c tty sty -> (osize sty <= osize tty)%nat.
Proof.
  destruct c; cbn [suits].
  - now intros ->.
  - destruct tty as [[| |]|]; try contradiction. intros [max' ->]. reflexivity.
  - destruct tty as [|max t]; try contradiction. intros ->. cbn [osize]. lia.
  - destruct tty as [|max t]; try contradiction. intros [_ ->]. cbn [osize]. lia.
Qed.

Lemma call_copy c p q ty v x tty sty fuel : oty_ok ty -> owt ty v -> otidy ty v -> type_at ty p = Some tty -> type_at ty q = Some sty ->
  suits c tty sty -> read_at ty q v = Done x ->
  exists e v', run_op fuel (nest p (with_copy c x)) ty v = Done (e, v') /\ owt ty v'
    /\ acall ty (oview ty v) (nest p (with_copy c x)) e (oview ty v')
    /\ exists v1, update_at ty p touch v = Done (NoErrors, v1).
Proof.
  intros Hok Hw Ht Hp Hq Hs Hr. destruct (read_owt q ty v sty x Hok Hw Hq Hr) as [Hoks Hws].
  assert (Hop : op_ok ty (nest p (with_copy c x))).
  { eapply nest_ok; [exact Hp|eapply with_copy_ok; eauto|]. intros sc ->. destruct c; cbn [suits with_copy] in *; try contradiction. subst sty.
    destruct x; try contradiction. eauto. }
  pose proof (op_safe fuel _ ty v Hok Hw Ht Hop) as H. unfold op_post in H.
  destruct (run_op fuel (nest p (with_copy c x)) ty v) as [[e v']| |] eqn:E; [|contradiction|].
  - destruct H as (Hw' & _ & Ha). exists e, v'. split; [reflexivity|]. split; [exact Hw'|]. split; [exact Ha|].
    rewrite (run_nest fuel _ p ty v tty Hp) in E. eapply touch_Done; exact E.
  - exfalso. assert (Hd : ~ decodes (with_copy c x)) by (destruct c; cbn [with_copy]; try (now intros []); destruct x; now intros []).
    assert (Hd2 : forall o, ~ decodes o -> ~ decodes (nest p o)) by (clear; intros o Ho; induction p as [|[]]; cbn [nest decodes]; auto).
    exact (Hd2 _ Hd H).
Qed.

Theorem alias_copy c p q ty v x tty sty fuel : oty_ok ty -> owt ty v -> otidy ty v -> type_at ty p = Some tty -> type_at ty q = Some sty ->
  suits c tty sty -> read_at ty q v = Done x -> ~ rivals ty p q ->
  alias_call ty p c q v = run_op fuel (nest p (with_copy c x)) ty v.
Proof.
  intros Hok Hw Ht Hp Hq Hs Hr Hn.
  destruct (call_copy c p q ty v x tty sty fuel Hok Hw Ht Hp Hq Hs Hr) as (e & v' & Erun & _ & _ & v1 & Et).
  destruct (read_owt q ty v sty x Hok Hw Hq Hr) as [Hoks Hws].
  pose proof (read_touch p q ty v v1 _ x tty sty Hok Hw Hp Hq (suits_size _ _ _ Hs) Et Hr Hn) as Hr1.
  destruct (touched_read p ty v v1 _ Et) as [d Hd]. destruct (touched_owt p ty v v1 _ d tty Hok Hw Hp Et Hd) as [Hokt Hwd].
  rewrite (run_nest fuel _ p ty v tty Hp), <- (update_touched p ty v v1 _ _ Et).
  unfold alias_call. fold touch. change (fun (_ : oty) (d : value) => Done (NoErrors, d)) with touch. rewrite Et. cbn [bind]. rewrite Hr1. cbn [bind].
  apply (update_ext p ty v1 d tty); [exact Hd|exact Hp|].
  (* the same object on both sides *)
  assert (Hself : forall r, same_place ty (p ++ r) q = true -> read_at tty r d = Done x).
  { intros r Hsp. pose proof (same_touch p r q ty v v1 _ x Hok Hw (ex_intro _ _ Hp) (ex_intro _ _ Hq) Et Hsp Hr) as H.
    rewrite (read_app p r ty v1 tty Hp), Hd, Hr1 in H. exact H. }
  assert (Hasg : forall t old (b : bool), desc_ok t -> wt t x -> (b = true -> old = x) -> alias_asg b t old x = assign t old x).
  { intros t old b Hdt Hwx Hb. unfold alias_asg. destruct b; [|reflexivity]. rewrite (Hb eq_refl). now apply self_assign_ok. }
  destruct c as [| | |i]; cbn [suits] in Hs; cbn [slot alias_final with_copy].
  - (* operator= *) subst sty. pose proof (Hself []) as H. rewrite app_nil_r in H. cbn [read_at] in H. destruct tty as [t|max t].
    + rewrite (Hasg t d _ Hoks Hws); [|intros Eb; specialize (H Eb); congruence].
      destruct x; try reflexivity. destruct t; try contradiction. cbn [assign run_op]. reflexivity.
    + destruct Hoks as [Hdt Hc]. assert (Ex : forall z, x <> VS z) by (intros z ->; contradiction).
      assert (Erun2 : run_op fuel (match x with VS z => OpScalarSet z | _ => OpAssign x end) (ORep max t) d = (let* v'0 := rep_assign (assign t) d x in Done (NoErrors, v'0))).
      { destruct x; try reflexivity. exfalso. eapply Ex; reflexivity. }
      rewrite Erun2. destruct (same_place ty p q) eqn:Eb; [|reflexivity]. specialize (H eq_refl). injection H as ->.
      rewrite (rep_self_ok t max) by (auto; apply self_assign_ok). reflexivity.
  - (* set() of strings *) destruct tty as [[|st max|]|]; try contradiction. pose proof (Hself []) as H. rewrite app_nil_r in H. cbn [read_at] in H. cbn [run_op].
    destruct (same_place ty p q) eqn:Eb; [|reflexivity]. specialize (H eq_refl). injection H as ->. destruct Hs as [max' ->]. cbn [owt] in Hws.
    destruct x as [| |len data| |]; try contradiction. rewrite (bytes_self st max') by exact Hws. reflexivity.
  - (* add *) destruct tty as [|max t]; [contradiction|]. subst sty. cbn [run_op]. destruct Hwd as [[sc Hwd]|Hwd]; [discriminate|].
    destruct d as [| | |len data|]; try contradiction. pose proof Hwd as (Hl & Hz & _). destruct Hokt as [_ Hc]. unfold capacity_ok in Hc.
    cbn [rep_add]. destruct (Z.ltb_spec len (zlen data)); [|reflexivity].
    pose proof (Hself [SAt len]) as H1. cbn [read_at] in H1. unfold rep_get_const in H1. rewrite u32_small, Z.min_l in H1 by lia.
    apply bind_ext. intros old Eold. rewrite Eold in H1. cbn [bind] in H1. rewrite (Hasg t old _ Hoks Hws); [reflexivity|]. intros Eb. specialize (H1 Eb). congruence.
  - (* set *) destruct tty as [|max t]; [contradiction|]. destruct Hs as [Hi ->]. cbn [run_op]. destruct d as [| | |len data|]; auto.
    cbn [rep_set]. unfold rep_get. pose proof (Hself [SAt i]) as H1. cbn [read_at] in H1. unfold rep_get_const in H1.
    apply bind_ext. intros old Eold. rewrite Eold in H1. cbn [bind] in H1. rewrite (Hasg t old _ Hoks Hws); [reflexivity|]. intros Eb. specialize (H1 Eb). congruence.
Qed.

(** *** For reachable objects *)
Theorem alias_reach : forall ty ops fuel v p q c x tty sty,
  oty_ok ty -> Forall (op_ok ty) ops -> run_ops fuel ops ty (construct ty) = Done v ->
  type_at ty p = Some tty -> type_at ty q = Some sty -> suits c tty sty -> read_at ty q v = Done x -> ~ rivals ty p q ->
  exists e v', alias_call ty p c q v = Done (e, v') /\ owt ty v'
    /\ run_op fuel (nest p (with_copy c x)) ty v = Done (e, v')
    /\ acall ty (oview ty v) (nest p (with_copy c x)) e (oview ty v').
Proof.
  intros ty ops fuel v p q c x tty sty Hok Hl Hrun Hp Hq Hs Hr Hn. destruct (reached_ok fuel ty ops v Hok Hl Hrun) as (Hw & Ht & _).
  destruct (call_copy c p q ty v x tty sty fuel Hok Hw Ht Hp Hq Hs Hr) as (e & v' & E & Hw' & Ha & _). exists e, v'.
  rewrite (alias_copy c p q ty v x tty sty fuel) by assumption. auto.
Qed.

Theorem rival_reach : forall ty ops fuel v p q c x tty sty,
  oty_ok ty -> Forall (op_ok ty) ops -> run_ops fuel ops ty (construct ty) = Done v ->
  type_at ty p = Some tty -> type_at ty q = Some sty -> suits c tty sty -> read_at ty q v = Done x -> rivals ty p q ->
  alias_call ty p c q v = UB /\ exists e v', run_op fuel (nest p (with_copy c x)) ty v = Done (e, v').
Proof.
  intros ty ops fuel v p q c x tty sty Hok Hl Hrun Hp Hq Hs Hr Hn. destruct (reached_ok fuel ty ops v Hok Hl Hrun) as (Hw & Ht & _).
  destruct (call_copy c p q ty v x tty sty fuel Hok Hw Ht Hp Hq Hs Hr) as (e & v' & E & _ & _ & v1 & Et). split; [|eauto].
  unfold alias_call. change (fun (_ : oty) (d : value) => Done (NoErrors, d)) with touch. rewrite Et. cbn [bind].
  rewrite (read_rival p q ty v v1 _ x Hok Hw Et Hr Hn (ex_intro _ _ Hp)). reflexivity.
Qed.

(** Source and target are the same object or do not overlap. *)
Lemma same_type : forall p q ty tty sty, type_at ty p = Some tty -> type_at ty q = Some sty -> same_place ty p q = true -> tty = sty.
Proof.
  induction p as [|sp p IH]; intros q ty tty sty Hp Hq Hs.
  - destruct q; [|discriminate]. cbn in *. congruence.
  - destruct q as [|sq q]; [destruct sp; discriminate|].
    destruct sp as [pos|i|pos id]; destruct sq as [pos'|j|pos' id']; cbn [same_place] in Hs; try discriminate; cbn [type_at] in *.
    + destruct ty as [[| |fs os]|]; try discriminate. destruct (nth_error fs pos) as [[[num k] t]|] eqn:En; [|discriminate].
      apply andb_prop in Hs. destruct Hs as [E Hs]. apply Nat.eqb_eq in E. subst pos'. rewrite En in *. destruct k; try discriminate; eapply IH; eauto.
    + destruct ty as [|max t]; try discriminate. destruct ((0 <=? i) && (i <? 2 ^ 32)); [|discriminate]. destruct ((0 <=? j) && (j <? 2 ^ 32)); [|discriminate].
      apply andb_prop in Hs. destruct Hs as [E Hs]. eapply IH; eauto.
    + destruct ty as [[| |fs os]|]; try discriminate. destruct (nth_error os pos) as [ms|] eqn:En; [|discriminate].
      rewrite members_find in *. destruct (lookup ms id) as [t|] eqn:El; [|discriminate]. apply andb_prop in Hs. destruct Hs as [E Hs]. apply andb_prop in E. destruct E as [E1 E2].
      apply Nat.eqb_eq in E1. apply Z.eqb_eq in E2. subst pos' id'. rewrite En, El in *. eapply IH; eauto.
Qed.

Lemma type_app : forall p r ty, type_at ty (p ++ r) = match type_at ty p with Some t => type_at t r | None => None end.
Proof.
  induction p as [|[pos|i|pos id] p IH]; intros r ty; cbn [app type_at]; [reflexivity| | |].
  - destruct ty as [[| |fs os]|]; auto. destruct (nth_error fs pos) as [[[num k] t]|]; auto. destruct k; auto.
  - destruct ty as [|max t]; auto. destruct ((0 <=? i) && (i <? 2 ^ 32)); auto.
  - destruct ty as [[| |fs os]|]; auto. destruct (nth_error os pos) as [ms|]; auto. destruct (lookup ms id); auto.
Qed.

Theorem no_overlap : forall ty p q r t t', type_at ty p = Some t -> type_at ty q = Some t ->
  type_at ty (p ++ r) = Some t' -> same_place ty (p ++ r) q = true -> r = [].
Proof.
  intros ty p q r t t' Hp Hq Hpr Hs. pose proof (same_type _ _ _ _ _ Hpr Hq Hs). subst t'. rewrite type_app, Hp in Hpr.
  destruct (size_at _ _ _ Hpr) as [_ H]. destruct r as [|s r]; [reflexivity|]. specialize (H ltac:(discriminate)). lia.
Qed.

(** *** set_data from the list itself *)
Lemma aget_skipn {A} (l : list A) k i : 0 <= k -> 0 <= i -> aget (skipn (Z.to_nat k) l) i = aget l (k + i).
Proof.
  intros Hk Hi. unfold aget. destruct (Z.leb_spec 0 i); [|lia]. destruct (Z.leb_spec 0 (k + i)); [|lia].
  replace (Z.to_nat (k + i)) with (Z.to_nat k + Z.to_nat i)%nat by lia.
  generalize (Z.to_nat k) (Z.to_nat i). clear. intros n m. revert l. induction n as [|n IH]; intros [|x l]; cbn; auto. destruct m; reflexivity.
Qed.

Lemma set_own_loop t offset src : desc_ok t -> 0 <= offset -> Forall (wt t) src -> forall n i data, 0 <= i ->
  (forall j, i <= j -> aget data j = aget src j) ->
  set_own_data_loop t offset n i data = rep_set_data_loop (assign t) n i data (skipn (Z.to_nat offset) src).
Proof.
  intros Hd Ho Hw. induction n as [|n IH]; intros i data Hi Hag; cbn [set_own_data_loop rep_set_data_loop]; [reflexivity|].
  rewrite aget_skipn by lia. rewrite (Hag (offset + i)) by lia. apply bind_ext. intros y Ey. apply bind_ext. intros x Ex.
  assert (E : alias_asg (offset =? 0) t x y = assign t x y).
  { unfold alias_asg. destruct (Z.eqb_spec offset 0) as [E0|]; [|reflexivity]. rewrite E0, Z.add_0_l in Ey. rewrite (Hag i) in Ex by lia. assert (x = y) by congruence. subst y.
    apply self_assign_ok; [exact Hd|]. apply aget_Done in Ey. destruct Ey as [Ey _]. eapply Forall_forall in Hw; [exact Hw|]. eapply nth_error_In; exact Ey. }
  rewrite E. apply bind_ext. intros x' _. apply bind_ext. intros data' Es. apply IH; [lia|]. intros j Hj. rewrite (aget_aset_other _ _ _ _ _ Es) by lia. apply Hag. lia.
Qed.

Theorem own_data_reach : forall max t ops fuel len data offset n, let ty := ORep max t in
  oty_ok ty -> Forall (op_ok ty) ops -> run_ops fuel ops ty (construct ty) = Done (VR len data) ->
  0 <= offset -> 0 <= n -> offset + n <= max ->
  exists v', set_own_data t (VR len data) offset n = Done (NoErrors, v') /\ owt ty v'
    /\ oview ty v' = SvR (map (view t) (firstn (Z.to_nat n) (skipn (Z.to_nat offset) data))).
Proof.
  intros max t ops fuel len data offset n ty Hok Hl Hrun Ho Hn Hon. destruct (reached_ok fuel ty ops _ Hok Hl Hrun) as (Hw & Ht & _).
  pose proof Hw as (_ & Hz & Hall). apply all_Forall in Hall. pose proof Hok as [Hd Hc].
  assert (Hop : op_ok ty (OpRepSetData (skipn (Z.to_nat offset) data) n)).
  { cbn [op_ok ty]. split; [now apply Forall_skipn|]. rewrite zlen_skipn. lia. }
  pose proof (op_safe fuel _ ty _ Hok Hw Ht Hop) as H. unfold op_post in H. cbn [run_op ty] in H.
  assert (E : set_own_data t (VR len data) offset n = rep_set_data (assign t) (VR len data) (skipn (Z.to_nat offset) data) n).
  { cbn [set_own_data rep_set_data]. rewrite (set_own_loop t offset data Hd Ho Hall); auto; lia. }
  rewrite E. cbn [rep_set_data] in *. destruct (Z.leb_spec n (zlen data)); [|lia].
  destruct (rep_set_data_loop (assign t) (Z.to_nat n) 0 data (skipn (Z.to_nat offset) data)) as [d'| |]; cbn [bind] in *; try contradiction.
  destruct H as (Hw' & _ & Ha). exists (VR n d'). split; [reflexivity|]. split; [exact Hw'|]. cbn [oview ty] in *.
  remember (view_field (KRep max) (view t) 0 [] (VR n d')) as y eqn:Ey. clear Ey. inversion Ha; subst. reflexivity.
Qed.
