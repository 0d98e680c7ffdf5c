(** Proofs for C96: calls on different parts of an object in any order. *)
From Verif Require Import Base Buffers Wire Schema Fields Message Api Spec SpecApi SpecMentions SpecCalls Contracts BitLemmas Struct SerProofs Tables
  TidyProofs AssignProofs DecodeProofs BufferProofs SafetyProofs SafetyMsg ApiProofs ApiProps AliasProofs FieldOrderProofs MentionsProofs.
From Coq Require Import Lia ZifyBool ZifyNat ZifyN.
Ltac Zify.zify_post_hook ::= Z.div_mod_to_equations.

(* ------------------------------------------------------------------------------------------- *)
(** ** Arrays *)

Lemma aset_swap {A} (l l1 l2 : list A) i j x y : i <> j -> aset l i x = Done l1 -> aset l1 j y = Done l2 ->
  exists l1', aset l j y = Done l1' /\ aset l1' i x = Done l2.
Proof.
  unfold aset. intros Hij E1 E2. destruct ((0 <=? i) && (i <? zlen l)) eqn:Ei; [|discriminate]. injection E1 as <-.
  rewrite zlen_upd in E2. destruct ((0 <=? j) && (j <? zlen l)) eqn:Ej; [|discriminate]. injection E2 as <-.
  exists (upd (Z.to_nat j) y l). split; [reflexivity|]. rewrite zlen_upd, Ei. f_equal. apply upd_comm. lia.
Qed.

(** A word of an array changed by a function. *)
Definition modify (l : list Z) (i : Z) (f : Z -> Z) : res (list Z) := let* w := aget l i in aset l i (f w).

Lemma modify_swap l i j f g l1 l2 : (i = j -> forall w, f (g w) = g (f w)) -> modify l i f = Done l1 -> modify l1 j g = Done l2 ->
  exists l1', modify l j g = Done l1' /\ modify l1' i f = Done l2.
Proof.
  unfold modify. intros Hc E1 E2. destruct (aget l i) as [w| |] eqn:Ei; try discriminate. cbn [bind] in E1.
  destruct (Z.eq_dec i j) as [->|Hij].
  - rewrite (aget_aset_same _ _ _ _ E1) in E2. cbn [bind] in E2. rewrite (aset_aset _ _ _ _ _ E1) in E2.
    rewrite Ei. cbn [bind]. destruct (aset_exists _ _ _ (g w) _ E1) as (l' & El'). exists l'. split; [exact El'|].
    rewrite (aget_aset_same _ _ _ _ El'). cbn [bind]. rewrite (aset_aset _ _ _ _ _ El'), Hc by reflexivity. exact E2.
  - rewrite (aget_aset_other _ _ _ _ _ E1 Hij) in E2. destruct (aget l j) as [u| |] eqn:Ej; try discriminate. cbn [bind] in E2 |- *.
    destruct (aset_swap _ _ _ _ _ _ _ Hij E1 E2) as (l' & H1 & H2). exists l'. split; [exact H1|].
    rewrite (aget_aset_other _ _ _ _ _ H1 (not_eq_sym Hij)), Ei. exact H2.
Qed.

(* ------------------------------------------------------------------------------------------- *)
(** ** Presence flags *)

Inductive flag := FNone | FSet | FClear.
Definition act (a : flag) (pres : list Z) (i : Z) : res (list Z) :=
  match a with FNone => Done pres | FSet => presence_set pres i | FClear => presence_clear pres i end.

Lemma mask_kept i j : i mod 32 <> j mod 32 -> Z.land (presence_mask i) (u32 (Z.lnot (presence_mask j))) = presence_mask i.
Proof.
  intros H. rewrite !mask_pow. assert (0 <= i mod 32 < 32) by (apply Z.mod_pos_bound; lia). assert (0 <= j mod 32 < 32) by (apply Z.mod_pos_bound; lia).
  apply Z.bits_inj'. intros n Hn. rewrite Z.land_spec, Z.pow2_bits_eqb by lia. destruct (Z.eqb_spec (i mod 32) n) as [<-|]; [|reflexivity].
  unfold u32. rewrite Z.mod_pow2_bits_low by lia. rewrite Z.lnot_spec by lia. rewrite Z.pow2_bits_eqb by lia.
  destruct (Z.eqb_spec (j mod 32) (i mod 32)); [congruence|reflexivity].
Qed.

Lemma act_swap a b pres i j p1 p2 : (a <> FNone -> b <> FNone -> 0 <= i /\ 0 <= j /\ i <> j) -> act a pres i = Done p1 -> act b p1 j = Done p2 ->
  exists p1', act b pres j = Done p1' /\ act a p1' i = Done p2.
Proof.
  intros Hij E1 E2. destruct a; [cbn [act] in *; injection E1 as <-; eauto| |]; (destruct b; [cbn [act] in *; injection E2 as <-; eauto| |]);
    destruct (Hij ltac:(discriminate) ltac:(discriminate)) as (Hi & Hj & Hne);
    assert (Hm : presence_index i = presence_index j -> i mod 32 <> j mod 32) by (unfold presence_index; intros E; lia);
    refine (modify_swap pres (presence_index i) (presence_index j) _ _ p1 p2 _ E1 E2); intros E w; specialize (Hm E).
  - rewrite <- !Z.lor_assoc. f_equal. apply Z.lor_comm.
  - rewrite Z.land_lor_distr_l, (mask_kept i j Hm). reflexivity.
  - rewrite Z.land_lor_distr_l, (mask_kept j i (not_eq_sym Hm)). reflexivity.
  - rewrite <- !Z.land_assoc. f_equal. apply Z.land_comm.
Qed.

(* ------------------------------------------------------------------------------------------- *)
(** ** Calls on a field, and on a oneof *)

(** What a call on the field at a position does to the presence flags and to the field. *)
Definition field_flag (k : fkind) (o : op) : flag :=
  match k, o with KOpt, OpField _ _ => FSet | KOpt, OpClearField _ => FClear | _, _ => FNone end.
Definition field_value (fuel : nat) (k : fkind) (t : ety) (o : op) (x : value) : res (err * value) :=
  match k, o with
  | KRecursive, _ => Done (NoErrors, x)
  | _, OpField _ o' => run_op fuel o' (oty_of k t) x
  | KRep _, _ => let* x' := rep_clear (clear t) x in Done (NoErrors, x')
  | _, _ => let* x' := clear t x in Done (NoErrors, x')
  end.

Lemma aget_nth {A} (l : list A) pos : aget l (Z.of_nat pos) = match nth_error l pos with Some x => Done x | None => UB end.
Proof. unfold aget. rewrite Nat2Z.id. destruct (Z.leb_spec 0 (Z.of_nat pos)); [reflexivity|lia]. Qed.
Lemma aset_nth {A} (l : list A) pos x : (pos < length l)%nat -> aset l (Z.of_nat pos) x = Done (upd pos x l).
Proof. intros H. unfold aset, zlen. rewrite Nat2Z.id. destruct (_ && _) eqn:E; [reflexivity|lia]. Qed.

Ltac finish_field x E Hlt :=
  cbn [bind]; rewrite ?aset_nth by exact Hlt; cbn [bind]; split;
  [ intros Hrun; try discriminate Hrun; injection Hrun as <- <-; eexists x, _, _; repeat split; first [eassumption | rewrite E; reflexivity]
  | intros (y & p & x2 & Hy & Hp & Hv & ->); injection Hy as <-; rewrite E in Hv; cbn [bind] in Hv; try discriminate Hv; injection Hv as <- <-; congruence ].

Ltac finish_record x E Hlt :=
  cbn [bind]; rewrite ?aset_nth by exact Hlt; cbn [bind]; split;
  [ intros Hrun; try discriminate Hrun; injection Hrun as <- <-; eexists x, _, _; repeat split; first [eassumption | rewrite E; reflexivity]
  | intros (y & p & x2 & Hy & Hp & Hv & ->); injection Hy as <-; rewrite E in Hv; cbn [bind] in Hv; try discriminate Hv; injection Hv as <- <-; congruence ].

Lemma run_field fuel fs os o pos num k t pres vs ovs : part_of o = Some (PField pos) -> nth_error fs pos = Some (num, k, t) ->
  length vs = length fs -> forall e v1, run_op fuel o (OElem (EMsg fs os)) (VM pres vs ovs) = Done (e, v1) <->
  exists x pres' x', nth_error vs pos = Some x /\ act (field_flag k o) pres (opt_index fs pos) = Done pres'
    /\ field_value fuel k t o x = Done (e, x') /\ v1 = VM pres' (upd pos x' vs) ovs.
Proof.
  intros Hp Hf Hl e v1. assert (Hlt : (pos < length vs)%nat) by (rewrite Hl; apply nth_error_Some; congruence).
  destruct (nth_error vs pos) as [x|] eqn:Hx; [|apply nth_error_Some in Hlt; contradiction].
  assert (Hsame : upd pos x vs = vs) by now apply BitLemmas.upd_same.
  destruct o; try discriminate; cbn [part_of] in Hp; injection Hp as ->; cbn [run_op]; rewrite Hf.
  - (* OpField *) destruct k; cbn [field_flag field_value act]; rewrite ?aget_nth, ?Hx; cbn [bind].
    + destruct (run_op fuel o (oty_of KPlain t) x) as [[e1 x']| |] eqn:E; finish_field x E Hlt.
    + destruct (presence_set pres (opt_index fs pos)) as [p'| |] eqn:Ep; cbn [bind]; [|split; [discriminate|intros (? & ? & ? & _ & H & _); congruence]..].
      destruct (run_op fuel o (oty_of KOpt t) x) as [[e1 x']| |] eqn:E; finish_field x E Hlt.
    + destruct (run_op fuel o (oty_of (KRep max_length) t) x) as [[e1 x']| |] eqn:E; finish_field x E Hlt.
    + split; intros H.
      * injection H as <- <-. exists x, pres, x. rewrite Hsame. repeat split; auto.
      * destruct H as (y & p & x2 & [= <-] & [= <-] & [= <- <-] & ->). now rewrite Hsame.
  - (* OpClearField *) rewrite aget_nth, Hx. cbn [bind]. destruct k; cbn [field_flag field_value field_clear act].
    + destruct (clear t x) as [x'| |] eqn:E; finish_field x E Hlt.
    + destruct (presence_clear pres (opt_index fs pos)) as [p'| |] eqn:Ep; cbn [bind]; [|split; [discriminate|intros (? & ? & ? & _ & H & _); congruence]..].
      destruct (clear t x) as [x'| |] eqn:E; finish_field x E Hlt.
    + destruct (rep_clear (clear t) x) as [x'| |] eqn:E; finish_field x E Hlt.
    + cbn [bind]. rewrite aset_nth by exact Hlt. cbn [bind]. rewrite Hsame. split; intros H.
      * injection H as <- <-. exists x, pres, x. rewrite Hsame. repeat split; auto.
      * destruct H as (y & p & x2 & [= <-] & [= <-] & [= <- <-] & ->). now rewrite Hsame.
Qed.

(** What a call on the oneof at a position does to it. *)
Definition oneof_value (fuel : nat) (ms : odesc) (o : op) (d : Z * value) : res (err * (Z * value)) :=
  match o with
  | OpOneof _ id o' =>
      match find_member (members ms) id with
      | Some (t, _) =>
          let d' := if id =? fst d then d else oneof_init (members ms) id d in
          let* (e, x') := run_op fuel o' (OElem t) (snd d') in Done (e, (fst d', x'))
      | None => UB
      end
  | OpOneofClear _ id =>
      Done (NoErrors, match find_member (members ms) id with
                      | Some (t, _) => if id =? fst d then oneof_clear (members ms) d else d
                      | None => d
                      end)
  | _ => UB
  end.

Lemma run_oneof fuel fs os o pos ms pres vs ovs : part_of o = Some (POneof pos) -> nth_error os pos = Some ms ->
  forall e v1, run_op fuel o (OElem (EMsg fs os)) (VM pres vs ovs) = Done (e, v1) <->
  exists d d', nth_error ovs pos = Some d /\ oneof_value fuel ms o d = Done (e, d') /\ v1 = VM pres vs (upd pos d' ovs).
Proof.
  intros Hp Ho e v1. destruct (nth_error ovs pos) as [d|] eqn:Hd.
  2:{ destruct o; try discriminate; cbn [part_of] in Hp; injection Hp as ->; cbn [run_op]; rewrite Ho, aget_nth, Hd; cbn [bind];
      try (destruct (find_member (members ms) id) as [[t []]|]; cbn [bind]); split; intros H; try discriminate; destruct H as (? & ? & H & _); discriminate. }
  assert (Hlt : (pos < length ovs)%nat) by (apply nth_error_Some; congruence).
  destruct o; try discriminate; cbn [part_of] in Hp; injection Hp as ->; cbn [run_op oneof_value]; rewrite Ho, aget_nth, Hd; cbn [bind].
  - destruct (find_member (members ms) id) as [[t []]|]; [|split; intros H; try discriminate; destruct H as (? & ? & _ & H & _); discriminate].
    cbn [bind]. set (d0 := if id =? fst d then d else oneof_init (members ms) id d).
    destruct (run_op fuel o (OElem t) (snd d0)) as [[e1 x']| |] eqn:E; cbn [bind]; rewrite ?aset_nth by exact Hlt; cbn [bind]; split; intros H; try discriminate.
    + injection H as -> <-. exists d, (fst d0, x'). fold d0. rewrite E. repeat split; auto.
    + destruct H as (d1 & d' & [= <-] & H & ->). fold d0 in H. rewrite E in H. cbn [bind] in H. now injection H as -> <-.
    + destruct H as (d1 & d' & [= <-] & H & ->). fold d0 in H. rewrite E in H. discriminate.
    + destruct H as (d1 & d' & [= <-] & H & ->). fold d0 in H. rewrite E in H. discriminate.
  - rewrite aset_nth by exact Hlt. cbn [bind]. split; intros H.
    + injection H as <- <-. eexists d, _. repeat split; auto.
    + destruct H as (d1 & d' & [= <-] & [= <- <-] & ->). reflexivity.
Qed.

(** *** Different parts of a message *)

(** Two transformers of messages of the class that trade places, on the objects in [P]. *)
Definition swaps (P : value -> Prop) {R1 R2} (A : value -> res (R1 * value)) (B : value -> res (R2 * value)) : Prop :=
  forall v r1 v1 r2 v2, P v -> A v = Done (r1, v1) -> B v1 = Done (r2, v2) -> exists v1', B v = Done (r2, v1') /\ A v1' = Done (r1, v2).

(** A transformer that changes only the part [p]. *)
Definition acts (fs : list fdesc) (os : list odesc) (p : part) {R} (A : value -> res (R * value)) : Prop :=
  match p with
  | PField pos => exists num k t a (F : value -> res (R * value)), nth_error fs pos = Some (num, k, t) /\ (a <> FNone -> k = KOpt) /\
      forall pres vs ovs, length vs = length fs -> forall r v1, A (VM pres vs ovs) = Done (r, v1) <->
      exists x pres' x', nth_error vs pos = Some x /\ act a pres (opt_index fs pos) = Done pres' /\ F x = Done (r, x') /\ v1 = VM pres' (upd pos x' vs) ovs
  | POneof pos => exists (F : Z * value -> res (R * (Z * value))),
      forall pres vs ovs, forall r v1, A (VM pres vs ovs) = Done (r, v1) <->
      exists d d', nth_error ovs pos = Some d /\ F d = Done (r, d') /\ v1 = VM pres vs (upd pos d' ovs)
  end.
Definition passes {R} (A : value -> res (R * value)) : Prop := forall pres vs ovs r v1, A (VM pres vs ovs) = Done (r, v1) -> 
  v1 = VM pres vs ovs /\ forall pres' vs' ovs', A (VM pres' vs' ovs') = Done (r, VM pres' vs' ovs').
(** A transformer that has to do only with the parts in [T]. *)
Definition within (fs : list fdesc) (os : list odesc) (T : part -> Prop) {R} (A : value -> res (R * value)) : Prop :=
  (exists p, T p /\ acts fs os p A) \/ passes A.

Lemma passes_swap fs os {R1 R2} (A : value -> res (R1 * value)) (B : value -> res (R2 * value)) : passes A ->
  (forall v r v', wt (EMsg fs os) v -> B v = Done (r, v') -> exists pres vs ovs, v' = VM pres vs ovs) -> swaps (wt (EMsg fs os)) A B /\ swaps (wt (EMsg fs os)) B A.
Proof.
  intros HA HB. split; intros v r1 v1 r2 v2 Hw E1 E2.
  - destruct v as [| | | |pres vs ovs]; try contradiction. destruct (HA _ _ _ _ _ E1) as [-> H]. exists v2. split; [exact E2|].
    destruct (HB _ _ _ Hw E2) as (p & w & o & ->). apply H.
  - destruct (HB _ _ _ Hw E1) as (p & w & o & ->). destruct (HA _ _ _ _ _ E2) as [-> H]. destruct v as [| | | |pres vs ovs]; try contradiction.
    exists (VM pres vs ovs). split; [apply H|exact E1].
Qed.

Lemma acts_vm fs os p {R} (A : value -> res (R * value)) : acts fs os p A -> forall v r v', wt (EMsg fs os) v -> A v = Done (r, v') -> exists pres vs ovs, v' = VM pres vs ovs.
Proof.
  intros HA v r v' Hw E. destruct v as [| | | |pres vs ovs]; try contradiction. destruct Hw as (_ & _ & Hvs & _).
  pose proof (eq_sym (BitLemmas.all2_length _ _ _ Hvs)) as Hl. destruct p as [pos|pos]; cbn [acts] in HA.
  - destruct HA as (num & k & t & a & F & _ & _ & H). apply (H pres vs ovs Hl) in E. destruct E as (x & p' & x' & _ & _ & _ & ->). eauto.
  - destruct HA as (F & H). apply (H pres vs ovs) in E. destruct E as (d & d' & _ & _ & ->). eauto.
Qed.

Lemma acts_swap fs os p q {R1 R2} (A : value -> res (R1 * value)) (B : value -> res (R2 * value)) : acts fs os p A -> acts fs os q B -> p <> q ->
  swaps (wt (EMsg fs os)) A B.
Proof.
  intros HA HB Hne v r1 w1 r2 w2 Hw E1 E2. destruct v as [| | | |pres vs ovs]; try contradiction. destruct Hw as (_ & _ & Hvs & _).
  pose proof (eq_sym (BitLemmas.all2_length _ _ _ Hvs)) as Hl. clear Hvs.
  destruct p as [q1|q1], q as [q2|q2]; cbn [acts] in HA, HB.
  - assert (Hq : q1 <> q2) by congruence. destruct HA as (n1 & k1 & t1 & a1 & F1 & N1 & O1 & HA). destruct HB as (n2 & k2 & t2 & a2 & F2 & N2 & O2 & HB).
    apply (HA pres vs ovs Hl) in E1. destruct E1 as (x1 & pr1 & y1 & Hx1 & Ha1 & Hv1 & ->).
    assert (Hl1 : length (upd q1 y1 vs) = length fs) by now rewrite length_upd.
    apply (HB pr1 _ ovs Hl1) in E2. destruct E2 as (x2 & pr2 & y2 & Hx2 & Ha2 & Hv2 & ->). rewrite nth_error_upd_other in Hx2 by exact Hq.
    destruct (act_swap a1 a2 pres (opt_index fs q1) (opt_index fs q2) pr1 pr2) as (pr1' & Hb2 & Hb1); auto.
    { intros M1 M2. rewrite !opt_index_optix. split; [apply optix_nonneg|]. split; [apply optix_nonneg|]. intros E. apply Hq.
      rewrite (O1 M1) in N1. rewrite (O2 M2) in N2. eapply optix_inj; eauto. }
    exists (VM pr1' (upd q2 y2 vs) ovs). split.
    + apply (HB pres vs ovs Hl). exists x2, pr1', y2. auto.
    + apply (HA pr1' (upd q2 y2 vs) ovs); [now rewrite length_upd|]. exists x1, pr2, y1.
      rewrite nth_error_upd_other by congruence. repeat split; auto. f_equal. now apply upd_comm, not_eq_sym.
  - destruct HA as (n1 & k1 & t1 & a1 & F1 & N1 & O1 & HA). destruct HB as (F2 & HB).
    apply (HA pres vs ovs Hl) in E1. destruct E1 as (x1 & pr1 & y1 & Hx1 & Ha1 & Hv1 & ->).
    apply (HB pr1 _ ovs) in E2. destruct E2 as (d & d' & Hd & Hv & ->).
    exists (VM pres vs (upd q2 d' ovs)). split.
    + apply (HB pres vs ovs). eauto.
    + apply (HA pres vs _ Hl). exists x1, pr1, y1. auto.
  - destruct HA as (F1 & HA). destruct HB as (n2 & k2 & t2 & a2 & F2 & N2 & O2 & HB).
    apply (HA pres _ ovs) in E1. destruct E1 as (d & d' & Hd & Hv & ->).
    apply (HB pres vs _ Hl) in E2. destruct E2 as (x2 & pr2 & y2 & Hx2 & Ha2 & Hv2 & ->).
    exists (VM pr2 (upd q2 y2 vs) ovs). split.
    + apply (HB pres vs ovs Hl). exists x2, pr2, y2. auto.
    + apply (HA pr2 _ ovs). eauto.
  - assert (Hq : q1 <> q2) by congruence. destruct HA as (F1 & HA). destruct HB as (F2 & HB).
    apply (HA pres _ ovs) in E1. destruct E1 as (d1 & d1' & Hd1 & Hv1 & ->).
    apply (HB pres vs _) in E2. destruct E2 as (d2 & d2' & Hd2 & Hv2 & ->).
    rewrite nth_error_upd_other in Hd2 by exact Hq. exists (VM pres vs (upd q2 d2' ovs)). split.
    + apply (HB pres vs ovs). eauto.
    + apply (HA pres vs _). exists d1, d1'. rewrite nth_error_upd_other by congruence. repeat split; auto. f_equal. now apply upd_comm, not_eq_sym.
Qed.

Lemma within_swap fs os T U {R1 R2} (A : value -> res (R1 * value)) (B : value -> res (R2 * value)) : within fs os T A -> within fs os U B ->
  (forall p, T p -> U p -> False) -> swaps (wt (EMsg fs os)) A B.
Proof.
  assert (V : forall R W (C : value -> res (R * value)), within fs os W C -> forall v r v', wt (EMsg fs os) v -> C v = Done (r, v') -> exists pres vs ovs, v' = VM pres vs ovs).
  { intros R W C [(p & _ & HC)|HC] v r v' Hw E; [eapply acts_vm; eauto|]. destruct v as [| | | |pres vs ovs]; try contradiction. apply HC in E. destruct E as [-> _]. eauto. }
  intros HA HB HN. pose proof (V _ _ _ HA) as VA. pose proof (V _ _ _ HB) as VB. destruct HA as [(p & Tp & HA)|HA]; [destruct HB as [(q & Uq & HB)|HB]|].
  - apply (acts_swap fs os p q A B HA HB). intros ->. eauto.
  - exact (proj2 (passes_swap fs os B A HB VA)).
  - exact (proj1 (passes_swap fs os A B HA VB)).
Qed.

(** *** Calls on a part *)
Lemma call_within fuel fs os o p : part_of o = Some p -> within fs os (fun q => part_of o = Some q) (run_op fuel o (OElem (EMsg fs os)))
  \/ forall v, run_op fuel o (OElem (EMsg fs os)) v = UB.
Proof.
  intros Hp. destruct p as [q|q].
  - destruct (nth_error fs q) as [[[num k] t]|] eqn:E.
    + left. left. exists (PField q). split; [exact Hp|]. cbn [acts]. exists num, k, t, (field_flag k o), (field_value fuel k t o). split; [exact E|].
      split; [destruct k; cbn; congruence|]. intros pres vs ovs Hl. exact (run_field fuel fs os o q num k t pres vs ovs Hp E Hl).
    + right. intros v. destruct o; try discriminate; injection Hp as ->; cbn [run_op]; now rewrite E.
  - destruct (nth_error os q) as [ms|] eqn:E.
    + left. left. exists (POneof q). split; [exact Hp|]. cbn [acts]. exists (oneof_value fuel ms o). intros pres vs ovs. exact (run_oneof fuel fs os o q ms pres vs ovs Hp E).
    + right. intros v. destruct o; try discriminate; injection Hp as ->; cbn [run_op]; now rewrite E.
Qed.

(** *** One record that is received *)
Definition record (fuel : nat) (fs : list fdesc) (os : list odesc) (id : Z) (w : wiretype) {S} (R : rops S) (s : S) (v : value) : res ((err * S) * value) :=
  let* (e, v', s') := msg_dispatch fuel (dtab fuel fs) (dotab fuel os) id w R v s in Done ((e, s'), v').

(** The parts with field number [id]. *)
Definition owns (fs : list fdesc) (os : list odesc) (id : Z) (p : part) : Prop :=
  match p with
  | PField i => exists k t, nth_error fs i = Some (id, k, t)
  | POneof j => exists ms t, nth_error os j = Some ms /\ lookup ms id = Some t
  end.

Lemma record_within fuel fs os id w S (R : rops S) s : within fs os (owns fs os id) (record fuel fs os id w R s).
Proof.
  unfold record. destruct (find_field (dtab fuel fs) 0 0 id) as [[[p oi] f]|] eqn:Ef.
  - left. pose proof Ef as Ef'. apply find_field_inv in Ef. destruct Ef as (i & k & t & Ep & Eo & En & ->). rewrite Z.add_0_l in Eo. cbn [Nat.add] in Ep. subst oi p.
    exists (PField i). split; [cbn; eauto|]. cbn [acts].
    exists id, k, t, (match k with KOpt => FSet | _ => FNone end),
      (fun x => match k with
                | KPlain | KOpt => let* (e, x', s') := elem_deserialize_check_type t (deserialize fuel t) w S R x s in Done ((e, s'), x')
                | KRep _ => let* (e, x', s') := rep_deserialize_check_type fuel t (deserialize fuel t) w S R x s in Done ((e, s'), x')
                | KRecursive => Done ((NoErrors, s), x)
                end).
    split; [exact En|]. split; [destruct k; congruence|]. intros pres vs ovs Hl r v1. cbn [msg_dispatch]. rewrite Ef'. rewrite aget_nth. change (opt_index fs i) with (optix fs i).
    assert (Hlt : (i < length vs)%nat) by (rewrite Hl; apply nth_error_Some; congruence).
    destruct (nth_error vs i) as [x|] eqn:Hx; [|apply nth_error_Some in Hlt; contradiction]. cbn [bind field_deserialize].
    destruct k as [| |max|]; cbn [act].
    + destruct (elem_deserialize_check_type t (deserialize fuel t) w S R x s) as [[[e x'] s']| |] eqn:E; finish_record x E Hlt.
    + destruct (presence_set pres (optix fs i)) as [pr| |] eqn:Epr; cbn [bind]; [|split; [discriminate|intros (? & ? & ? & _ & H & _); congruence]..].
      destruct (elem_deserialize_check_type t (deserialize fuel t) w S R x s) as [[[e x'] s']| |] eqn:E; finish_record x E Hlt.
    + destruct (rep_deserialize_check_type fuel t (deserialize fuel t) w S R x s) as [[[e x'] s']| |] eqn:E; finish_record x E Hlt.
    + cbn [bind]. rewrite aset_nth by exact Hlt. cbn [bind]. split.
      * intros H. injection H as <- <-. exists x, pres, x. auto.
      * intros (y & p & x' & Hy & Hp & Hv & ->). injection Hy as <-. injection Hp as <-. injection Hv as <- <-. reflexivity.
  - destruct (find_oneof (dotab fuel os) 0 id) as [[p dms]|] eqn:Eo.
    + left. pose proof Eo as Eo'. apply find_oneof_inv in Eo. destruct Eo as (j & ms & t & Ep & En & El & ->). cbn [Nat.add] in Ep. subst p.
      exists (POneof j). split; [cbn; eauto|]. cbn [acts].
      exists (fun d => let* (e, d', s') := oneof_deserialize (map (fun '(n, t) => (n, t, deserialize fuel t)) ms) id w d R s in Done ((e, s'), d')).
      intros pres vs ovs r v1. cbn [msg_dispatch]. rewrite Ef, Eo', aget_nth. destruct (nth_error ovs j) as [d|] eqn:Hd; cbn [bind].
      2:{ split; [discriminate|]. intros (? & ? & H & _). discriminate. }
      assert (Hlt : (j < length ovs)%nat) by (apply nth_error_Some; congruence).
      destruct (oneof_deserialize _ id w d R s) as [[[e d'] s']| |] eqn:E; cbn [bind]; rewrite ?aset_nth by exact Hlt; cbn [bind]; split;
        try (intros H; discriminate); try (intros (y & y' & Hy & Hv & _); injection Hy as <-; rewrite E in Hv; discriminate).
      * intros H. injection H as <- <-. exists d, d'. rewrite E. auto.
      * intros (y & y' & Hy & Hv & ->). injection Hy as <-. rewrite E in Hv. cbn [bind] in Hv. injection Hv as <- <-. reflexivity.
    + right. intros pres vs ovs r v1 H. cbn [msg_dispatch] in *. rewrite Ef, Eo in H. destruct (id =? 0) eqn:E0.
      * cbn [bind] in H. injection H as <- <-. split; [reflexivity|]. intros. rewrite Ef, Eo, ?E0. reflexivity.
      * destruct (skip_unknown_field w R s) as [[e s']| |] eqn:E; try discriminate. cbn [bind] in H. injection H as <- <-. split; [reflexivity|]. intros. rewrite Ef, Eo, ?E0, ?E. reflexivity.
Qed.

(** *** All records *)
Definition records (fuel n : nat) (fs : list fdesc) (os : list odesc) {S} (R : rops S) (s : S) (v : value) : res ((err * S) * value) :=
  let* (e, v', s') := msg_loop fuel n (dtab fuel fs) (dotab fuel os) R v s in Done ((e, s'), v').

Lemma record_safe fuel fs os bytes id w s m v r v' : desc_ok (EMsg fs os) -> holds bytes s m -> wt (EMsg fs os) v ->
  record fuel fs os id w (rfix_ops (zlen bytes)) s v = Done (r, v') -> wt (EMsg fs os) v' /\ exists m', holds bytes (snd r) m'.
Proof.
  intros Hok Hi Hw H. assert (Hf : Forall (fun f : fdesc => deser_ok fuel (snd f)) fs) by (apply Forall_forall; intros; apply deserialize_safe).
  assert (Ho : Forall (Forall (fun p : Z * ety => deser_ok fuel (snd p))) os) by (apply Forall_forall; intros; apply Forall_forall; intros; apply deserialize_safe).
  pose proof (dispatch_safe (holds_decoder bytes) fuel fs os id w v s m Hf Ho Hok Hi Hw) as Hs. unfold record in H.
  destruct (msg_dispatch fuel (dtab fuel fs) (dotab fuel os) id w (rfix_ops (zlen bytes)) v s) as [[[e1 v1] s1]| |]; try discriminate. cbn [bind] in H. injection H as <- <-.
  cbn [out_ok] in Hs. destruct Hs as (Hw1 & m2 & Hi2 & _). cbn [snd]. eauto.
Qed.

(** A transformer that trades places with every record that is mentioned trades places with all of them. *)
Lemma records_swap_l fuel fs os bytes {R2} (B : value -> res (R2 * value)) : desc_ok (EMsg fs os) ->
  (forall id w s, mentions bytes id -> swaps (wt (EMsg fs os)) (record fuel fs os id w (rfix_ops (zlen bytes)) s) B) ->
  forall n s m, holds bytes s m -> swaps (wt (EMsg fs os)) (records fuel n fs os (rfix_ops (zlen bytes)) s) B.
Proof.
  intros Hok HB. induction n as [|n IH]; intros s m Hi v r1 v1 r2 v2 Hw E1 E2; [discriminate E1|]. unfold records in E1 |- *. cbn [msg_loop] in E1 |- *.
  destruct (tag_safe (ds_pop _ _ _ _ (holds_decoder bytes)) s m Hi) as (te & o & s1 & m1 & Et & Hi1 & _ & _ & _ & Hx). rewrite Et in E1 |- *. cbn [bind] in E1 |- *.
  destruct te; [destruct Hx as ([w id] & -> & _)|injection E1 as <- <-; exists v2; split; [exact E2|reflexivity]..].
  pose proof (tag_mentioned _ _ _ _ _ _ Hi Et) as Hm.
  destruct (record fuel fs os id w (rfix_ops (zlen bytes)) s1 v) as [[r v']| |] eqn:Er.
  2-3: unfold record in Er; destruct (msg_dispatch fuel (dtab fuel fs) (dotab fuel os) id w (rfix_ops (zlen bytes)) v s1) as [[[e1 v0] s0]| |]; discriminate.
  destruct (record_safe fuel fs os bytes id w s1 m1 v r v' Hok Hi1 Hw Er) as (Hw' & m2 & Hi2).
  assert (Er0 : msg_dispatch fuel (dtab fuel fs) (dotab fuel os) id w (rfix_ops (zlen bytes)) v s1 = Done (fst r, v', snd r)).
  { unfold record in Er. destruct (msg_dispatch fuel (dtab fuel fs) (dotab fuel os) id w (rfix_ops (zlen bytes)) v s1) as [[[e1 v0] s0]| |]; try discriminate. cbn [bind] in Er. now injection Er as <- <-. }
  rewrite Er0 in E1. cbn [bind] in E1. assert (HR : forall u u', record fuel fs os id w (rfix_ops (zlen bytes)) s1 u = Done (r, u') ->
    msg_dispatch fuel (dtab fuel fs) (dotab fuel os) id w (rfix_ops (zlen bytes)) u s1 = Done (fst r, u', snd r)).
  { intros u u' Hu. unfold record in Hu. destruct (msg_dispatch fuel (dtab fuel fs) (dotab fuel os) id w (rfix_ops (zlen bytes)) u s1) as [[[e1 v0] s0]| |]; try discriminate. cbn [bind] in Hu. now injection Hu as <- <-. }
  destruct (is_ok (fst r)) eqn:Eo.
  - change (records fuel n fs os (rfix_ops (zlen bytes)) (snd r) v' = Done (r1, v1)) in E1.
    destruct (IH (snd r) m2 Hi2 v' r1 v1 r2 v2 Hw' E1 E2) as (w1 & B1 & L1).
    destruct (HB id w s1 Hm v r v' r2 w1 Hw Er B1) as (w0 & B0 & D0). exists w0. split; [exact B0|]. rewrite (HR _ _ D0). cbn [bind]. rewrite Eo. exact L1.
  - cbn [bind] in E1. injection E1 as <- <-. destruct (HB id w s1 Hm v r v' r2 v2 Hw Er E2) as (w0 & B0 & D0). exists w0. split; [exact B0|].
    rewrite (HR _ _ D0). cbn [bind]. rewrite Eo. reflexivity.
Qed.

Lemma records_swap_r fuel fs os bytes {R2} (B : value -> res (R2 * value)) : desc_ok (EMsg fs os) ->
  (forall id w s, mentions bytes id -> swaps (wt (EMsg fs os)) B (record fuel fs os id w (rfix_ops (zlen bytes)) s)) ->
  forall n s m, holds bytes s m -> swaps (wt (EMsg fs os)) B (records fuel n fs os (rfix_ops (zlen bytes)) s).
Proof.
  intros Hok HB. induction n as [|n IH]; intros s m Hi v r1 v1 r2 v2 Hw E1 E2; [discriminate E2|]. unfold records in E2 |- *. cbn [msg_loop] in E2 |- *.
  destruct (tag_safe (ds_pop _ _ _ _ (holds_decoder bytes)) s m Hi) as (te & o & s1 & m1 & Et & Hi1 & _ & _ & _ & Hx). rewrite Et in E2 |- *. cbn [bind] in E2 |- *.
  destruct te; [destruct Hx as ([w id] & -> & _)|injection E2 as <- <-; exists v; split; [reflexivity|exact E1]..].
  pose proof (tag_mentioned _ _ _ _ _ _ Hi Et) as Hm.
  assert (HR : forall u r u', record fuel fs os id w (rfix_ops (zlen bytes)) s1 u = Done (r, u') ->
    msg_dispatch fuel (dtab fuel fs) (dotab fuel os) id w (rfix_ops (zlen bytes)) u s1 = Done (fst r, u', snd r)).
  { intros u r u' Hu. unfold record in Hu. destruct (msg_dispatch fuel (dtab fuel fs) (dotab fuel os) id w (rfix_ops (zlen bytes)) u s1) as [[[e1 v0] s0]| |]; try discriminate. cbn [bind] in Hu. now injection Hu as <- <-. }
  destruct (record fuel fs os id w (rfix_ops (zlen bytes)) s1 v1) as [[r v']| |] eqn:Er.
  2-3: unfold record in Er; destruct (msg_dispatch fuel (dtab fuel fs) (dotab fuel os) id w (rfix_ops (zlen bytes)) v1 s1) as [[[e1 v0] s0]| |]; discriminate.
  rewrite (HR _ _ _ Er) in E2. cbn [bind] in E2. destruct (HB id w s1 Hm v r1 v1 r v' Hw E1 Er) as (w0 & D0 & B0).
  destruct (record_safe fuel fs os bytes id w s1 m1 v r w0 Hok Hi1 Hw D0) as (Hw' & m2 & Hi2). rewrite (HR _ _ _ D0). cbn [bind]. destruct (is_ok (fst r)) eqn:Eo.
  - change (records fuel n fs os (rfix_ops (zlen bytes)) (snd r) v' = Done (r2, v2)) in E2. exact (IH (snd r) m2 Hi2 w0 r1 v' r2 v2 Hw' B0 E2).
  - cbn [bind] in E2. injection E2 as <- <-. exists w0. split; [reflexivity|exact B0].
Qed.

Lemma receive_records fuel fs os bytes v e v' : run_op fuel (OpDeserialize bytes) (OElem (EMsg fs os)) v = Done (e, v') <->
  exists s', records fuel fuel fs os (rfix_ops (zlen bytes)) (rfix_of bytes) v = Done ((e, s'), v').
Proof.
  cbn [run_op deserialize]. change (msg_deserialize fuel _ _ ?a ?b ?c ?d) with (msg_loop fuel fuel (dtab fuel fs) (dotab fuel os) (rfix_ops (zlen bytes)) v (rfix_of bytes)).
  unfold records. destruct (msg_loop fuel fuel (dtab fuel fs) (dotab fuel os) (rfix_ops (zlen bytes)) v (rfix_of bytes)) as [[[e1 v1] s1]| |]; cbn [bind]; split; intros H;
    try discriminate; try (destruct H; discriminate).
  - injection H as <- <-. eauto.
  - destruct H as (s' & H). injection H as <- <- <-. reflexivity.
Qed.

Lemma rfix_of_holds bytes : Forall is_byte bytes -> zlen bytes < 2 ^ 32 -> holds bytes (rfix_of bytes) (length bytes).
Proof.
  intros Hb Hz. split; [|auto]. pose proof (zlen_nonneg bytes). unfold rfix_inv, rfix_of; cbn [rf_data rf_w rf_r]. repeat split; auto; unfold zlen; lia.
Qed.

Definition partly (fs : list fdesc) (os : list odesc) (o : op) : Prop :=
  (exists p, part_of o = Some p) \/ exists bytes, o = OpDeserialize bytes /\ Forall is_byte bytes /\ zlen bytes < 2 ^ 32.

Lemma owns_touches fs os bytes id p : owns fs os id p -> mentions bytes id -> touches fs os (OpDeserialize bytes) p.
Proof. destruct p as [i|j]; cbn [owns touches]; [intros (k & t & E) Hm; eauto|]. intros (ms & t & E & El) Hm. exists ms, id, t. auto. Qed.

Lemma touches_part fs os o p q : part_of o = Some p -> part_of o = Some q -> touches fs os o q.
Proof. intros Hp Hq. destruct o; try discriminate; exact Hq. Qed.

Lemma parts_swap fuel fs os o1 o2 : desc_ok (EMsg fs os) -> (forall p, touches fs os o1 p -> touches fs os o2 p -> False) -> partly fs os o1 -> partly fs os o2 ->
  swaps (wt (EMsg fs os)) (run_op fuel o1 (OElem (EMsg fs os))) (run_op fuel o2 (OElem (EMsg fs os))).
Proof.
  intros Hok HN [(p1 & P1)|(bs1 & -> & Hb1 & Hz1)] [(p2 & P2)|(bs2 & -> & Hb2 & Hz2)].
  - destruct (call_within fuel fs os o1 p1 P1) as [W1|U]; [|intros v r1 v1 r2 v2 _ E; rewrite U in E; discriminate].
    destruct (call_within fuel fs os o2 p2 P2) as [W2|U]; [|intros v r1 v1 r2 v2 _ _ E; rewrite U in E; discriminate].
    apply (within_swap _ _ _ _ _ _ W1 W2). intros p Q1 Q2. apply (HN p); eapply touches_part; eauto.
  - destruct (call_within fuel fs os o1 p1 P1) as [W1|U]; [|intros v r1 v1 r2 v2 _ E; rewrite U in E; discriminate].
    intros v r1 v1 r2 v2 Hw E1 E2. apply receive_records in E2. destruct E2 as (s' & E2).
    destruct (records_swap_r fuel fs os bs2 (run_op fuel o1 (OElem (EMsg fs os))) Hok) with (n := fuel) (s := rfix_of bs2) (m := length bs2) (v := v) (r1 := r1) (v1 := v1) (r2 := (r2, s')) (v2 := v2)
      as (v1' & F2 & F1); auto; [|now apply rfix_of_holds|exists v1'; split; [apply receive_records; eauto|exact F1]].
    intros id w s Hm. apply (within_swap _ _ _ _ _ _ W1 (record_within fuel fs os id w _ _ s)). intros p Q1 Q2. apply (HN p); [eapply touches_part; eauto|eapply owns_touches; eauto].
  - destruct (call_within fuel fs os o2 p2 P2) as [W2|U]; [|intros v r1 v1 r2 v2 _ _ E; rewrite U in E; discriminate].
    intros v r1 v1 r2 v2 Hw E1 E2. apply receive_records in E1. destruct E1 as (s' & E1).
    destruct (records_swap_l fuel fs os bs1 (run_op fuel o2 (OElem (EMsg fs os))) Hok) with (n := fuel) (s := rfix_of bs1) (m := length bs1) (v := v) (r1 := (r1, s')) (v1 := v1) (r2 := r2) (v2 := v2)
      as (v1' & F2 & F1); auto; [|now apply rfix_of_holds|exists v1'; split; [exact F2|apply receive_records; eauto]].
    intros id w s Hm. apply (within_swap _ _ _ _ _ _ (record_within fuel fs os id w _ _ s) W2). intros p Q1 Q2. apply (HN p); [eapply owns_touches; eauto|eapply touches_part; eauto].
  - intros v r1 v1 r2 v2 Hw E1 E2. apply receive_records in E1. destruct E1 as (s1 & E1). apply receive_records in E2. destruct E2 as (s2 & E2).
    destruct (records_swap_l fuel fs os bs1 (records fuel fuel fs os (rfix_ops (zlen bs2)) (rfix_of bs2)) Hok) with (n := fuel) (s := rfix_of bs1) (m := length bs1) (v := v) (r1 := (r1, s1)) (v1 := v1) (r2 := (r2, s2)) (v2 := v2)
      as (v1' & F2 & F1); auto; [|now apply rfix_of_holds|exists v1'; split; apply receive_records; eauto].
    intros id w s Hm. apply (records_swap_r fuel fs os bs2 _ Hok) with (m := length bs2); [|now apply rfix_of_holds].
    intros id' w' s' Hm'. apply (within_swap _ _ _ _ _ _ (record_within fuel fs os id w _ _ s) (record_within fuel fs os id' w' _ _ s')).
    intros p Q1 Q2. apply (HN p); [exact (owns_touches _ _ _ _ _ Q1 Hm)|exact (owns_touches _ _ _ _ _ Q2 Hm')].
Qed.

(** Calls on the whole message, and messages that mention none of its fields. *)
Lemma whole_vm fuel fs os o v e v' : (forall p, touches fs os o p) -> (forall bs, o <> OpDeserialize bs) -> wt (EMsg fs os) v -> run_op fuel o (OElem (EMsg fs os)) v = Done (e, v') ->
  exists pres vs ovs, v' = VM pres vs ovs.
Proof.
  intros Ht Hd Hw H. destruct v as [| | | |pres vs ovs]; try contradiction.
  destruct o; cbn [run_op] in H; try discriminate.
  all: try (pose proof (Ht (PField 0)) as T1; pose proof (Ht (POneof 0)) as T2; cbn [touches part_of] in T1, T2; congruence).
  - cbn [clear] in H. TidyProofs.inv_bind H x. injection H as _ <-. TidyProofs.inv_bind Heqr y. destruct y as [p' w']. TidyProofs.inv_bind Heqr z. injection Heqr as <-. eauto.
  - cbn [assign] in H. TidyProofs.inv_bind H x. injection H as _ <-. destruct src as [| | | |ps ws os']; try discriminate.
    TidyProofs.inv_bind Heqr y. destruct y as [p' w']. TidyProofs.inv_bind Heqr z. injection Heqr as <-. eauto.
  - injection H as _ <-. eauto.
  - exfalso. eapply Hd. reflexivity.
Qed.

Lemma whole_swap fuel fs os o bs : desc_ok (EMsg fs os) -> (forall p, touches fs os o p) -> (forall b, o <> OpDeserialize b) -> Forall is_byte bs -> zlen bs < 2 ^ 32 ->
  (forall p, ~ touches fs os (OpDeserialize bs) p) ->
  swaps (wt (EMsg fs os)) (run_op fuel o (OElem (EMsg fs os))) (run_op fuel (OpDeserialize bs) (OElem (EMsg fs os)))
  /\ swaps (wt (EMsg fs os)) (run_op fuel (OpDeserialize bs) (OElem (EMsg fs os))) (run_op fuel o (OElem (EMsg fs os))).
Proof.
  intros Hok Ht Hd Hb Hz HN.
  assert (P : forall id w s, mentions bs id -> passes (record fuel fs os id w (rfix_ops (zlen bs)) s)).
  { intros id w s Hm. destruct (record_within fuel fs os id w _ (rfix_ops (zlen bs)) s) as [(p & Hp & _)|H]; [|exact H]. exfalso. apply (HN p). eapply owns_touches; eauto. }
  assert (V : forall v r v', wt (EMsg fs os) v -> run_op fuel o (OElem (EMsg fs os)) v = Done (r, v') -> exists pres vs ovs, v' = VM pres vs ovs) by (intros; eapply whole_vm; eauto).
  split; intros v r1 v1 r2 v2 Hw E1 E2.
  - apply receive_records in E2. destruct E2 as (s' & E2).
    destruct (records_swap_r fuel fs os bs (run_op fuel o (OElem (EMsg fs os))) Hok) with (n := fuel) (s := rfix_of bs) (m := length bs) (v := v) (r1 := r1) (v1 := v1) (r2 := (r2, s')) (v2 := v2)
      as (v1' & F2 & F1); auto; [|now apply rfix_of_holds|exists v1'; split; [apply receive_records; eauto|exact F1]].
    intros id w s Hm. exact (proj2 (passes_swap fs os _ _ (P id w s Hm) V)).
  - apply receive_records in E1. destruct E1 as (s' & E1).
    destruct (records_swap_l fuel fs os bs (run_op fuel o (OElem (EMsg fs os))) Hok) with (n := fuel) (s := rfix_of bs) (m := length bs) (v := v) (r1 := (r1, s')) (v1 := v1) (r2 := r2) (v2 := v2)
      as (v1' & F2 & F1); auto; [|now apply rfix_of_holds|exists v1'; split; [exact F2|apply receive_records; eauto]].
    intros id w s Hm. exact (proj1 (passes_swap fs os _ _ (P id w s Hm) V)).
Qed.

(* ------------------------------------------------------------------------------------------- *)
(** ** Elements of a list *)

Definition element_value (fuel : nat) (t : ety) (o : op) (x : value) : res (err * value) :=
  match o with
  | OpRepAt _ o' => run_op fuel o' (OElem t) x
  | OpRepSet _ src => let* x' := assign t x src in Done (NoErrors, x')
  | _ => UB
  end.

Lemma run_element fuel max t o i len data : element_of o = Some i -> forall e v1, run_op fuel o (ORep max t) (VR len data) = Done (e, v1) <->
  exists x x' data', aget data (Z.min i (u32 (zlen data - 1))) = Done x /\ element_value fuel t o x = Done (e, x')
    /\ aset data (Z.min i (u32 (zlen data - 1))) x' = Done data'
    /\ v1 = VR (if len <=? Z.min i (u32 (zlen data - 1)) then Z.min i (u32 (zlen data - 1)) + 1 else len) data'.
Proof.
  intros Ho e v1. set (j := Z.min i (u32 (zlen data - 1))).
  destruct o; try discriminate; cbn [element_of] in Ho; injection Ho as ->; cbn [run_op rep_set element_value]; unfold rep_get; fold j.
  - destruct (aget data j) as [x| |] eqn:Ex; cbn [bind]; [|split; [discriminate|intros (? & ? & ? & H & _); discriminate]..].
    destruct (assign t x src) as [x'| |] eqn:Ea; cbn [bind].
    2-3: split; [discriminate|intros (y & x' & ? & [= <-] & H & _); rewrite Ea in H; discriminate].
    destruct (aset data j x') as [data'| |] eqn:Es; cbn [bind]; split; intros H; try discriminate.
    + injection H as <- <-. exists x, x', data'. rewrite Ea. auto.
    + destruct H as (y & y' & d' & [= <-] & Hy & Hd & ->). rewrite Ea in Hy. cbn [bind] in Hy. injection Hy as <- <-. rewrite Es in Hd. injection Hd as <-. reflexivity.
    + destruct H as (y & y' & d' & [= <-] & Hy & Hd & ->). rewrite Ea in Hy. cbn [bind] in Hy. injection Hy as <- <-. congruence.
    + destruct H as (y & y' & d' & [= <-] & Hy & Hd & ->). rewrite Ea in Hy. cbn [bind] in Hy. injection Hy as <- <-. congruence.
  - destruct (aget data j) as [x| |] eqn:Ex; cbn [bind]; [|split; [discriminate|intros (? & ? & ? & H & _); discriminate]..].
    destruct (run_op fuel o (OElem t) x) as [[e1 x']| |] eqn:Ea; cbn [bind].
    2-3: split; [discriminate|intros (y & x' & ? & [= <-] & H & _); rewrite Ea in H; discriminate].
    destruct (aset data j x') as [data'| |] eqn:Es; cbn [bind]; split; intros H; try discriminate.
    + injection H as <- <-. exists x, x', data'. auto.
    + destruct H as (y & y' & d' & [= <-] & Hy & Hd & ->). rewrite Ea in Hy. injection Hy as <- <-. rewrite Es in Hd. injection Hd as <-. reflexivity.
    + destruct H as (y & y' & d' & [= <-] & Hy & Hd & ->). rewrite Ea in Hy. injection Hy as <- <-. congruence.
    + destruct H as (y & y' & d' & [= <-] & Hy & Hd & ->). rewrite Ea in Hy. injection Hy as <- <-. congruence.
Qed.

Lemma zlen_aset {A} (l : list A) i x l' : aset l i x = Done l' -> zlen l' = zlen l.
Proof. unfold aset. destruct (_ && _); [|discriminate]. intros [= <-]. apply zlen_upd. Qed.

Lemma grow_swap len i j : (if (if len <=? i then i + 1 else len) <=? j then j + 1 else if len <=? i then i + 1 else len)
  = (if (if len <=? j then j + 1 else len) <=? i then i + 1 else if len <=? j then j + 1 else len).
Proof.
  destruct (Z.leb_spec len i), (Z.leb_spec len j); repeat match goal with |- context [?a <=? ?b] => destruct (Z.leb_spec a b) end; lia.
Qed.

Lemma elements_swap fuel max t o1 o2 i1 i2 v e1 v1 e2 v2 : element_of o1 = Some i1 -> element_of o2 = Some i2 -> 0 <= i1 < max -> 0 <= i2 < max ->
  i1 <> i2 -> capacity_ok max -> wt_field (KRep max) (wt t) v ->
  run_op fuel o1 (ORep max t) v = Done (e1, v1) -> run_op fuel o2 (ORep max t) v1 = Done (e2, v2) ->
  exists v1', run_op fuel o2 (ORep max t) v = Done (e2, v1') /\ run_op fuel o1 (ORep max t) v1' = Done (e1, v2).
Proof.
  intros P1 P2 H1 H2 Hne Hc Hw R1 R2. destruct v as [| | |len data|]; try contradiction. destruct Hw as (Hlen & Hz & _).
  assert (Hj : forall d : list value, forall i, zlen d = max -> 0 <= i < max -> Z.min i (u32 (zlen d - 1)) = i).
  { intros d i -> Hi. unfold capacity_ok in Hc. unfold u32. rewrite Z.mod_small by lia. lia. }
  apply (run_element fuel max t o1 i1 len data P1) in R1. destruct R1 as (x1 & y1 & d1 & G1 & V1 & S1 & ->).
  rewrite (Hj data i1 Hz H1) in *. pose proof (zlen_aset _ _ _ _ S1) as Hz1. rewrite Hz in Hz1.
  apply (run_element fuel max t o2 i2 _ d1 P2) in R2. destruct R2 as (x2 & y2 & d2 & G2 & V2 & S2 & ->).
  rewrite (Hj d1 i2 Hz1 H2) in *. rewrite (aget_aset_other _ _ _ _ _ S1 Hne) in G2.
  destruct (aset_swap _ _ _ _ _ _ _ Hne S1 S2) as (d1' & T2 & T1). pose proof (zlen_aset _ _ _ _ T2) as Hz'. rewrite Hz in Hz'.
  exists (VR (if len <=? i2 then i2 + 1 else len) d1'). split.
  - apply (run_element fuel max t o2 i2 len data P2). rewrite (Hj data i2 Hz H2). exists x2, y2, d1'. auto.
  - apply (run_element fuel max t o1 i1 _ d1' P1). rewrite (Hj d1' i1 Hz' H1). exists x1, y1, d2.
    rewrite (aget_aset_other _ _ _ _ _ T2 (not_eq_sym Hne)). repeat split; auto. f_equal. apply grow_swap.
Qed.

Lemma bytes_swap fuel st max i1 b1 i2 b2 v e1 v1 e2 v2 : 0 <= i1 < max -> 0 <= i2 < max -> i1 <> i2 -> capacity_ok max -> wt (EBytes st max) v ->
  run_op fuel (OpBytesPut i1 b1) (OElem (EBytes st max)) v = Done (e1, v1) -> run_op fuel (OpBytesPut i2 b2) (OElem (EBytes st max)) v1 = Done (e2, v2) ->
  exists v1', run_op fuel (OpBytesPut i2 b2) (OElem (EBytes st max)) v = Done (e2, v1')
    /\ run_op fuel (OpBytesPut i1 b1) (OElem (EBytes st max)) v1' = Done (e1, v2).
Proof.
  intros H1 H2 Hne Hc Hw R1 R2. destruct v as [| |len data| |]; try contradiction. destruct Hw as (Hlen & Hz & _).
  assert (Hj : forall d : list Z, forall i, zlen d = max -> 0 <= i < max -> Z.min i (u32 (zlen d - 1)) = i).
  { intros d i -> Hi. unfold capacity_ok in Hc. unfold u32. rewrite Z.mod_small by lia. lia. }
  cbn [run_op bytes_put] in *. unfold bytes_get in *. rewrite (Hj data i1 Hz H1) in R1. rewrite (Hj data i2 Hz H2).
  destruct (aset data i1 b1) as [d1| |] eqn:S1; try discriminate. cbn [bind] in R1. injection R1 as <- <-.
  cbn [bytes_put] in R2. unfold bytes_get in R2. pose proof (zlen_aset _ _ _ _ S1) as Hz1. rewrite Hz in Hz1. rewrite (Hj d1 i2 Hz1 H2) in R2.
  destruct (aset d1 i2 b2) as [d2| |] eqn:S2; try discriminate. cbn [bind] in R2. injection R2 as <- <-.
  destruct (aset_swap _ _ _ _ _ _ _ Hne S1 S2) as (d1' & T2 & T1). pose proof (zlen_aset _ _ _ _ T2) as Hz'. rewrite Hz in Hz'.
  rewrite T2. cbn [bind]. eexists. split; [reflexivity|]. cbn [bytes_put]. unfold bytes_get. rewrite (Hj d1' i1 Hz' H1), T1. cbn [bind]. rewrite grow_swap. reflexivity.
Qed.

(* ------------------------------------------------------------------------------------------- *)
(** ** Two calls *)

Lemma all_nth {A} (P : A -> Prop) l i x : all P l -> aget l i = Done x -> P x.
Proof.
  unfold aget. intros H. apply all_Forall in H. destruct (0 <=? i); [|discriminate]. destruct (nth_error l (Z.to_nat i)) eqn:E; [|discriminate].
  intros [= <-]. eapply Forall_forall; [exact H|]. eapply nth_error_In; eauto.
Qed.

Lemma two_swap fuel : forall ty o1 o2, independent ty o1 o2 -> oty_ok ty -> forall v e1 v1 e2 v2, owt ty v ->
  op_ok ty o1 -> op_ok ty o2 -> run_op fuel o1 ty v = Done (e1, v1) -> run_op fuel o2 ty v1 = Done (e2, v2) ->
  exists v1', run_op fuel o2 ty v = Done (e2, v1') /\ run_op fuel o1 ty v1' = Done (e1, v2).
Proof.
  induction 1 as [fs os o1 o2 HN|max t o1 o2 i1 i2 P1 P2 H1 H2 Hne|st max i1 b1 i2 b2 H1 H2 Hne
    |fs os pos num k t o1 o2 En Hi IH|fs os pos ms id t o1 o2 En El Hi IH|max t i o1 o2 Hi IH]; intros Hok v e1 v1 e2 v2 Hw L1 L2 R1 R2; cbn [oty_ok owt] in Hok, Hw.
  - assert (PW : forall o, op_ok (OElem (EMsg fs os)) o -> partly fs os o \/ ((forall p, touches fs os o p) /\ forall bs, o <> OpDeserialize bs)).
    { intros o Ho. unfold partly. destruct o; cbn [op_ok] in Ho; try (right; split; intros; [exact I|discriminate]); left; [left; eexists; reflexivity..|right; eauto]. }
    destruct (PW o1 L1) as [Q1|[Q1 D1]]; [destruct (PW o2 L2) as [Q2|[Q2 D2]]|].
    + exact (parts_swap fuel fs os o1 o2 Hok HN Q1 Q2 v e1 v1 e2 v2 Hw R1 R2).
    + destruct Q1 as [(p & Hp)|(bs & -> & Hb & Hz)]; [exfalso; apply (HN p); [eapply touches_part; eauto|apply Q2]|].
      destruct (whole_swap fuel fs os o2 bs Hok) as [_ W]; auto; [intros p Hp; exact (HN p Hp (Q2 p))|]. exact (W v e1 v1 e2 v2 Hw R1 R2).
    + destruct (PW o2 L2) as [[(p & Hp)|(bs & -> & Hb & Hz)]|[Q2 D2]].
      * exfalso. apply (HN p); [apply Q1|eapply touches_part; eauto].
      * destruct (whole_swap fuel fs os o1 bs Hok) as [W _]; auto; [intros p Hp; exact (HN p (Q1 p) Hp)|]. exact (W v e1 v1 e2 v2 Hw R1 R2).
      * exfalso. exact (HN (PField 0) (Q1 _) (Q2 _)).
  - destruct Hok. eapply (elements_swap fuel max t o1 o2 i1 i2); eauto.
  - eapply bytes_swap; eauto.
  - destruct v as [| | | |pres vs ovs]; try contradiction. destruct Hw as (_ & _ & Hvs & _). pose proof (eq_sym (BitLemmas.all2_length _ _ _ Hvs)) as Hl.
    destruct (BitLemmas.all2_nth _ _ _ _ _ Hvs En) as (x & Hx & Hwx). cbn in Hwx. destruct (desc_field fs os pos num k t Hok En) as (Hd & _ & Hk).
    apply (run_field fuel fs os (OpField pos o1) pos num k t pres vs ovs eq_refl En Hl) in R1. destruct R1 as (x1 & pr1 & y1 & Hx1 & Ha1 & Hv1 & ->).
    assert (Hl1 : length (upd pos y1 vs) = length fs) by now rewrite length_upd.
    apply (run_field fuel fs os (OpField pos o2) pos num k t pr1 _ ovs eq_refl En Hl1) in R2. destruct R2 as (x2 & pr2 & y2 & Hx2 & Ha2 & Hv2 & ->).
    rewrite Hx in Hx1. injection Hx1 as <-. assert (Hlt : (pos < length vs)%nat) by (apply nth_error_Some; congruence).
    rewrite nth_error_upd_same in Hx2 by exact Hlt. injection Hx2 as <-. rewrite upd_upd.
    assert (E : exists y1', field_value fuel k t (OpField pos o2) x = Done (e2, y1') /\ field_value fuel k t (OpField pos o1) y1' = Done (e1, y2)).
    { assert (Hrec : k = KRecursive \/ k <> KRecursive) by (destruct k; auto; right; discriminate). destruct Hrec as [->|Hr].
      - cbn [field_value] in *. injection Hv1 as <- <-. injection Hv2 as <- <-. eauto.
      - assert (Hoty : oty_ok (oty_of k t)) by (destruct k; cbn [oty_of oty_ok]; auto).
        pose proof (owt_field k t x Hr Hwx) as Hwo. cbn [op_ok] in L1, L2. rewrite En in L1, L2. destruct k; try congruence; cbn [field_value] in Hv1, Hv2 |- *; eapply IH; eauto. }
    destruct E as (y1' & F2 & F1). exists (VM pr1 (upd pos y1' vs) ovs). split.
    + apply (run_field fuel fs os (OpField pos o2) pos num k t pres vs ovs eq_refl En Hl). exists x, pr1, y1'. repeat split; auto.
    + apply (run_field fuel fs os (OpField pos o1) pos num k t pr1 (upd pos y1' vs) ovs eq_refl En); [now rewrite length_upd|].
      exists y1', pr2, y2. rewrite nth_error_upd_same by exact Hlt. rewrite upd_upd. repeat split; auto.
  - destruct v as [| | | |pres vs ovs]; try contradiction. destruct Hw as (_ & _ & _ & Hovs).
    destruct (BitLemmas.all2_nth _ _ _ _ _ Hovs En) as (d & Hd & Hwd). cbn in Hwd. destruct (desc_member fs os pos ms id t Hok En El) as (Hdt & _).
    apply (run_oneof fuel fs os (OpOneof pos id o1) pos ms pres vs ovs eq_refl En) in R1. destruct R1 as (d1 & d1' & Hd1 & Hv1 & ->).
    apply (run_oneof fuel fs os (OpOneof pos id o2) pos ms pres vs _ eq_refl En) in R2. destruct R2 as (d2 & d2' & Hd2 & Hv2 & ->).
    rewrite Hd in Hd1. injection Hd1 as <-. assert (Hlt : (pos < length ovs)%nat) by (apply nth_error_Some; congruence).
    rewrite nth_error_upd_same in Hd2 by exact Hlt. injection Hd2 as <-. rewrite upd_upd.
    assert (Hfm : find_member (members ms) id = Some (t, tt)) by (unfold members; rewrite find_member_map, El; reflexivity).
    cbn [oneof_value] in Hv1, Hv2. rewrite Hfm in Hv1, Hv2. set (d0 := if id =? fst d then d else oneof_init (members ms) id d) in Hv1.
    assert (Hf0 : fst d0 = id). { unfold d0. destruct (Z.eqb_spec id (fst d)); [auto|]. unfold oneof_init. rewrite Hfm. reflexivity. }
    assert (Hw0 : wt t (snd d0)).
    { unfold d0. destruct (Z.eqb_spec id (fst d)) as [E|].
      - unfold wt_oneof in Hwd. rewrite <- E, (lookup_map wt), El in Hwd. exact Hwd.
      - unfold oneof_init. rewrite Hfm. destruct t; [inversion Hi|cbn [snd is_enum placement_new]; now apply default_ok..]. }
    destruct (run_op fuel o1 (OElem t) (snd d0)) as [[e1' x1]| |] eqn:Q1; try discriminate. cbn [bind] in Hv1. injection Hv1 as -> <-.
    cbn [fst snd] in Hv2. rewrite Hf0, Z.eqb_refl in Hv2. cbn [fst snd] in Hv2.
    destruct (run_op fuel o2 (OElem t) x1) as [[e2' x2]| |] eqn:Q2; try discriminate. cbn [bind] in Hv2. injection Hv2 as -> <-.
    cbn [op_ok] in L1, L2. rewrite En, El in L1, L2.
    assert (L : op_ok (OElem t) o1 /\ op_ok (OElem t) o2) by (destruct t; [inversion Hi|auto..]).
    destruct (IH Hdt (snd d0) e1 x1 e2 x2 Hw0 (proj1 L) (proj2 L) Q1 Q2) as (x1' & T2 & T1).
    exists (VM pres vs (upd pos (id, x1') ovs)). split.
    + apply (run_oneof fuel fs os (OpOneof pos id o2) pos ms pres vs ovs eq_refl En). exists d, (id, x1'). split; [exact Hd|]. split; [|reflexivity].
      cbn [oneof_value]. rewrite Hfm. fold d0. rewrite T2, Hf0. reflexivity.
    + apply (run_oneof fuel fs os (OpOneof pos id o1) pos ms pres vs _ eq_refl En). exists (id, x1'), (id, x2).
      rewrite nth_error_upd_same by exact Hlt. rewrite upd_upd. split; [reflexivity|]. split; [|reflexivity].
      cbn [oneof_value fst snd]. rewrite Hfm, Z.eqb_refl. cbn [fst snd]. rewrite T1. reflexivity.
  - destruct Hok as (Hd & Hc). destruct v as [| | |len data|]; try contradiction. destruct Hw as (Hlen & Hz & Hall).
    apply (run_element fuel max t (OpRepAt i o1) i len data eq_refl) in R1. destruct R1 as (x1 & y1 & d1 & G1 & V1 & S1 & ->).
    pose proof (zlen_aset _ _ _ _ S1) as Hz1. apply (run_element fuel max t (OpRepAt i o2) i _ d1 eq_refl) in R2.
    destruct R2 as (x2 & y2 & d2 & G2 & V2 & S2 & ->). rewrite Hz1 in *. set (j := Z.min i (u32 (zlen data - 1))) in *.
    rewrite (aget_aset_same _ _ _ _ S1) in G2. injection G2 as <-. rewrite (aset_aset _ _ _ _ _ S1) in S2. cbn [element_value] in V1, V2.
    destruct (IH Hd x1 e1 y1 e2 y2 (all_nth _ _ _ _ Hall G1) (proj2 L1) (proj2 L2) V1 V2) as (y1' & T2 & T1).
    destruct (aset_exists _ _ _ y1' _ S1) as (d1' & S1'). pose proof (zlen_aset _ _ _ _ S1') as Hz1'.
    exists (VR (if len <=? j then j + 1 else len) d1'). split.
    + apply (run_element fuel max t (OpRepAt i o2) i len data eq_refl). fold j. exists x1, y1', d1'. auto.
    + apply (run_element fuel max t (OpRepAt i o1) i _ d1' eq_refl). rewrite Hz1'. fold j. exists y1', y2, d2.
      rewrite (aget_aset_same _ _ _ _ S1'), (aset_aset _ _ _ _ _ S1'). auto.
Qed.

(* ------------------------------------------------------------------------------------------- *)
(** ** Lists of calls *)

Lemma makes_app fuel ty : forall l1 v l2 v2, makes fuel ty v (l1 ++ l2) v2 <-> exists v1, makes fuel ty v l1 v1 /\ makes fuel ty v1 l2 v2.
Proof.
  induction l1 as [|[o e] l1 IH]; intros v l2 v2; cbn [app].
  - split; [intros H; exists v; split; [constructor|exact H]|]. intros (v1 & H1 & H2). inversion H1; subst. exact H2.
  - split.
    + intros H. inversion H as [|? ? ? w ? ? Hr Hm]; subst. apply IH in Hm. destruct Hm as (v1 & H1 & H2). exists v1. split; [|exact H2]. econstructor; eauto.
    + intros (v1 & H1 & H2). inversion H1 as [|? ? ? w ? ? Hr Hm]; subst. econstructor; [exact Hr|]. apply IH. eauto.
Qed.

Lemma makes_safe fuel ty : oty_ok ty -> forall l v v', makes fuel ty v l v' -> Forall (op_ok ty) (map fst l) -> owt ty v -> otidy ty v -> owt ty v' /\ otidy ty v'.
Proof.
  intros Hok. induction 1 as [|v o e v1 l v2 Hr Hm IH]; intros Hl Hw Ht; [auto|]. inversion Hl as [|? ? Ho Hl']; subst. cbn [fst map] in *.
  pose proof (op_safe fuel o ty v Hok Hw Ht Ho) as Hs. unfold op_post in Hs. rewrite Hr in Hs. destruct Hs as (Hw1 & Ht1 & _). now apply IH.
Qed.

Lemma rearranged_ops ty l l' : rearranged ty l l' -> Forall (op_ok ty) (map fst l) -> Forall (op_ok ty) (map fst l').
Proof.
  induction 1 as [l|l1 o1 e1 o2 e2 l2 Hi|l l' l'' _ IH1 _ IH2]; intros H; auto.
  rewrite map_app in *. apply Forall_app in H. destruct H as [H1 H2]. apply Forall_app. split; [exact H1|]. cbn [map fst] in *.
  inversion H2 as [|? ? A B]; subst. inversion B as [|? ? C D]; subst. auto.
Qed.

Lemma makes_rearranged fuel ty v l l' v' : oty_ok ty -> owt ty v -> otidy ty v -> Forall (op_ok ty) (map fst l) -> rearranged ty l l' ->
  makes fuel ty v l v' -> makes fuel ty v l' v'.
Proof.
  intros Hok Hw Ht Hl Hr. induction Hr as [l|l1 o1 e1 o2 e2 l2 Hi|l l' l'' H1 IH1 H2 IH2]; intros Hm; auto.
  - apply makes_app in Hm. destruct Hm as (w & M1 & M2). apply makes_app. exists w. split; [exact M1|].
    rewrite map_app in Hl. apply Forall_app in Hl. destruct Hl as [Hl Hl2]. destruct (makes_safe fuel ty Hok _ _ _ M1 Hl Hw Ht) as [Hw1 _].
    cbn [map fst] in Hl2. inversion Hl2 as [|? ? L1 Hl3]; subst. inversion Hl3 as [|? ? L2 _]; subst.
    inversion M2 as [|? ? ? w1 ? ? R1 M3]; subst. inversion M3 as [|? ? ? w2 ? ? R2 M4]; subst.
    destruct (two_swap fuel ty o1 o2 Hi Hok w e1 w1 e2 w2 Hw1 L1 L2 R1 R2) as (w1' & T2 & T1). econstructor; [exact T2|]. econstructor; [exact T1|exact M4].
  - apply IH2; [eapply rearranged_ops; eauto|]. now apply IH1.
Qed.

Lemma calls_rearranged_pf : forall fuel ty l l' v', oty_ok ty -> Forall (op_ok ty) (map fst l) -> rearranged ty l l' ->
  makes fuel ty (construct ty) l v' -> makes fuel ty (construct ty) l' v'.
Proof. intros fuel ty l l' v' Hok Hl Hr. destruct (construct_ok ty Hok) as (Hw & Ht & _). now apply makes_rearranged. Qed.

(** *** Per part *)
Lemma part_eqb_spec p q : part_eqb p q = true <-> p = q.
Proof. destruct p, q; cbn; rewrite ?Nat.eqb_eq; split; congruence. Qed.

Lemma rearranged_cons ty x l l' : rearranged ty l l' -> rearranged ty (x :: l) (x :: l').
Proof.
  induction 1 as [l|l1 o1 e1 o2 e2 l2 Hi|l l' l'' _ IH1 _ IH2]; [constructor|apply (rearranged_swap ty (x :: l1)); exact Hi|eapply rearranged_trans; eauto].
Qed.

Definition of_part (oe : op * err) (p : part) : Prop := part_of (fst oe) = Some p.

Lemma about_front fs os p x : forall l r, of_part x p -> Forall (fun oe => exists q, of_part oe q) l -> about p l = x :: r ->
  exists l1 l2, l = l1 ++ x :: l2 /\ about p l1 = [] /\ rearranged (OElem (EMsg fs os)) l (x :: l1 ++ l2).
Proof.
  induction l as [|y l IH]; intros r Hx Hl Ha; [discriminate|]. inversion Hl as [|? ? (q & Hq) Hl']; subst. unfold of_part in *.
  cbn [about filter] in Ha. rewrite Hq in Ha. destruct (part_eqb p q) eqn:E.
  - injection Ha as -> Ha. exists [], l. repeat split. constructor.
  - destruct (IH r Hx Hl' Ha) as (l1 & l2 & -> & H1 & H2). exists (y :: l1), l2. split; [reflexivity|]. split.
    { cbn [about filter]. rewrite Hq, E. exact H1. }
    eapply rearranged_trans; [apply rearranged_cons; exact H2|]. destruct x as [ox ex], y as [oy ey]. cbn [app fst] in *.
    apply (rearranged_swap _ [] oy ey ox ex (l1 ++ l2)). apply (ind_parts fs os oy ox). intros z T1 T2. assert (z = q) by (destruct oy; try discriminate; cbn [touches] in T1; congruence).
    assert (z = p) by (destruct ox; try discriminate; cbn [touches] in T2; congruence). subst z q. rewrite (proj2 (part_eqb_spec p p) eq_refl) in E. discriminate.
Qed.

Lemma about_app p l1 l2 : about p (l1 ++ l2) = about p l1 ++ about p l2.
Proof. apply filter_app. Qed.

Lemma by_part fs os : forall l l', Forall (fun oe => exists q, of_part oe q) l -> Forall (fun oe => exists q, of_part oe q) l' ->
  (forall p, about p l = about p l') -> rearranged (OElem (EMsg fs os)) l' l.
Proof.
  induction l as [|x l IH]; intros l' Hl Hl' Ha.
  - destruct l' as [|y l']; [constructor|]. inversion Hl' as [|? ? (q & Hq) _]; subst. specialize (Ha q). unfold of_part in Hq. cbn [about filter] in Ha. rewrite Hq, (proj2 (part_eqb_spec q q) eq_refl) in Ha. discriminate.
  - inversion Hl as [|? ? (q & Hq) Hl1]; subst.
    assert (Hs : about q (x :: l) = x :: about q l) by (cbn [about filter]; unfold of_part in Hq; rewrite Hq, (proj2 (part_eqb_spec q q) eq_refl); reflexivity).
    destruct (about_front fs os q x l' (about q l) Hq Hl') as (l1 & l2 & -> & H1 & H2); [rewrite <- Ha; exact Hs|].
    eapply rearranged_trans; [exact H2|]. apply rearranged_cons. apply IH; [exact Hl1| |].
    + apply Forall_app in Hl'. destruct Hl' as [A B]. inversion B; subst. apply Forall_app. auto.
    + intros p. specialize (Ha p). rewrite about_app in *. cbn [about filter] in Ha. unfold of_part in Hq. rewrite Hq in Ha.
      destruct (part_eqb p q) eqn:E; [|exact Ha]. apply part_eqb_spec in E. subst p. rewrite H1 in Ha |- *. cbn [app] in *. now injection Ha.
Qed.

Lemma calls_by_part_pf : forall fuel fs os l0 l l' v', let ty := OElem (EMsg fs os) in oty_ok ty ->
  Forall (op_ok ty) (map fst (l0 ++ l)) ->
  (forall o e, In (o, e) (l ++ l') -> exists p, part_of o = Some p) -> (forall p, about p l = about p l') ->
  makes fuel ty (construct ty) (l0 ++ l) v' -> makes fuel ty (construct ty) (l0 ++ l') v'.
Proof.
  intros fuel fs os l0 l l' v' ty Hok Hl Hp Ha Hm. destruct (construct_ok ty Hok) as (Hw & Ht & _).
  apply makes_app in Hm. destruct Hm as (w & M1 & M2). apply makes_app. exists w. split; [exact M1|].
  rewrite map_app in Hl. apply Forall_app in Hl. destruct Hl as [Hl0 Hl]. destruct (makes_safe fuel ty Hok _ _ _ M1 Hl0 Hw Ht) as [Hw1 Ht1].
  assert (P : forall k, (forall o e, In (o, e) k -> exists p, part_of o = Some p) -> Forall (fun oe => exists q, of_part oe q) k).
  { intros k Hk. apply Forall_forall. intros [o e] Hi. exact (Hk o e Hi). }
  apply (makes_rearranged fuel ty w l l' v' Hok Hw1 Ht1 Hl); [|exact M2]. apply by_part.
  - apply P. intros o e Hi. apply (Hp o e). apply in_or_app. auto.
  - apply P. intros o e Hi. apply (Hp o e). apply in_or_app. auto.
  - intros p. symmetry. apply Ha.
Qed.

(** The pair of calls, on an object that calls have made. *)
Lemma calls_pair_pf : forall fuel ty l v o1 e1 v1 o2 e2 v2, oty_ok ty -> Forall (op_ok ty) (map fst l) -> makes fuel ty (construct ty) l v ->
  op_ok ty o1 -> op_ok ty o2 -> independent ty o1 o2 -> run_op fuel o1 ty v = Done (e1, v1) -> run_op fuel o2 ty v1 = Done (e2, v2) ->
  exists v1', run_op fuel o2 ty v = Done (e2, v1') /\ run_op fuel o1 ty v1' = Done (e1, v2).
Proof.
  intros fuel ty l v o1 e1 v1 o2 e2 v2 Hok Hl Hm L1 L2 Hi R1 R2. destruct (construct_ok ty Hok) as (Hw & Ht & _).
  destruct (makes_safe fuel ty Hok _ _ _ Hm Hl Hw Ht) as [Hw1 _]. eapply two_swap; eauto.
Qed.
