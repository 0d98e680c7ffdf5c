(** Laws of merging (C86, C87). *)
From Verif Require Import Base Buffers Wire Schema Fields Message Spec Contracts BitLemmas
  ReadProofs ScalarProofs BufferProofs Struct SerProofs Tables DecodeProofs RoundTrip DecodeProps SerProps SpecRead ReadAny ReadTotal MalformedProps
  SpecRetype RetypeProofs SpecVersions VersionProofs SpecMerge MergeProofs.
From Coq Require Import ZifyBool ZifyNat ZifyN.
Ltac Zify.zify_post_hook ::= Z.div_mod_to_equations.

(** Values of the right shape, of any length. *)
Definition shape_field (k : fkind) (s : sval -> Prop) (x : sval) : Prop :=
  match k with
  | KPlain => s x
  | KOpt => x = SvNone \/ exists y, x = SvSome y /\ s y
  | KRep max => exists l, x = SvR l /\ Forall s l
  | KRecursive => x = SvNone
  end.
Definition shape_oneof (ms : list (Z * (sval -> Prop))) (o : Z * sval) : Prop :=
  o = (0, SvNone) \/ exists num s y, lookup ms num = Some s /\ o = (num, SvSome y) /\ s y.
Fixpoint shape (t : ety) (x : sval) : Prop :=
  match t with
  | EScalar _ => exists z, x = SvZ z
  | EBytes _ _ => exists b, x = SvB b
  | EMsg fs os => exists xs oxs, x = SvM xs oxs /\ all2 (fun '(_, k, t) => shape_field k (shape t)) fs xs
      /\ all2 (fun ms => shape_oneof (map (fun '(num, t) => (num, shape t)) ms)) os oxs
  end.

Lemma shape_default t : shape t (sdefault t).
Proof.
  induction t as [sc|st max|fs os Hf Ho] using ety_ind'; cbn [shape sdefault]; [eauto..|]. do 2 eexists. split; [reflexivity|]. split.
  - induction Hf as [|[[num k] t] fs H Hf IH]; cbn [map all2]; [exact I|]. split; [|exact IH]. destruct k; cbn; eauto.
  - clear. induction os as [|ms os IH]; cbn [map all2]; [exact I|]. split; [now left|exact IH].
Qed.

Lemma seen_shape t : forall x, seen t x -> shape t x.
Proof.
  induction t as [sc|st max|fs os Hf Ho] using ety_ind'; intros x Hx.
  - destruct Hx as ([] & Hw & ->); try contradiction. cbn. eauto.
  - destruct Hx as (v & Hw & ->). destruct (bytes_view _ _ _ Hw) as (b & -> & _ & Hl). cbn. eauto.
  - destruct (seen_msg _ _ _ Hx) as (xs & oxs & -> & H1 & H2). cbn [shape]. do 2 eexists. split; [reflexivity|]. split.
    + clear H2 Ho Hx. revert xs H1. induction Hf as [|[[num k] t] fs H Hf IH]; intros [|x xs] H1; cbn [all2] in *; try contradiction; [exact I|].
      destruct H1 as [Hx H1]. split; [|apply IH; exact H1]. cbn [snd] in H. destruct k as [| |max|]; cbn [seen_field shape_field] in *.
      * now apply H.
      * destruct Hx as [->|(y & -> & Hy)]; [now left|right; eauto].
      * destruct Hx as (l & -> & Hl & Hz). eexists. split; [reflexivity|]. eapply Forall_impl; [|exact Hl]. exact H.
      * exact Hx.
    + clear H1 Hf Hx. revert oxs H2. induction Ho as [|ms os H Ho IH]; intros [|o oxs] H2; cbn [all2] in *; try contradiction; [exact I|].
      destruct H2 as [Hx H2]. split; [|apply IH; exact H2]. destruct Hx as [->|(num & t & y & El & -> & Hy)]; [now left|right].
      exists num, (shape t), y. rewrite (lookup_map shape), El. split; [reflexivity|]. split; [reflexivity|]. apply lookup_In in El. apply (proj1 (Forall_forall _ _) H _ El). exact Hy.
Qed.

(** Merging keeps the shape. *)
Lemma merge_shape t : forall x y, shape t x -> shape t y -> shape t (merge t x y).
Proof.
  induction t as [sc|st max|fs os Hf Ho] using ety_ind'; intros x y Hx Hy; [exact Hy..|].
  cbn [shape] in Hx, Hy. destruct Hx as (xs & oxs & -> & X1 & X2), Hy as (ys & oys & -> & Y1 & Y2). rewrite merge_tab. cbn [shape]. do 2 eexists. split; [reflexivity|]. split.
  - clear X2 Y2 Ho. revert xs ys X1 Y1. induction Hf as [|[[num k] t] fs H Hf IH]; intros [|x xs] [|y ys] X1 Y1; cbn [all2] in *; try contradiction; [exact I|].
    destruct X1 as [Hx X1], Y1 as [Hy Y1]. cbn [mtab map merge_fields all2]. split; [|apply IH; auto]. cbn [snd] in H. destruct k as [| |max|]; cbn [shape_field] in *.
    + cbn [merge_field]. destruct y as [z|[|]| | | |]; auto. destruct t as [sc| |]; auto. now destruct (is_zero sc z).
    + destruct Hy as [->|(y' & -> & Hy)]; [exact Hx|]. cbn [merge_field]. right. eexists. split; [reflexivity|]. apply H; [|exact Hy].
      destruct Hx as [->|(x' & -> & Hx)]; [apply shape_default|exact Hx].
    + destruct Hx as (l & -> & Hl), Hy as (l' & -> & Hl'). cbn [merge_field]. eexists. split; [reflexivity|]. apply Forall_app. split; [exact Hl|]. apply Forall_map.
      eapply Forall_impl; [|exact Hl']. intros a Ha. apply H; [apply shape_default|exact Ha].
    + subst. reflexivity.
  - clear X1 Y1 Hf xs ys. revert oxs oys X2 Y2. induction Ho as [|ms os H Ho IH]; intros [|x xs] [|y ys] X2 Y2; cbn [all2] in *; try contradiction; [exact I|].
    destruct X2 as [Hx X2], Y2 as [Hy Y2]. cbn [motab map merge_oneofs all2]. split; [|apply IH; auto]. unfold merge_oneof. rewrite (lookup_map (fun t => (t, merge t))).
    destruct Hy as [->|(num & s & y' & El & -> & Hy)]; cbn [fst snd]; [destruct (lookup ms 0); exact Hx|]. rewrite (lookup_map shape) in El.
    destruct (lookup ms num) as [t|] eqn:E; [|discriminate]. injection El as <-. right. exists num, (shape t). eexists. rewrite (lookup_map shape), E. split; [reflexivity|]. split; [reflexivity|].
    pose proof E as E'. apply lookup_In in E'. apply (proj1 (Forall_forall _ _) H _ E'); [|exact Hy]. cbn [snd].
    destruct Hx as [->|(n2 & s2 & x' & El2 & -> & Hx)]; cbn [fst snd].
    + destruct (0 =? num); apply shape_default.
    + destruct (Z.eqb_spec n2 num) as [->|]; [|apply shape_default]. rewrite (lookup_map shape), E in El2. injection El2 as <-. exact Hx.
Qed.

(** A default message changes nothing. *)
Lemma merge_default fs os x : let t := EMsg fs os in shape t x -> merge t x (sdefault t) = x.
Proof.
  intros t. subst t. remember (EMsg fs os) as t eqn:Et. revert fs os Et x. induction t as [sc|st max|fs' os' Hf Ho] using ety_ind'; intros fs os Et x Hx; try discriminate.
  injection Et as <- <-. cbn [shape] in Hx. destruct Hx as (xs & oxs & -> & X1 & X2). cbn [sdefault]. rewrite merge_tab. f_equal.
  - clear X2 Ho. revert xs X1. induction Hf as [|[[num k] t] fs H Hf IH]; intros [|x xs] X1; cbn [all2] in *; try contradiction; [reflexivity|].
    destruct X1 as [Hx X1]. cbn [mtab map merge_fields]. f_equal; [|apply IH; auto]. cbn [snd] in H. destruct k as [| |max|]; cbn [shape_field sdefault_field] in *.
    + destruct t as [sc|st max|ifs ios]; [destruct sc; reflexivity|reflexivity|]. cbn [sdefault merge_field]. exact (H _ _ eq_refl _ Hx).
    + reflexivity.
    + destruct Hx as (l & -> & _). cbn. now rewrite app_nil_r.
    + reflexivity.
  - clear X1 Hf xs. revert oxs X2. induction Ho as [|ms os H Ho IH]; intros [|x xs] X2; cbn [all2] in *; try contradiction; [reflexivity|].
    destruct X2 as [Hx X2]. cbn [motab map merge_oneofs]. f_equal; [|apply IH; auto]. unfold merge_oneof. cbn [fst snd]. now destruct (lookup _ 0) as [[? ?]|].
Qed.

(** Into a new object: what a plain round trip gives (C20). *)
Lemma default_merge t : forall y, shape t y -> merge t (sdefault t) y = norm t y.
Proof.
  induction t as [sc|st max|fs os Hf Ho] using ety_ind'; intros y Hy; [reflexivity..|].
  cbn [shape] in Hy. destruct Hy as (ys & oys & -> & Y1 & Y2). cbn [sdefault norm]. rewrite merge_tab. f_equal.
  - clear Y2 Ho. revert ys Y1. induction Hf as [|[[num k] t] fs H Hf IH]; intros [|y ys] Y1; cbn [all2] in *; try contradiction; [reflexivity|].
    destruct Y1 as [Hy Y1]. cbn [mtab map merge_fields norm_fields]. f_equal; [|apply IH; auto]. cbn [snd] in H. destruct k as [| |max|]; cbn [shape_field sdefault_field] in *.
    + destruct t as [sc|st max|ifs ios].
      * destruct Hy as (z & ->). cbn. reflexivity.
      * destruct Hy as (b & ->). destruct b; reflexivity.
      * specialize (H y Hy). cbn [shape] in Hy. destruct Hy as (zs & ozs & -> & _). cbn [merge_field norm_field]. exact H.
    + destruct Hy as [->|(y' & -> & Hy)]; [reflexivity|]. cbn. f_equal. now apply H.
    + destruct Hy as (l & -> & Hl). cbn. f_equal. apply map_ext_in. intros a Ha. apply H. exact (proj1 (Forall_forall _ _) Hl a Ha).
    + subst. reflexivity.
  - clear Y1 Hf ys. revert oys Y2. induction Ho as [|ms os H Ho IH]; intros [|y ys] Y2; cbn [all2] in *; try contradiction; [reflexivity|].
    destruct Y2 as [Hy Y2]. cbn [motab map merge_oneofs norm_oneofs]. f_equal; [|apply IH; auto]. unfold merge_oneof, norm_oneof. rewrite (lookup_map (fun t => (t, merge t))), (lookup_map norm).
    destruct Hy as [->|(num & s & y' & El & -> & Hy)]; cbn [fst snd]; [destruct (lookup ms 0); reflexivity|]. rewrite (lookup_map shape) in El.
    destruct (lookup ms num) as [t|] eqn:E; [|discriminate]. injection El as <-. f_equal. f_equal. destruct (0 =? num);
    apply lookup_In in E; exact (proj1 (Forall_forall _ _) H _ E _ Hy).
Qed.

(** ** Merging twice *)

Lemma merge_assoc t : simple_oneofs t -> forall x y z, shape t x -> shape t y -> shape t z ->
  merge t (merge t x y) z = merge t x (merge t y z).
Proof.
  induction t as [sc|st max|fs os Hf Ho] using ety_ind'; intros Hs x y z Hx Hy Hz; [reflexivity..|].
  cbn [shape] in *. destruct Hx as (xs & oxs & -> & X1 & X2), Hy as (ys & oys & -> & Y1 & Y2), Hz as (zs & ozs & -> & Z1 & Z2). rewrite !merge_tab. cbn [simple_oneofs] in Hs. destruct Hs as [S1 S2]. f_equal.
  - clear X2 Y2 Z2 S2 Ho. revert xs ys zs X1 Y1 Z1 S1. induction Hf as [|[[num k] t] fs H Hf IH]; intros [|x xs] [|y ys] [|z zs] X1 Y1 Z1 S1; cbn [all2 all] in *; try contradiction; [reflexivity|].
    destruct X1 as [Hx X1], Y1 as [Hy Y1], Z1 as [Hz Z1], S1 as [Hs S1]. cbn [mtab map merge_fields]. f_equal; [|apply IH; auto]. cbn [snd] in H. specialize (H Hs).
    assert (Hd : forall a b, shape t a -> shape t b -> merge t a (merge t (sdefault t) b) = merge t a b).
    { intros a b Ha Hb. rewrite <- H by (auto using shape_default). destruct t; [reflexivity..|]. now rewrite merge_default. }
    destruct k as [| |max|]; cbn [shape_field] in *.
    + destruct t as [sc|st max|ifs ios].
      * destruct Hx as (a & ->), Hy as (b & ->), Hz as (c & ->). cbn. destruct (is_zero sc c) eqn:Ec; [destruct (is_zero sc b); reflexivity|]. cbn. now rewrite Ec.
      * destruct Hx as (a & ->), Hy as (b & ->), Hz as (c & ->). cbn. destruct b, c; reflexivity.
      * pose proof Hy as Hy'. pose proof Hz as Hz'. specialize (H x y z Hx Hy Hz). pose proof (merge_shape _ _ _ Hx Hy) as Hxy. pose proof (merge_shape _ _ _ Hy Hz) as Hyz. remember (EMsg ifs ios) as t eqn:Et. rewrite Et in Hy', Hz', Hxy, Hyz. cbn [shape] in Hy', Hz', Hxy, Hyz.
        destruct Hz' as (l1 & l2 & E1 & _), Hy' as (l3 & l4 & E2 & _), Hxy as (l5 & l6 & E3 & _), Hyz as (l7 & l8 & E4 & _).
        assert (A : forall a b u v, b = SvM u v -> merge_field KPlain t (merge t) a b = merge t a b) by (intros; subst; reflexivity).
        rewrite (A _ _ _ _ E1), (A _ _ _ _ E2), (A _ _ _ _ E1), (A x _ l7 l8); [exact H|rewrite Et; exact E4].
    + destruct Hz as [->|(z' & -> & Hz)]; [reflexivity|]. cbn [merge_field]. destruct Hy as [->|(y' & -> & Hy)]; cbn [merge_field].
      * f_equal. symmetry. apply Hd; [|exact Hz]. destruct Hx as [->|(x' & -> & Hx)]; [apply shape_default|exact Hx].
      * f_equal. apply H; auto. destruct Hx as [->|(x' & -> & Hx)]; [apply shape_default|exact Hx].
    + destruct Hx as (l & -> & Hl), Hy as (l' & -> & Hl'), Hz as (l'' & -> & Hl''). cbn [merge_field]. rewrite map_app, <- app_assoc. do 3 f_equal. rewrite map_map. apply map_ext_in. intros a Ha.
      symmetry. apply Hd; [apply shape_default|exact (proj1 (Forall_forall _ _) Hl'' a Ha)].
    + subst. reflexivity.
  - clear X1 Y1 Z1 S1 Hf Ho xs ys zs. revert oxs oys ozs X2 Y2 Z2 S2. induction os as [|ms os IH]; intros [|x xs] [|y ys] [|z zs] X2 Y2 Z2 S2; cbn [all2 all] in *; try contradiction; [reflexivity|].
    destruct X2 as [Hx X2], Y2 as [Hy Y2], Z2 as [Hz Z2], S2 as [Hs S2]. cbn [motab map merge_oneofs]. f_equal; [|apply IH; auto].
    assert (A : forall a b, shape_oneof (map (fun '(num, t) => (num, shape t)) ms) b -> merge_oneof (map (fun '(num, t) => (num, (t, merge t))) ms) a b = match snd b with SvSome _ => b | _ => a end).
    { intros a b Hb. unfold merge_oneof. rewrite (lookup_map (fun t => (t, merge t))). destruct Hb as [->|(num & s & b' & El & -> & Hb)]; cbn [fst snd]; [now destruct (lookup ms 0)|].
      rewrite (lookup_map shape) in El. destruct (lookup ms num) as [t|] eqn:E; [|discriminate]. f_equal. f_equal. apply lookup_In in E. apply all_Forall in Hs.
      pose proof (proj1 (Forall_forall _ _) Hs _ E) as Ht. cbn in Ht. now destruct t. }
    rewrite !(A _ z Hz). destruct (snd z) eqn:Ez; try (now rewrite A by exact Hy). rewrite (A _ z Hz), Ez. reflexivity.
Qed.

(** ** Updates that are collected on the way *)
Lemma sends_enc fs os v bytes : let t := EMsg fs os in desc_ok t -> wt t v -> zlen (enc t (view t v)) < 2 ^ 32 -> sends t v bytes -> bytes = enc t (view t v).
Proof.
  intros t Hd Hw Hz (cap & b & Hc & E & Ec). pose proof (serialize_is_enc fs os v Hw Hd Hz cap _ _ _ (wfix_init_rel cap Hc) b E) as H. rewrite Ec in H. exact H.
Qed.

Lemma receives_merge fs os v0 v e v' : let t := EMsg fs os in desc_ok t -> wt t v -> zlen (enc t (view t v)) < 2 ^ 32 -> wt t v0 -> clean t v0 ->
  receives t v0 (enc t (view t v)) e v' -> let w := merge t (view t v0) (view t v) in
  wt t v' /\ clean t v' /\ e = (if fits t w then NoErrors else ArrayFull) /\ (fits t w = true -> view t v' = w).
Proof.
  intros t Hd Hw Hz Hw0 Hc0 (S & R & rel & s & fuel & s' & ok & Hs & Hfu & E) w.
  pose proof (message_merge false fs os v (view t v0) ltac:(apply Forall_forall; intros; apply merge_all)
    ltac:(apply Forall_forall; intros; apply Forall_forall; intros; apply merge_all) Hw (ex_intro _ v0 (conj Hw0 eq_refl)) Hd Hz) as H. fold t w in H. unfold outcome in H.
  destruct (fits t w).
  - destruct (decode_reads fs os v0 false false _ _ _ _ Hd Hw0 Hc0 H S R rel ok ltac:(discriminate) s Hs fuel Hfu) as (v1 & s1 & E' & _ & H1 & H2 & _ & Hv).
    fold t in E'. rewrite E in E'. injection E' as -> -> ->. repeat split; auto.
  - destruct H as (n0 & r & H). destruct (decode_reads fs os v0 false false _ _ _ _ Hd Hw0 Hc0 H S R rel ok ltac:(discriminate) s Hs fuel Hfu) as (v1 & s1 & E' & _ & H1 & H2 & _).
    fold t in E'. rewrite E in E'. injection E' as -> -> ->. repeat split; auto. discriminate.
Qed.

Lemma view_shape t v : wt t v -> shape t (view t v).
Proof. intros H. apply seen_shape. exists v. auto. Qed.

Theorem collected fs os v0 v1 v2 v12 va b1 b2 b12 : let t := EMsg fs os in
  desc_ok t -> simple_oneofs t -> wt t v0 -> clean t v0 -> wt t v1 -> clean t v1 -> wt t v2 ->
  zlen (enc t (view t v1)) < 2 ^ 32 -> zlen (enc t (view t v2)) < 2 ^ 32 -> zlen (enc t (view t v12)) < 2 ^ 32 ->
  sends t v1 b1 -> sends t v2 b2 -> receives t v1 b2 NoErrors v12 -> sends t v12 b12 -> receives t v0 b1 NoErrors va ->
  forall e vb e' vc, receives t va b2 e vb -> receives t v0 b12 e' vc -> e' = e /\ (e = NoErrors -> view t vc = view t vb).
Proof.
  intros t Hd Hs W0 C0 W1 C1 W2 Z1 Z2 Z12 S1 S2 R12 S12 Ra e vb e' vc Rb Rc.
  apply sends_enc in S1, S2; auto. subst b1 b2. apply receives_merge in R12; auto. destruct R12 as (W12 & C12 & E12 & V12).
  apply sends_enc in S12; auto. subst b12. apply receives_merge in Ra; auto. destruct Ra as (Wa & Ca & Ea & Va).
  cbv zeta in E12, V12, Ea, Va. fold t in E12, V12, Ea, Va.
  destruct (fits t (merge t (view t v1) (view t v2))); [|discriminate E12]. destruct (fits t (merge t (view t v0) (view t v1))); [|discriminate Ea].
  specialize (V12 eq_refl). specialize (Va eq_refl).
  apply receives_merge in Rb; auto. destruct Rb as (_ & _ & Eb & Vb). apply receives_merge in Rc; auto. destruct Rc as (_ & _ & Ec & Vc).
  cbv zeta in Eb, Vb, Ec, Vc. fold t in Eb, Vb, Ec, Vc.
  rewrite Va in Eb, Vb. rewrite V12 in Ec, Vc. rewrite (merge_assoc t Hs) in Eb, Vb by (apply view_shape; assumption).
  split; [congruence|]. intros ->. destruct (fits t (merge t (view t v0) _)); [|discriminate Eb]. rewrite Vb, Vc; reflexivity.
Qed.

Theorem merge_spec fs os : let t := EMsg fs os in
  (forall v, wt t v -> merge t (view t v) (sdefault t) = view t v) /\ (forall v, wt t v -> merge t (sdefault t) (view t v) = norm t (view t v)).
Proof. intros t. split; intros v Hw; [apply merge_default|apply default_merge]; now apply view_shape. Qed.
