(** * RelayProofs: reading with one version and sending on to another (C82). *)
From Verif Require Import Base Buffers Wire Schema Fields Message Api Spec Contracts BitLemmas
  ReadProofs ScalarProofs BufferProofs Struct SerProofs Tables DecodeProofs RoundTrip DecodeProps SerProps SpecRead ReadAny ReadTotal MalformedProps
  SpecRetype RetypeProofs SpecVersions VersionProofs SpecRelay.
From Coq Require Import ZifyBool ZifyNat ZifyN.
Ltac Zify.zify_post_hook ::= Z.div_mod_to_equations.

(** ** One hop *)
Lemma hop fs os fs' os' v bytes v' : let t := EMsg fs os in let t' := EMsg fs' os' in
  desc_ok t -> desc_ok t' -> version t t' -> wt t v -> zlen (enc t (view t v)) < 2 ^ 32 ->
  wrote_message t v bytes -> read_message t' bytes v' ->
  view t' v' = carry t t' (norm t (view t v)) /\ wt t' v'.
Proof.
  intros t t' Hd Hd' Hver Hw Hz (cap & b & c & n & b' & Hr & E & Ec) (S & R & rel & s & fuel & s' & ok & Hs & Hfu & E').
  destruct (version_round_trip fs os fs' os' v (default_value t') Hd Hd' Hver Hw Hz (or_introl eq_refl) cap b c n b' Hr E) as (bytes' & Ec' & H).
  rewrite Ec in Ec'. apply app_inv_head in Ec'. subst bytes'. destruct (H S R rel ok s Hs fuel Hfu) as [H1 H2]. fold t t' in H1, H2.
  destruct (fits t' (carry t t' (norm t (view t v)))) eqn:Ef.
  - destruct (H1 eq_refl) as (v1 & s1 & E1 & Hv & _). rewrite E' in E1. injection E1 as <- <-. split; [exact Hv|].
    pose proof (serialize_is_enc fs os v Hw Hd Hz cap b c n Hr b' E) as Eb. fold t in Eb. rewrite Ec in Eb. apply app_inv_head in Eb. subst bytes.
    destruct (fresh_good _ _ Hd' (or_introl eq_refl : fresh t' (default_value t'))) as (Hw0 & Hc0 & Hv0).
    pose proof (message_read fs os fs' os' v false ltac:(apply Forall_forall; intros; apply msg_all)
      ltac:(apply Forall_forall; intros; apply Forall_forall; intros; apply msg_all) Hver Hw Hd Hd' Hz) as Hm. fold t t' in Hm. unfold outcome in Hm. rewrite Ef in Hm.
    rewrite <- Hv0 in Hm. destruct (decode_reads fs' os' _ false false _ _ _ _ Hd' Hw0 Hc0 Hm S R rel ok ltac:(discriminate) s Hs fuel Hfu) as (v1 & s1 & E1 & _ & Hw1 & _).
    fold t' in E1. rewrite E' in E1. injection E1 as <- <-. exact Hw1.
  - destruct (H2 eq_refl) as (v1 & s1 & E1 & _). rewrite E' in E1. discriminate.
Qed.

Lemma chain fs os fs1 os1 fs2 os2 v bytes v1 bytes1 v2 : let t := EMsg fs os in let t1 := EMsg fs1 os1 in let t2 := EMsg fs2 os2 in
  desc_ok t -> desc_ok t1 -> desc_ok t2 -> version t t1 -> version t1 t2 -> wt t v ->
  zlen (enc t (view t v)) < 2 ^ 32 -> zlen (enc t1 (view t1 v1)) < 2 ^ 32 ->
  wrote_message t v bytes -> read_message t1 bytes v1 -> wrote_message t1 v1 bytes1 -> read_message t2 bytes1 v2 ->
  view t2 v2 = carry t1 t2 (norm t1 (carry t t1 (norm t (view t v)))).
Proof.
  intros t t1 t2 Hd Hd1 Hd2 H1 H2 Hw Hz Hz1 W R W1 R1. destruct (hop fs os fs1 os1 v bytes v1 Hd Hd1 H1 Hw Hz W R) as [E1 Hw1].
  destruct (hop fs1 os1 fs2 os2 v1 bytes1 v2 Hd1 Hd2 H2 Hw1 Hz1 W1 R1) as [E2 _]. fold t t1 t2 in E1, E2. rewrite E2, E1. reflexivity.
Qed.

(** ** Fields the relay does not know *)
Lemma rows_num_in fs os vs ovs n : In n (map rnum (field_rows fs vs ++ oneof_rows os ovs)) -> In n (field_numbers fs os).
Proof.
  intros H. apply in_map_iff in H. destruct H as ([[[m k] u] x] & <- & H). cbn [rnum fst]. unfold field_numbers. apply in_app_iff in H. apply in_or_app. destruct H as [H|H].
  - left. apply field_rows_in in H. apply in_map_iff. exists (m, k, u). auto.
  - right. apply oneof_rows_in in H. destruct H as (_ & i & ms & o & Hi & _ & Hin & _). apply in_flat_map. exists ms. split; [eapply nth_error_In; eauto|].
    apply in_map_iff. exists (m, u). auto.
Qed.

Lemma lost fs os fs1 os1 fs2 os2 v bytes v1 bytes1 v2 : let t := EMsg fs os in let t1 := EMsg fs1 os1 in let t2 := EMsg fs2 os2 in
  desc_ok t -> desc_ok t1 -> desc_ok t2 -> version t t1 -> version t1 t2 -> wt t v ->
  zlen (enc t (view t v)) < 2 ^ 32 -> zlen (enc t1 (view t1 v1)) < 2 ^ 32 ->
  wrote_message t v bytes -> read_message t1 bytes v1 -> wrote_message t1 v1 bytes1 -> read_message t2 bytes1 v2 ->
  (forall j num k u, nth_error fs2 j = Some (num, k, u) -> ~ In num (field_numbers fs1 os1) ->
     nth_error (field_values (view t2 v2)) j = Some (sdefault_field k (sdefault u)))
  /\ (forall j which x, nth_error (oneof_values (view t2 v2)) j = Some (which, x) -> which <> 0 -> In which (field_numbers fs1 os1)).
Proof.
  intros t t1 t2 Hd Hd1 Hd2 H1 H2 Hw Hz Hz1 W R W1 R1. pose proof (chain fs os fs1 os1 fs2 os2 v bytes v1 bytes1 v2 Hd Hd1 Hd2 H1 H2 Hw Hz Hz1 W R W1 R1) as E.
  fold t t1 t2 in E. rewrite E. clear E. destruct (hop fs os fs1 os1 v bytes v1 Hd Hd1 H1 Hw Hz W R) as [E1 Hw1]. fold t t1 in E1. rewrite <- E1.
  destruct v1 as [| | | |pres xs ovs]; try contradiction. subst t1 t2. rewrite view_tab, norm_tab. cbn [carry field_values oneof_values]. split.
  - intros j num k u Hj Hn. rewrite nth_error_map, Hj. cbn [option_map]. rewrite sent_none; [reflexivity|]. intros Hin. apply rows_num_in in Hin. contradiction.
  - intros j which x Hj Hne. rewrite nth_error_map in Hj. destruct (nth_error os2 j) as [ms|]; [|discriminate]. cbn [option_map] in Hj.
    destruct (sent_member _ _) as [[[n u] y]|] eqn:Em; [|injection Hj as <- _; contradiction].
    destruct (lookup _ n); [|injection Hj as <- _; contradiction]. injection Hj as <- _.
    apply sent_member_in in Em. destruct Em as (k & z & Hin & _). eapply rows_num_in. apply in_map_iff. eexists. split; [|exact Hin]. reflexivity.
Qed.

(** ** Fields the relay knows *)
Lemma norm_field_not_Z fs os s z : norm (EMsg fs os) s = SvZ z -> s = SvZ z.
Proof. destruct s; cbn; congruence. Qed.
Lemma norm_leaf t s : match t with EMsg _ _ => False | _ => True end -> norm t s = s.
Proof. destruct t; [reflexivity..|contradiction]. Qed.

Lemma norm_field_idem k t s : (forall x, norm t (norm t x) = norm t x) -> norm_field k t (norm t) (norm_field k t (norm t) s) = norm_field k t (norm t) s.
Proof.
  intros Hn. destruct k as [| |max|].
  - destruct s as [z|bs|l| |x|vs ovs].
    + cbn [norm_field]. destruct t as [sc|st m|fs os]; try reflexivity. destruct (is_zero sc z) eqn:Ez; [destruct sc; reflexivity|]. now rewrite Ez.
    + destruct t; reflexivity.
    + destruct t; reflexivity.
    + destruct t; reflexivity.
    + destruct t; reflexivity.
    + destruct t as [sc|st m|fs os]; try reflexivity. exact (Hn (SvM vs ovs)).
  - destruct s; try reflexivity. cbn [norm_field]. now rewrite Hn.
  - destruct s; try reflexivity. cbn [norm_field]. rewrite map_map. f_equal. apply map_ext. intros. apply Hn.
  - destruct s; reflexivity.
Qed.
Lemma norm_idem t : forall s, norm t (norm t s) = norm t s.
Proof.
  induction t as [sc|st max|fs os Hf Ho] using ety_ind'; intros s; [reflexivity..|]. destruct s as [| | | | |vs ovs]; try reflexivity.
  rewrite !norm_tab. f_equal.
  - clear Ho. revert vs. induction Hf as [|[[num k] t] fs Ht Hf IH]; intros [|x vs]; try reflexivity. unfold ntab in *. cbn [map norm_fields].
    rewrite IH. f_equal. apply norm_field_idem. exact Ht.
  - clear Hf. revert ovs. induction Ho as [|ms os Hm Ho IH]; intros [|[w x] ovs]; try reflexivity. unfold notab in *. cbn [map norm_oneofs]. rewrite IH. f_equal.
    unfold norm_oneof. cbn [fst snd]. rewrite !(lookup_map norm). destruct (lookup ms w) as [u|] eqn:El; cbn [option_map fst snd]; [|rewrite ?(lookup_map norm), ?El; reflexivity].
    destruct x; cbn [fst snd]; rewrite ?(lookup_map norm), ?El; cbn [option_map]; try reflexivity. do 2 f_equal.
    apply lookup_In in El. rewrite Forall_forall in Hm. exact (Hm _ El _).
Qed.

Lemma cast_self sc z : scalar_range sc z -> cast sc z = z.
Proof.
  intros H. destruct sc; cbn [cast scalar_range] in *; try reflexivity; try (apply Z.mod_small; lia); try (apply to_signed_small; cbn; lia).
  destruct H as [-> | ->]; reflexivity.
Qed.

Lemma field_self k u oi pres x : (forall x, wt u x -> carry u u (norm u (view u x)) = norm u (view u x)) -> wt_field k (wt u) x -> forall d,
  let y := norm_field k u (norm u) (view_field k (view u) oi pres x) in carry_field k k (carry u u) d y = y.
Proof.
  intros Hs Hw d y. subst y. destruct k as [| |max|]; cbn [wt_field view_field] in *.
  - destruct u as [sc|st m|fs os].
    + destruct x as [z| | | |]; try contradiction. cbn [view norm_field]. cbn [wt] in Hw.
      destruct (is_zero sc z); cbn [carry_field carry]; [destruct sc; reflexivity|now rewrite cast_self].
    + destruct (bytes_view _ _ _ Hw) as (b & -> & _). reflexivity.
    + destruct x as [| | | |p xs ovs]; try contradiction. specialize (Hs _ Hw). rewrite view_tab in *. exact Hs.
  - destruct (present pres oi); [|reflexivity]. cbn [norm_field carry_field]. f_equal. auto.
  - destruct x as [| | |len data|]; try contradiction. cbn [norm_field carry_field]. f_equal. rewrite !map_map. apply map_ext_in. intros e He. apply Hs.
    destruct Hw as (_ & _ & Hall). rewrite all_Forall in Hall. rewrite Forall_forall in Hall. apply Hall. rewrite <- (firstn_skipn (Z.to_nat len) data). apply in_or_app. now left.
  - reflexivity.
Qed.

Lemma sent_fields rest fs : forall vs i n k u x, NoDup (map (fun '(m, _, _) => m) fs) -> nth_error fs i = Some (n, k, u) -> nth_error vs i = Some x ->
  sent (field_rows fs vs ++ rest) n = Some (k, u, x).
Proof.
  induction fs as [|[[m k0] u0] fs IH]; intros [|y vs] [|i] n k u x Hnd Hf Hv; try discriminate; cbn [nth_error] in *.
  - injection Hf as -> -> ->. injection Hv as ->. cbn [field_rows app sent]. now rewrite Z.eqb_refl.
  - cbn [map] in Hnd. inversion Hnd; subst. cbn [field_rows app sent]. destruct (Z.eqb_spec m n) as [->|]; [|eapply IH; eauto].
    exfalso. apply H1. apply in_map_iff. exists (n, k, u). split; [reflexivity|]. eapply nth_error_In; eauto.
Qed.

Lemma sm_skip rows among : (forall n k t v, In (n, k, t, v) rows -> ~ In n among) -> sent_member rows among = None.
Proof.
  intros H. destruct (sent_member rows among) as [[[n t] x]|] eqn:E; [|reflexivity]. apply sent_member_in in E. destruct E as (k & v & H1 & _ & H2). exfalso. eapply H; eauto.
Qed.
Notation one_rows o ms := (map (fun '(n, t) => (n, KOpt, t, if n =? fst o then snd o else SvNone)) ms).
Lemma sm_oneofs os : forall ovs i ms o, NoDup (flat_map (map fst) os) -> nth_error os i = Some ms -> nth_error ovs i = Some o ->
  sent_member (oneof_rows os ovs) (map fst ms) = sent_member (one_rows o ms) (map fst ms).
Proof.
  induction os as [|ms0 os IH]; intros [|o0 ovs] [|i] ms o Hnd Hs Ho; try discriminate; cbn [nth_error oneof_rows flat_map] in *; rewrite sent_member_app.
  - injection Hs as ->. injection Ho as ->. destruct (sent_member (one_rows o ms) (map fst ms)); [reflexivity|]. apply sm_skip.
    intros n k t v Hin Hn. apply oneof_rows_in in Hin. destruct Hin as (_ & j & ms' & _ & Hj & _ & Hin & _).
    apply (NoDup_app_disjoint _ _ n Hnd Hn). apply in_flat_map. exists ms'. split; [eapply nth_error_In; eauto|]. apply in_map_iff. exists (n, t). auto.
  - rewrite sm_skip; [eapply IH; eauto; now apply NoDup_app_r in Hnd|]. intros n k t v Hin Hn. apply in_map_iff in Hin. destruct Hin as ([m u] & E & Hin).
    injection E as <- _ _ _. apply (NoDup_app_disjoint _ _ m Hnd); [apply in_map_iff; exists (m, u); auto|]. apply in_flat_map. exists ms. split; [eapply nth_error_In; eauto|exact Hn].
Qed.
Lemma sm_one ms w u y among : lookup ms w = Some u -> In w among -> sent_member (one_rows (w, SvSome y) ms) among = Some (w, u, y).
Proof.
  intros H Hin. induction ms as [|[m u0] ms IH]; [discriminate|]. cbn [lookup] in H. cbn [map fst snd sent_member]. destruct (Z.eqb_spec m w) as [->|].
  - injection H as ->. cbn [given]. apply existsb_In in Hin. now rewrite Hin.
  - cbn [given]. now apply IH.
Qed.
Lemma sm_none ms w among : sent_member (one_rows (w, SvNone) ms) among = None.
Proof. induction ms as [|[m u0] ms IH]; [reflexivity|]. cbn [map fst snd sent_member]. destruct (m =? w); exact IH. Qed.
Lemma lookup_map_fst {A} (ms : list (Z * A)) n a : lookup ms n = Some a -> In n (map fst ms).
Proof. intros H. apply lookup_In in H. apply in_map_iff. exists (n, a). auto. Qed.

Lemma norm_fields_nth fs : forall vs i n k u, nth_error fs i = Some (n, k, u) ->
  nth_error (norm_fields (ntab fs) vs) i = option_map (norm_field k u (norm u)) (nth_error vs i).
Proof.
  induction fs as [|[[m k0] u0] fs IH]; intros [|y vs] [|i] n k u Hf; try discriminate; cbn [nth_error] in *; try reflexivity.
  - injection Hf as -> -> ->. reflexivity.
  - unfold ntab in *. cbn [map norm_fields nth_error]. eapply IH; eauto.
Qed.
Lemma norm_oneofs_nth os : forall ovs i ms, nth_error os i = Some ms ->
  nth_error (norm_oneofs (notab os) ovs) i = option_map (norm_oneof (map (fun '(num, t) => (num, norm t)) ms)) (nth_error ovs i).
Proof.
  induction os as [|ms0 os IH]; intros [|y vs] [|i] ms Hf; try discriminate; cbn [nth_error] in *; try reflexivity.
  - injection Hf as ->. reflexivity.
  - unfold notab in *. cbn [map norm_oneofs nth_error]. eapply IH; eauto.
Qed.

Lemma elem_self u : desc_ok u -> forall x, wt u x -> carry u u (norm u (view u x)) = norm u (view u x).
Proof.
  induction u as [sc|st max|fs os Hf Ho] using ety_ind'; intros Hd x Hw.
  - destruct x as [z| | | |]; try contradiction. cbn [view norm carry]. now rewrite cast_self.
  - destruct (bytes_view _ _ _ Hw) as (b & -> & _). reflexivity.
  - destruct x as [| | | |pres xs ovs]; try contradiction. pose proof (NoDup_fields _ _ Hd) as Hndf. destruct Hd as (Hnd & _ & Hdf & Hdo). cbn [wt] in Hw. destruct Hw as (_ & _ & Hw1 & Hw2).
    assert (Hndo : NoDup (flat_map (map fst) os)) by (unfold field_numbers in Hnd; now apply NoDup_app_r in Hnd).
    rewrite view_tab, norm_tab. cbn [carry].
    set (vs := view_fields (vtab fs) 0 pres xs). set (ws := view_oneofs (votab os) ovs). f_equal; apply nth_error_ext; intros i; rewrite nth_error_map.
    + destruct (nth_error fs i) as [[[n k] t]|] eqn:Ei; cbn [option_map].
      * destruct (all2_nth _ _ _ _ _ Hw1 Ei) as (x & Ex & Hwx). rewrite (norm_fields_nth _ _ _ _ _ _ Ei). subst vs.
        pose proof (view_fields_nth_fwd fs i 0 pres xs n k t x Ei Ex) as Ev. rewrite Ev. cbn [option_map].
        rewrite (sent_fields _ _ _ i n k t (norm_field k t (norm t) (view_field k (view t) (0 + optix fs i) pres x)) Hndf Ei)
          by (rewrite (norm_fields_nth _ _ _ _ _ _ Ei), Ev; reflexivity).
        f_equal. apply field_self; [|exact Hwx]. rewrite Forall_forall in Hf. pose proof (nth_error_In _ _ Ei) as Hin. apply (Hf _ Hin).
        rewrite all_Forall, Forall_forall in Hdf. specialize (Hdf _ Hin). cbn in Hdf. tauto.
      * symmetry. apply nth_error_None. apply nth_error_None in Ei. clear -Ei. subst vs. revert Ei. generalize (view_fields (vtab fs) 0 pres xs). revert i. unfold ntab.
        induction fs as [|[[n k] t] fs IH]; intros i [|y vs] H; cbn [map norm_fields length] in *; try lia. destruct i; [lia|]. apply le_n_S, IH. lia.
    + destruct (nth_error os i) as [ms|] eqn:Ei; cbn [option_map].
      * destruct (all2_nth _ _ _ _ _ Hw2 Ei) as (o & Eo & Hwo).
        assert (Ew : nth_error ws i = Some (view_oneof (map (fun '(num, t) => (num, view t)) ms) o)).
        { subst ws. clear -Ei Eo. revert ovs i Ei Eo. induction os as [|m os IH]; intros [|y ovs] [|i] Ei Eo; try discriminate; cbn [nth_error votab map view_oneofs] in *; [congruence|].
          now apply IH. }
        assert (En : nth_error (norm_oneofs (notab os) ws) i = Some (norm_oneof (map (fun '(num, t) => (num, norm t)) ms) (view_oneof (map (fun '(num, t) => (num, view t)) ms) o)))
          by (rewrite (norm_oneofs_nth _ _ _ _ Ei), Ew; reflexivity).
        rewrite sent_member_app, sm_skip.
        2:{ intros n k t v Hin Hn. apply field_rows_in in Hin. unfold field_numbers in Hnd. apply (NoDup_app_disjoint _ _ n Hnd).
            - apply in_map_iff. exists (n, k, t). auto.
            - apply in_flat_map. exists ms. split; [eapply nth_error_In; eauto|exact Hn]. }
        rewrite (sm_oneofs _ _ _ _ _ Hndo Ei En), En. f_equal. destruct o as [w y]. unfold wt_oneof in Hwo. unfold view_oneof, norm_oneof. cbn [fst snd] in *.
        rewrite (lookup_map wt) in Hwo. rewrite (lookup_map view). destruct (lookup ms w) as [u|] eqn:El; cbn [option_map fst snd] in *.
        -- rewrite (lookup_map norm), El. cbn [option_map]. rewrite (sm_one ms w u _ _ El (lookup_map_fst _ _ _ El)).
           rewrite (lookup_map (fun u' u => carry u u')), El. cbn [option_map]. do 2 f_equal.
           pose proof (lookup_In _ _ _ El) as Hin. rewrite Forall_forall in Ho. pose proof (nth_error_In _ _ Ei) as Hms. specialize (Ho _ Hms). rewrite Forall_forall in Ho.
           apply (Ho _ Hin); [|exact Hwo]. rewrite all_Forall, Forall_forall in Hdo. specialize (Hdo _ Hms). rewrite all_Forall, Forall_forall in Hdo. exact (Hdo _ Hin).
        -- destruct (lookup (map (fun '(num, t) => (num, norm t)) ms) 0); rewrite sm_none; reflexivity.
      * symmetry. apply nth_error_None. apply nth_error_None in Ei. clear -Ei. clearbody ws. revert i ws Ei. unfold notab.
        induction os as [|ms os IH]; intros i [|y vs] H; cbn [map norm_oneofs length] in *; try lia. destruct i; [lia|]. apply le_n_S, IH. lia.
Qed.

(** The field comes out of the relay as it went in. *)
Lemma kept fs os fs1 os1 fs2 os2 v bytes v1 bytes1 v2 : let t := EMsg fs os in let t1 := EMsg fs1 os1 in let t2 := EMsg fs2 os2 in
  desc_ok t -> desc_ok t1 -> desc_ok t2 -> version t t1 -> version t1 t2 -> wt t v ->
  zlen (enc t (view t v)) < 2 ^ 32 -> zlen (enc t1 (view t1 v1)) < 2 ^ 32 ->
  wrote_message t v bytes -> read_message t1 bytes v1 -> wrote_message t1 v1 bytes1 -> read_message t2 bytes1 v2 ->
  forall i i1 j num k u k2 u2, nth_error fs i = Some (num, k, u) -> nth_error fs1 i1 = Some (num, k, u) -> nth_error fs2 j = Some (num, k2, u2) ->
  nth_error (field_values (view t2 v2)) j = nth_error (field_values (carry t t2 (norm t (view t v)))) j.
Proof.
  intros t t1 t2 Hd Hd1 Hd2 H1 H2 Hw Hz Hz1 W R W1 R1 i i1 j num k u k2 u2 Hi Hi1 Hj.
  pose proof (chain fs os fs1 os1 fs2 os2 v bytes v1 bytes1 v2 Hd Hd1 Hd2 H1 H2 Hw Hz Hz1 W R W1 R1) as E.
  fold t t1 t2 in E. rewrite E. clear E. destruct v as [| | | |pres xs ovs]; try contradiction.
  pose proof (NoDup_fields _ _ Hd) as N. pose proof (NoDup_fields _ _ Hd1) as N1. pose proof Hw as (_ & _ & Hw1 & _).
  destruct (all2_nth _ _ _ _ _ Hw1 Hi) as (x & Ex & Hwx). cbn beta iota in Hwx.
  pose proof (view_fields_nth_fwd fs i 0 pres xs num k u x Hi Ex) as Ev.
  set (y := norm_field k u (norm u) (view_field k (view u) (0 + optix fs i) pres x)).
  assert (Ey : nth_error (norm_fields (ntab fs) (view_fields (vtab fs) 0 pres xs)) i = Some y) by (rewrite (norm_fields_nth _ _ _ _ _ _ Hi), Ev; reflexivity).
  assert (Hdu : desc_ok u).
  { destruct Hd as (_ & _ & Hdf & _). rewrite all_Forall, Forall_forall in Hdf. specialize (Hdf _ (nth_error_In _ _ Hi)). cbn in Hdf. tauto. }
  unfold t. rewrite view_tab, norm_tab. unfold t1, t2. 
  set (vs := norm_fields (ntab fs) (view_fields (vtab fs) 0 pres xs)) in *. set (ws := norm_oneofs _ _). cbn [carry field_values].
  rewrite norm_tab. cbn [carry field_values]. rewrite !nth_error_map, Hj. cbn [option_map]. f_equal.
  rewrite (sent_fields _ fs vs i num k u y N Hi Ey).
  erewrite (sent_fields _ fs1 _ i1 num k u y N1 Hi1); [reflexivity|].
  rewrite (norm_fields_nth _ _ _ _ _ _ Hi1), nth_error_map, Hi1. cbn [option_map]. rewrite (sent_fields _ fs vs i num k u y N Hi Ey). f_equal.
  subst y. rewrite field_self; [|intros; now apply elem_self|exact Hwx]. apply norm_field_idem, norm_idem.
Qed.
