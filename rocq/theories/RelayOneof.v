(** * RelayOneof: members of oneofs that pass through a program in between (C82). *)
From Verif Require Import Base Buffers Wire Schema Fields Message Api Spec Contracts BitLemmas
  Struct SerProofs Tables ReadAny ReadTotal MalformedProps SerProps DecodeProps DecodeProofs RoundTrip SpecRetype SpecVersions VersionProofs SpecRelay RelayProofs.
From Coq Require Import ZifyBool ZifyNat ZifyN.

Notation one_rows o ms := (map (fun '(n, t) => (n, KOpt, t, if n =? fst o then snd o else SvNone)) ms).

(** Only the rows of one oneof matter, if no other number is asked for. *)
Lemma sm_other fs os vs ovs : forall among, (forall n, In n among -> ~ In n (field_numbers fs os)) -> sent_member (field_rows fs vs ++ oneof_rows os ovs) among = None.
Proof.
  intros among H. apply sm_skip. intros n k t v Hin Hn. apply (H n Hn). apply (rows_num_in fs os vs ovs). apply in_map_iff. exists (n, k, t, v). auto.
Qed.

Lemma sm_only fs os vs ovs i ms o among : NoDup (field_numbers fs os) -> nth_error os i = Some ms -> nth_error ovs i = Some o ->
  (forall n, In n among -> In n (field_numbers fs os) -> In n (map fst ms)) ->
  sent_member (field_rows fs vs ++ oneof_rows os ovs) among = sent_member (one_rows o ms) among.
Proof.
  intros Hnd Hi Ho Hin. rewrite sent_member_app, sm_skip.
  2:{ intros n k t v Hr Hn. apply field_rows_in in Hr.
      assert (Hf : In n (map (fun '(m, _, _) => m) fs)) by (apply in_map_iff; exists (n, k, t); auto).
      apply (NoDup_app_disjoint _ _ n Hnd Hf). apply in_flat_map. exists ms. split; [eapply nth_error_In; eauto|]. apply Hin; [exact Hn|]. apply in_or_app. now left. }
  assert (Hin' : forall n, In n among -> In n (flat_map (map fst) os) -> In n (map fst ms)) by (intros n H H'; apply Hin; [exact H|apply in_or_app; now right]).
  unfold field_numbers in Hnd. apply NoDup_app_r in Hnd. clear Hin. revert ovs i Hi Ho Hnd Hin'. induction os as [|ms0 os IH]; intros [|o0 ovs] [|i] Hi Ho Hnd Hin; try discriminate; cbn [nth_error oneof_rows flat_map] in *; rewrite sent_member_app.
  - injection Hi as ->. injection Ho as ->. destruct (sent_member (one_rows o ms) among); [reflexivity|]. apply sm_skip.
    intros n k t v Hr Hn. apply oneof_rows_in in Hr. destruct Hr as (_ & j & ms' & _ & Hj & _ & Hr & _).
    assert (Hfm : In n (flat_map (map fst) os)) by (apply in_flat_map; exists ms'; split; [eapply nth_error_In; eauto|apply in_map_iff; exists (n, t); auto]).
    apply (NoDup_app_disjoint _ _ n Hnd); [|exact Hfm]. apply Hin; [exact Hn|]. apply in_or_app. now right.
  - rewrite sm_skip.
    + eapply IH; eauto; [now apply NoDup_app_r in Hnd|]. intros n H H'. apply Hin; [exact H|]. apply in_or_app. now right.
    + intros n k t v Hr Hn. apply in_map_iff in Hr. destruct Hr as ([m u] & E & Hr). injection E as <- _ _ _.
      assert (Hm : In m (map fst ms0)) by (apply in_map_iff; exists (m, u); auto).
      apply (NoDup_app_disjoint _ _ m Hnd Hm). apply in_flat_map. exists ms. split; [eapply nth_error_In; eauto|]. apply Hin; [exact Hn|]. apply in_or_app. now left.
Qed.

Lemma sent_only fs os vs ovs i ms o n : NoDup (field_numbers fs os) -> nth_error os i = Some ms -> nth_error ovs i = Some o -> In n (map fst ms) ->
  sent (field_rows fs vs ++ oneof_rows os ovs) n = sent (one_rows o ms) n.
Proof.
  intros Hnd Hi Ho Hin. rewrite sent_app, sent_none.
  2:{ intros Hr. apply in_map_iff in Hr. destruct Hr as ([[[m k] u] x] & <- & Hr). cbn [rnum fst] in *. apply field_rows_in in Hr.
      assert (Hf : In m (map (fun '(m, _, _) => m) fs)) by (apply in_map_iff; exists (m, k, u); auto).
      apply (NoDup_app_disjoint _ _ m Hnd Hf). apply in_flat_map. exists ms. split; [eapply nth_error_In; eauto|exact Hin]. }
  unfold field_numbers in Hnd. apply NoDup_app_r in Hnd. revert ovs i Hi Ho Hnd. induction os as [|ms0 os IH]; intros [|o0 ovs] [|i] Hi Ho Hnd; try discriminate; cbn [nth_error oneof_rows flat_map] in *; rewrite sent_app.
  - injection Hi as ->. injection Ho as ->.
    assert (exists y, sent (one_rows o ms) n = Some y) as [y ->]; [|reflexivity]. clear - Hin. induction ms as [|[m u] ms IH]; [contradiction|].
    cbn [map fst sent] in *. destruct (Z.eqb_spec m n); [eauto|]. destruct Hin as [|Hin]; [contradiction|]. exact (IH Hin).
  - rewrite sent_none; [eapply IH; eauto; now apply NoDup_app_r in Hnd|]. intros Hr. apply in_map_iff in Hr. destruct Hr as ([[[m k] u] x] & <- & Hr). cbn [rnum fst] in *.
    apply in_map_iff in Hr. destruct Hr as ([m' u'] & E & Hr). injection E as <- _ _ _.
    assert (Hm : In m' (map fst ms0)) by (apply in_map_iff; exists (m', u'); auto).
    apply (NoDup_app_disjoint _ _ m' Hnd Hm). apply in_flat_map. exists ms. split; [eapply nth_error_In; eauto|exact Hin].
Qed.

(** A oneof that sender and relay have alike. *)
Lemma oneof_kept fs os fs1 os1 fs2 os2 v bytes v1 bytes1 v2 : let t := EMsg fs os in let t1 := EMsg fs1 os1 in let t2 := EMsg fs2 os2 in
  desc_ok t -> desc_ok t1 -> desc_ok t2 -> version t t1 -> version t1 t2 -> wt t v ->
  zlen (enc t (view t v)) < 2 ^ 32 -> zlen (enc t1 (view t1 v1)) < 2 ^ 32 ->
  wrote_message t v bytes -> read_message t1 bytes v1 -> wrote_message t1 v1 bytes1 -> read_message t2 bytes1 v2 ->
  forall ms, In ms os -> In ms os1 ->
  let direct := carry t t2 (norm t (view t v)) in
  (forall j num k2 u2, nth_error fs2 j = Some (num, k2, u2) -> In num (map fst ms) ->
     nth_error (field_values (view t2 v2)) j = nth_error (field_values direct) j)
  /\ (forall j ms2, nth_error os2 j = Some ms2 ->
       (forall num, In num (map fst ms2) -> In num (field_numbers fs os) \/ In num (field_numbers fs1 os1) -> In num (map fst ms)) ->
     nth_error (oneof_values (view t2 v2)) j = nth_error (oneof_values direct) j).
Proof.
  intros t t1 t2 Hd Hd1 Hd2 H1 H2 Hw Hz Hz1 W R W1 R1 ms Hms Hms1 direct.
  pose proof (chain fs os fs1 os1 fs2 os2 v bytes v1 bytes1 v2 Hd Hd1 Hd2 H1 H2 Hw Hz Hz1 W R W1 R1) as E.
  fold t t1 t2 in E. rewrite E. clear E. subst direct. destruct v as [| | | |pres xs ovs]; try contradiction.
  apply In_nth_error in Hms, Hms1. destruct Hms as [i Hi], Hms1 as [i1 Hi1].
  pose proof Hd as (N & _ & _ & Hdo). pose proof Hd1 as (N1 & _). pose proof Hw as (_ & _ & _ & Hw2).
  destruct (all2_nth _ _ _ _ _ Hw2 Hi) as (o & Eo & Hwo).
  unfold t. rewrite view_tab, norm_tab. unfold t1, t2.
  set (vs := norm_fields (ntab fs) (view_fields (vtab fs) 0 pres xs)) in *. set (ws := norm_oneofs _ _).
  set (y := norm_oneof (map (fun '(num, t) => (num, norm t)) ms) (view_oneof (map (fun '(num, t) => (num, view t)) ms) o)).
  assert (Ey : nth_error ws i = Some y).
  { subst ws. rewrite (norm_oneofs_nth _ _ _ _ Hi). replace (nth_error (view_oneofs (votab os) ovs) i) with (Some (view_oneof (map (fun '(num, t) => (num, view t)) ms) o)); [reflexivity|].
    clear -Hi Eo. revert ovs i Hi Eo. induction os as [|m os IH]; intros [|z ovs] [|i] Ei Eo; try discriminate; cbn [nth_error votab map view_oneofs] in *; [congruence|]. now apply IH. }
  cbn [carry]. rewrite norm_tab.
  set (vs1 := norm_fields _ _). set (ws1 := norm_oneofs (notab os1) _).
  assert (Ey1 : nth_error ws1 i1 = Some y).
  { subst ws1. rewrite (norm_oneofs_nth _ _ _ _ Hi1), nth_error_map, Hi1. cbn [option_map]. f_equal.
    rewrite (sm_only fs os vs ws i ms y (map fst ms) N Hi Ey) by auto. subst y.
    destruct o as [w x]. unfold wt_oneof in Hwo. unfold view_oneof, norm_oneof. cbn [fst snd] in *.
    rewrite (lookup_map wt) in Hwo. rewrite (lookup_map view). destruct (lookup ms w) as [u|] eqn:El; cbn [option_map fst snd] in *.
    - rewrite !(lookup_map norm ms w), !El. cbn [option_map]. rewrite (sm_one ms w u _ _ El (lookup_map_fst _ _ _ El)).
      rewrite (lookup_map (fun u' u => carry u u')), El. cbn [option_map fst snd]. rewrite (lookup_map norm), El. cbn [option_map]. do 2 f_equal.
      pose proof (lookup_In _ _ _ El) as Hin. rewrite all_Forall, Forall_forall in Hdo. specialize (Hdo _ (nth_error_In _ _ Hi)). rewrite all_Forall, Forall_forall in Hdo.
      rewrite elem_self; [apply norm_idem|exact (Hdo _ Hin)|exact Hwo].
    - destruct (lookup (map (fun '(num, t) => (num, norm t)) ms) 0) eqn:E0; rewrite sm_none; cbn [fst snd]; rewrite E0; reflexivity. }
  cbn [carry field_values oneof_values]. split.
  - intros j num k2 u2 Hj Hin. rewrite !nth_error_map, Hj. cbn [option_map]. f_equal.
    rewrite (sent_only fs os vs ws i ms y num N Hi Ey Hin), (sent_only fs1 os1 vs1 ws1 i1 ms y num N1 Hi1 Ey1 Hin). reflexivity.
  - intros j ms2 Hj Hin. rewrite !nth_error_map, Hj. cbn [option_map]. f_equal.
    rewrite (sm_only fs os vs ws i ms y (map fst ms2) N Hi Ey) by auto. rewrite (sm_only fs1 os1 vs1 ws1 i1 ms y (map fst ms2) N1 Hi1 Ey1) by auto. reflexivity.
Qed.
