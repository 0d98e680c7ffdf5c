(** * GenBodyObject: new objects of a generated class, what its getters show, and what a call leaves alone. *)
From Coq Require Import String.
From Verif Require Import Base Buffers Wire Schema Fields Message Api Spec SpecApi Contracts BitLemmas Struct Printf Generator SpecGenerator SpecInstance GenMembers SpecMembers
  GenOrder SerProofs Tables ReadAny TidyProofs ApiProofs ApiProps DecodeProofs DecodeProps SerProps GenInstance GenBody SpecBody GenBodyRun GenBodySound GenBodyOneof GenBodySer GenBodyDes GenBodyApi GenBodyCalls GenBodyLegal.
From Coq Require Import List ZifyBool ZifyNat Lia.

Lemma class_sound request lengths d fs os : class_for request lengths d fs os -> sound d fs os.
Proof. intros (params & parent & m & -> & H1 & H2 & H3 & H4 & H5). eapply sound_define; eassumption. Qed.
Lemma class_desc request lengths d fs os : class_for request lengths d fs os -> (forall p, capacity_ok (lengths p)) -> desc_ok (EMsg fs os).
Proof. intros (params & parent & m & -> & H1 & H2 & H3 & H4 & H5) Hl. eapply declared_ok; eassumption. Qed.

Section Objects.
Context (d : mdef) (fs : list fdesc) (os : list odesc) (Hs : sound d fs os).
Notation c := (class_of d fs os).
Notation fields := (fields_of d).
Notation oneofs := (oneofs_of d).

(** ** New objects *)

Lemma optional_count l1 l2 : Forall2 fits_field l1 l2 -> zlen (filter f_optional l1) = n_optional l2.
Proof.
  induction 1 as [|f [[num k] t] l1 l2 Hf _ IH]; [reflexivity|]. pose proof (fits_next _ _ _ _ 0 Hf) as E. cbn [filter n_optional].
  unfold zlen in *. destruct (f_optional f), k; cbn [length next_opt] in *; lia.
Qed.
Lemma new_cells : map fst (ob_cells (new_object d fs os)) = cell_names fields oneofs.
Proof.
  unfold new_object, cell_names. cbn [ob_cells]. rewrite map_app, map_map. f_equal.
  - rewrite <- (variables_names _ _ (s_fields _ _ _ Hs)). apply map_ext. intros [x ty]. reflexivity.
  - rewrite concat_map, map_map. reflexivity.
Qed.
Lemma new_look n x : In (n, x) (ob_cells (new_object d fs os)) -> look n (ob_cells (new_object d fs os)) = Some x.
Proof. apply look_In. rewrite new_cells. apply (s_cells _ _ _ Hs). Qed.
Lemma Forall2_pointwise {A B} (P : A -> B -> Prop) l1 : forall l2, length l1 = length l2 -> (forall i x y, nth_error l1 i = Some x -> nth_error l2 i = Some y -> P x y) -> Forall2 P l1 l2.
Proof.
  induction l1 as [|x l1 IH]; intros [|y l2] Hl H; try discriminate; constructor; [apply (H 0%nat); reflexivity|]. apply IH; [cbn in Hl; lia|]. intros i a b Ha Hb. apply (H (S i)); assumption.
Qed.
Lemma Forall2_len {A B} (P : A -> B -> Prop) l1 l2 : Forall2 P l1 l2 -> length l1 = length l2. Proof. induction 1; cbn; congruence. Qed.
Lemma new_holds : holds_value d (new_object d fs os) (construct (OElem (EMsg fs os))).
Proof.
  cbn [construct default_value holds_value]. split; [|split].
  - unfold new_object. cbn [ob_presence]. rewrite <- (optional_count _ _ (s_fields _ _ _ Hs)). f_equal. f_equal. destruct d. cbn [presence_fields fields_of]. unfold zlen. now rewrite map_length.
  - apply Forall2_pointwise; [rewrite map_length; eapply Forall2_len; apply (s_fields _ _ _ Hs)|].
    intros i f y Hf Hy Hr. rewrite nth_error_map in Hy. destruct (nth_error fs i) as [[[num k] t]|] eqn:Hd; [|discriminate]. injection Hy as <-.
    apply new_look. unfold new_object. cbn [ob_cells]. apply in_or_app. left.
    assert (Hk : k <> KRecursive).
    { intros ->. destruct (Forall2_nth _ _ _ _ _ (s_fields _ _ _ Hs) Hf) as (y & Ey & Hfit). rewrite Hd in Ey. injection Ey as <-. destruct Hfit as [_ Hfit]. unfold recursive in Hr.
      destruct (f_class f); try discriminate; destruct Hfit as [Hk _]; try (destruct (f_optional f); discriminate). destruct Hk as (n & Hk). discriminate. }
    replace (default_field_of k (default_value t)) with (construct (oty_of k t)) by (destruct k; try reflexivity; contradiction).
    change (variable_name (f_name f), CField (construct (oty_of k t))) with ((fun '(x, ty) => (x, CField (construct ty))) (variable_name (f_name f), oty_of k t)).
    apply in_map. eapply variables_In; eassumption.
  - apply Forall2_pointwise; [rewrite map_length; eapply Forall2_len; apply (s_oneofs _ _ _ Hs)|].
    intros j o y Ho Hy. rewrite nth_error_map in Hy. destruct (nth_error os j) as [ms|] eqn:Hms; [|discriminate]. injection Hy as <-.
    assert (Hin : forall p, In p [(which_name (fst o), CNumber 0); (variable_name (fst o), CUnion [] VIndet)] -> In p (ob_cells (new_object d fs os))).
    { intros p Hp. unfold new_object. cbn [ob_cells]. apply in_or_app. right. apply in_concat. eexists. split; [apply in_map; eapply nth_error_In; exact Ho|exact Hp]. }
    split; [apply new_look, Hin; left; reflexivity|]. exists [], VIndet. split; [apply new_look, Hin; right; left; reflexivity|].
    intros f _ _. unfold in_union. destruct (text_eqb _ _); reflexivity.
Qed.

(** ** What the getters show *)

Lemma shows_view ob v : wt (EMsg fs os) v -> holds_value d ob v -> shows d fs os ob (view (EMsg fs os) v).
Proof.
  intros Hw Hh. destruct v as [| | | |pres vs ovs]; try contradiction. destruct (length_fields _ _ _ Hs _ _ _ _ Hh) as [Lf Lo]. pose proof Hw as (Hz & _ & _ & Hwo).
  cbn [view shows].
  assert (L1 : forall l i vl, length vl = length l -> length (view_fields (vtab l) i pres vl) = length l).
  { clear. induction l as [|[[n k] t] l IH]; intros i [|v vl] E; try discriminate; [reflexivity|]. cbn [vtab map view_fields length]. f_equal. apply IH. cbn in E. lia. }
  assert (L2 : forall l vl, length vl = length l -> length (view_oneofs (votab l) vl) = length l).
  { clear. induction l as [|ms l IH]; intros [|v vl] E; try discriminate; [reflexivity|]. cbn [votab map view_oneofs length]. f_equal. apply IH. cbn in E. lia. }
  split; [apply L1; exact Lf|]. split; [apply L2; exact Lo|]. split.
  - intros i f num k t y Hf Hd Hy. destruct (nth_value fs vs i _ Lf Hd) as (v & Hv). change (map (fun '(_, k, t) => (k, view t)) fs) with (vtab fs) in Hy.
    rewrite (view_fields_nth_fwd fs i 0 pres vs num k t v Hd Hv), Z.add_0_l in Hy. injection Hy as <-.
    destruct k as [| |n|]; cbn [field_shows view_field oty_of oview].
    + destruct (code_get_field _ _ _ Hs i f num KPlain t ob pres vs ovs Hf Hd ltac:(discriminate) Hh) as (v' & Ev & Eg). rewrite Hv in Ev. injection Ev as <-. exists v. split; [exact Eg|reflexivity].
    + destruct (code_get_field _ _ _ Hs i f num KOpt t ob pres vs ovs Hf Hd ltac:(discriminate) Hh) as (v' & Ev & Eg). rewrite Hv in Ev. injection Ev as <-.
      assert (Ho : f_optional f = true).
      { destruct (Forall2_nth _ _ _ _ _ (s_fields _ _ _ Hs) Hf) as (y & Ey & Hfit). rewrite Hd in Ey. injection Ey as <-. destruct Hfit as [_ Hfit].
        destruct (f_class f); destruct Hfit as [Hk _]; try (destruct (f_optional f); [reflexivity|discriminate]); try discriminate. destruct Hk as (n & Hk). discriminate. }
      exists (present pres (optix fs i)), v. split; [|split; [exact Eg|reflexivity]].
      rewrite (code_has_field _ _ _ Hs i f ob _ Hf Ho Hh). unfold has_field. rewrite Hd, opt_index_optix. apply (presence_has_ok pres _ (n_optional fs)); [eapply optix_bound; exact Hd|exact Hz].
    + destruct (code_get_field _ _ _ Hs i f num (KRep n) t ob pres vs ovs Hf Hd ltac:(discriminate) Hh) as (v' & Ev & Eg). rewrite Hv in Ev. injection Ev as <-. exists v. split; [exact Eg|reflexivity].
    + split; [|reflexivity]. eapply code_get_recursive; eassumption.
  - intros j n ol ms y Ho Hms Hy. destruct (held_at _ _ _ _ _ _ _ Ho Hh) as (w & Hj & Hhw). change (map (map (fun '(num, t) => (num, view t))) os) with (votab os) in Hy.
    assert (Ey : y = view_oneof (map (fun '(num, t) => (num, view t)) ms) w).
    { pose proof (view_oneofs_nth_fwd os ovs j ms w Hms Hj) as E. congruence. }
    destruct (all2_nth _ _ _ _ _ Hwo Hms) as (w' & Hj' & Hww). rewrite Hj in Hj'. injection Hj' as <-.
    unfold view_oneof in Ey. unfold wt_oneof in Hww. rewrite (lookup_map view) in Ey. rewrite (lookup_map wt) in Hww.
    destruct (fits_at _ _ _ Hs _ _ Ho) as (ms' & Ems & Hfit). rewrite Hms in Ems. injection Ems as <-. cbn [snd] in Hfit.
    assert (Efst : fst y = fst w) by (subst y; destruct (lookup ms (fst w)); cbn [option_map fst] in *; [reflexivity|congruence]).
    split; [|split].
    + rewrite Efst. change n with (fst (n, ol)). rewrite (code_which_oneof _ _ _ Hs j _ ob _ Ho Hh). unfold which_oneof. rewrite (aget_nat _ _ _ Hj). reflexivity.
    + intros f Hf. rewrite Efst. rewrite (code_has_member _ _ _ Hs j _ f ob _ Ho Hf Hh). unfold has_member, which_oneof. rewrite (aget_nat _ _ _ Hj). reflexivity.
    + destruct (lookup ms (fst w)) as [t|] eqn:El; cbn [option_map] in *.
      * right. assert (Hi : exists i, nth_error ms i = Some (fst w, t)).
        { clear - El. induction ms as [|[a u] ms IH]; [discriminate|]. cbn [lookup] in El. destruct (Z.eqb_spec a (fst w)) as [->|]; [injection El as ->; exists 0%nat; reflexivity|].
          destruct (IH El) as (i & Hi). exists (S i). exact Hi. }
        destruct Hi as (i & Hi). destruct (Forall2_nth_r _ _ _ _ _ Hfit Hi) as (f & Hf & (Hn & _)). cbn [fst] in Hn.
        exists i, f, t, (snd w). split; [exact Hf|]. split; [rewrite Hn; exact Hi|]. split; [congruence|]. split; [|subst y; reflexivity].
        eapply (code_get_member _ _ _ Hs j (n, ol)); try eassumption; [eapply nth_error_In; exact Hf|congruence].
      * left. subst y. split; reflexivity.
Qed.

(** What is shown is one value. *)
Lemma shows_unique ob x y : shows d fs os ob x -> shows d fs os ob y -> x = y.
Proof.
  destruct x as [| | | | |xs oxs], y as [| | | | |ys oys]; cbn [shows]; try contradiction. intros (L1 & L2 & H1 & H2) (L3 & L4 & H3 & H4).
  assert (E : forall {A} (l l' : list A), length l = length l' -> (forall i a b, nth_error l i = Some a -> nth_error l' i = Some b -> a = b) -> l = l').
  { clear. induction l as [|a l IH]; intros [|b l'] Hl H; try discriminate; [reflexivity|]. f_equal; [apply (H 0%nat); reflexivity|]. apply IH; [cbn in Hl; lia|]. intros i. apply (H (S i)). }
  f_equal; apply E; try congruence; clear E.
  - intros i a b Ha Hb. destruct (nth_value xs fs i _ ltac:(congruence) Ha) as ([[num k] t] & Hd). destruct (Forall2_nth_r _ _ _ _ _ (s_fields _ _ _ Hs) Hd) as (f & Hf & _).
    specialize (H1 i f num k t a Hf Hd Ha). specialize (H3 i f num k t b Hf Hd Hb). destruct k; cbn [field_shows] in H1, H3.
    + destruct H1 as (v & E1 & ->), H3 as (v' & E2 & ->). congruence.
    + destruct H1 as (p & v & E1 & E2 & ->), H3 as (p' & v' & E3 & E4 & ->). rewrite E1 in E3; rewrite E2 in E4; injection E3 as <-; injection E4 as <-; reflexivity.
    + destruct H1 as (v & E1 & ->), H3 as (v' & E2 & ->). congruence.
    + destruct H1 as [_ ->], H3 as [_ ->]. reflexivity.
  - intros j a b Ha Hb. destruct (nth_value oxs os j _ ltac:(congruence) Ha) as (ms & Hms). destruct (Forall2_nth_r _ _ _ _ _ (s_oneofs _ _ _ Hs) Hms) as ([n ol] & Ho & Hfit).
    destruct (H2 j n ol ms a Ho Hms Ha) as (A1 & _ & A3), (H4 j n ol ms b Ho Hms Hb) as (B1 & _ & B3). rewrite A1 in B1. injection B1 as E.
    destruct a as [w x], b as [w' y]. cbn [fst snd] in *. subst w'. f_equal.
    assert (Hne : forall f, In f ol -> f_number f <> 0).
    { intros f Hf E0. pose proof (s_numbers _ _ _ Hs) as H. rewrite (class_numbers _ _ _ Hs) in H. unfold numbers_of in H. cbn [map snd] in H. inversion H as [|? ? Hx _]; subst. apply Hx.
      rewrite map_map. cbn [snd]. rewrite <- E0. change (f_number f) with ((fun g => f_number g) f). apply in_map. eapply oneof_In; [exact Ho|exact Hf]. }
    destruct A3 as [[-> ->]|(i & f & t & v & Hf & Hm & En & Eg & ->)], B3 as [[Z0 ->]|(i' & f' & t' & v' & Hf' & Hm' & En' & Eg' & ->)]; try reflexivity.
    + exfalso. apply (Hne f'); [eapply nth_error_In; exact Hf'|congruence].
    + exfalso. subst w. apply (Hne f); [eapply nth_error_In; exact Hf|congruence].
    + assert (f = f') by (apply (number_inj _ _ _ Hs); [eapply oneof_In; [exact Ho|eapply nth_error_In; exact Hf]|eapply oneof_In; [exact Ho|eapply nth_error_In; exact Hf']|congruence]). subst f'.
      assert (t = t').
      { pose proof (members_NoDup _ _ _ Hs _ _ _ Ho Hms) as Hnd. apply nth_error_In in Hm, Hm'. clear - Hnd Hm Hm'.
        induction ms as [|[a u] ms IH]; [destruct Hm|]. cbn [map fst] in Hnd. inversion Hnd as [|? ? Hx Hn]; subst.
        destruct Hm as [Hm|Hm], Hm' as [Hm'|Hm']; try congruence; [| |apply IH; assumption].
        - injection Hm as -> ->. exfalso. apply Hx. change (f_number f) with (fst (f_number f, t')). apply in_map. exact Hm'.
        - injection Hm' as -> ->. exfalso. apply Hx. change (f_number f) with (fst (f_number f, t)). apply in_map. exact Hm. }
      congruence.
Qed.

(** ** What a call leaves alone *)

Lemma field_stands i u : of_field d fs i u -> exists o, stands_for d fs os u o /\ (o = OpClearField i \/ exists o', o = OpField i o').
Proof.
  intros H. destruct H as [f num k t arity fn fr o Hf Hd Hc|f num k t o Hf Hd Hm].
  - exists o. split; [eapply for_field; eassumption|]. destruct Hc; [right; eexists; reflexivity|left; reflexivity|right; eexists; reflexivity|right; eexists; reflexivity].
  - exists (OpField i o). split; [eapply for_mutable; eassumption|]. right. eexists. reflexivity.
Qed.
Lemma oneof_stands j u : of_oneof d os j u -> exists o, stands_for d fs os u o /\ exists id, o = OpOneofClear j id \/ exists o', o = OpOneof j id o'.
Proof.
  intros H. destruct H as [n ol i f ms t arity fn fr o Ho Hms Hf Hm Hc|n ol i f ms t o Ho Hms Hf Hm Ht].
  - exists o. split; [eapply for_member; eassumption|]. exists (f_number f). destruct Hc; [right; eexists; reflexivity|left; reflexivity].
  - exists (OpOneof j (f_number f) o). split; [eapply for_mutable_member; eassumption|]. exists (f_number f). right. eexists. reflexivity.
Qed.
Lemma nth_upd_ne {A} (l : list A) i j x : i <> j -> nth_error (upd i x l) j = nth_error l j.
Proof. revert i j. induction l as [|a l IH]; intros [|i] [|j] H; cbn [upd nth_error]; try reflexivity; [contradiction|]. apply IH. congruence. Qed.
Lemma aget_lt {A} (l : list A) i x : aget l (Z.of_nat i) = Done x -> (i < length l)%nat.
Proof.
  unfold aget. destruct (0 <=? Z.of_nat i); [|discriminate]. rewrite Nat2Z.id. destruct (nth_error l i) eqn:E; [|discriminate]. intros _. apply nth_error_Some. congruence.
Qed.
Lemma field_op_rest fuel i o e pres vs ovs v' : wt (EMsg fs os) (VM pres vs ovs) -> o = OpClearField i \/ (exists o', o = OpField i o') ->
  run_op fuel o (OElem (EMsg fs os)) (VM pres vs ovs) = Done (e, v') ->
  exists pres' vs', v' = VM pres' vs' ovs /\ forall i', i' <> i -> nth_error vs' i' = nth_error vs i'
    /\ (has_field fs v' i' = has_field fs (VM pres vs ovs) i').
Proof.
  intros (Hz & Hu & _) Ho Hr. apply all_Forall in Hu.
  assert (Hsame : forall p' num t, nth_error fs i = Some (num, KOpt, t) ->  (exists b, zlen p' = presence_size (n_optional fs) /\ (forall j, 0 <= j -> present p' j = if j =? optix fs i then b else present pres j)) ->
    forall vs' i', i' <> i -> has_field fs (VM p' vs' ovs) i' = has_field fs (VM pres vs ovs) i').
  { intros p' num t Hd (b & Hz' & Hp) vs' i' Hne. unfold has_field. destruct (nth_error fs i') as [[[num' k'] t']|] eqn:Hd'; [|reflexivity]. destruct k'; try reflexivity.
    rewrite opt_index_optix. rewrite !(presence_has_ok _ _ (n_optional fs)) by (try assumption; eapply optix_bound; exact Hd'). f_equal.
    rewrite Hp by apply optix_nonneg. destruct (Z.eqb_spec (optix fs i') (optix fs i)) as [E|]; [|reflexivity]. exfalso. apply Hne. eapply optix_inj; eassumption. }
  assert (Hno : forall vs' i', has_field fs (VM pres vs' ovs) i' = has_field fs (VM pres vs ovs) i') by reflexivity.
  destruct Ho as [->|(o' & ->)]; cbn [run_op] in Hr; destruct (nth_error fs i) as [[[num k] t]|] eqn:Hd; try discriminate.
  - destruct (aget vs (Z.of_nat i)) as [x| |] eqn:Ex; try discriminate. cbn [bind] in Hr.
    assert (Hlt : (i < length vs)%nat) by (eapply aget_lt; exact Ex).
    destruct (field_clear k (clear t) (opt_index fs i) pres x) as [[p' x']| |] eqn:Ec; try discriminate. cbn [bind] in Hr. rewrite aset_nat in Hr by exact Hlt. cbn [bind] in Hr. injection Hr as _ <-.
    exists p', (upd i x' vs). split; [reflexivity|]. intros i' Hne. split; [apply nth_upd_ne; congruence|].
    destruct k; cbn [field_clear] in Ec; [| | |].
    + destruct (clear t x); try discriminate. cbn [bind] in Ec. injection Ec as <- _. apply Hno.
    + rewrite opt_index_optix in Ec. destruct (presence_clear_ok pres (optix fs i) (n_optional fs)) as (p & Ep & Hz' & _ & Hp); auto; [eapply optix_bound; exact Hd|].
      rewrite Ep in Ec. cbn [bind] in Ec. destruct (clear t x); try discriminate. cbn [bind] in Ec. injection Ec as <- _. eapply Hsame; eauto.
    + destruct (rep_clear (clear t) x); try discriminate. cbn [bind] in Ec. injection Ec as <- _. apply Hno.
    + injection Ec as <- _. apply Hno.
  - destruct k.
    4: { injection Hr as _ <-. exists pres, vs. split; [reflexivity|]. intros; split; reflexivity. }
    all: destruct (aget vs (Z.of_nat i)) as [x| |] eqn:Ex; try discriminate; cbn [bind] in Hr;
      assert (Hlt : (i < length vs)%nat) by (eapply aget_lt; exact Ex).
    + destruct (run_op fuel o' _ x) as [[e' x']| |]; try discriminate. cbn [bind] in Hr. rewrite aset_nat in Hr by exact Hlt. injection Hr as _ <-.
      exists pres, (upd i x' vs). split; [reflexivity|]. intros i' Hne. split; [apply nth_upd_ne; congruence|apply Hno].
    + rewrite opt_index_optix in Hr. destruct (presence_set_ok pres (optix fs i) (n_optional fs)) as (p & Ep & Hz' & _ & Hp); auto; [eapply optix_bound; exact Hd|].
      rewrite Ep in Hr. cbn [bind] in Hr. destruct (run_op fuel o' _ x) as [[e' x']| |]; try discriminate. cbn [bind] in Hr. rewrite aset_nat in Hr by exact Hlt. injection Hr as _ <-.
      exists p, (upd i x' vs). split; [reflexivity|]. intros i' Hne. split; [apply nth_upd_ne; congruence|]. eapply Hsame; eauto.
    + destruct (run_op fuel o' _ x) as [[e' x']| |]; try discriminate. cbn [bind] in Hr. rewrite aset_nat in Hr by exact Hlt. injection Hr as _ <-.
      exists pres, (upd i x' vs). split; [reflexivity|]. intros i' Hne. split; [apply nth_upd_ne; congruence|apply Hno].
Qed.
Lemma oneof_op_rest fuel j id o e pres vs ovs v' : o = OpOneofClear j id \/ (exists o', o = OpOneof j id o') ->
  run_op fuel o (OElem (EMsg fs os)) (VM pres vs ovs) = Done (e, v') ->
  exists ovs', v' = VM pres vs ovs' /\ forall j', j' <> j -> nth_error ovs' j' = nth_error ovs j'.
Proof.
  intros Ho Hr. destruct Ho as [->|(o' & ->)]; cbn [run_op] in Hr; destruct (nth_error os j) as [ms|]; try discriminate.
  - destruct (aget ovs (Z.of_nat j)) as [w| |] eqn:Ew; try discriminate. cbn [bind] in Hr. rewrite aset_nat in Hr by (eapply aget_lt; exact Ew). injection Hr as _ <-.
    eexists. split; [reflexivity|]. intros j' Hne. apply nth_upd_ne. congruence.
  - destruct (find_member (members ms) id) as [[t ?]|]; try discriminate. destruct (aget ovs (Z.of_nat j)) as [w| |] eqn:Ew; try discriminate. cbn [bind] in Hr.
    destruct (run_op fuel o' (OElem t) _) as [[e' x']| |]; try discriminate. cbn [bind] in Hr. rewrite aset_nat in Hr by (eapply aget_lt; exact Ew). injection Hr as _ <-.
    eexists. split; [reflexivity|]. intros j' Hne. apply nth_upd_ne. congruence.
Qed.

(** Two objects on which the getters of a field give the same. *)
Lemma get_same_field ob ob' pres vs ovs pres' vs' ovs' i f : holds_value d ob (VM pres vs ovs) -> holds_value d ob' (VM pres' vs' ovs') -> nth_error fields i = Some f ->
  nth_error vs' i = nth_error vs i -> has_field fs (VM pres' vs' ovs') i = has_field fs (VM pres vs ovs) i ->
  code_get d fs os ob' (pre "get_" (f_name f)) = code_get d fs os ob (pre "get_" (f_name f))
  /\ (f_optional f = true -> code_has d fs os ob' (pre "has_" (f_name f)) = code_has d fs os ob (pre "has_" (f_name f))).
Proof.
  intros Hh Hh' Hf Hv Hp. destruct (Forall2_nth _ _ _ _ _ (s_fields _ _ _ Hs) Hf) as ([[num k] t] & Hd & _). split.
  - destruct (length_fields _ _ _ Hs _ _ _ _ Hh) as [Lf _]. destruct (nth_value fs vs i _ Lf Hd) as (v & Ev). unfold code_get.
    rewrite (get_field_of _ _ _ Hs i f ob pres vs ovs v Hf Hh Ev), (get_field_of _ _ _ Hs i f ob' pres' vs' ovs' v Hf Hh') by congruence. reflexivity.
  - intros Ho. rewrite (code_has_field _ _ _ Hs i f ob _ Hf Ho Hh), (code_has_field _ _ _ Hs i f ob' _ Hf Ho Hh'). exact Hp.
Qed.
Lemma get_same_oneof ob ob' pres vs ovs pres' vs' ovs' j n ol : holds_value d ob (VM pres vs ovs) -> holds_value d ob' (VM pres' vs' ovs') -> nth_error oneofs j = Some (n, ol) ->
  nth_error ovs' j = nth_error ovs j ->
  code_which d fs os ob' (pre "get_which_" n) = code_which d fs os ob (pre "get_which_" n)
  /\ forall f, In f ol -> code_has d fs os ob' (pre "has_" (f_name f)) = code_has d fs os ob (pre "has_" (f_name f))
       /\ (code_has d fs os ob (pre "has_" (f_name f)) = Done true -> code_get d fs os ob' (pre "get_" (f_name f)) = code_get d fs os ob (pre "get_" (f_name f))).
Proof.
  intros Hh Hh' Ho Ej. destruct (held_at _ _ _ _ _ _ _ Ho Hh) as (w & Hw & _). assert (Hw' : nth_error ovs' j = Some w) by congruence.
  change n with (fst (n, ol)). rewrite (code_which_oneof _ _ _ Hs j _ ob _ Ho Hh), (code_which_oneof _ _ _ Hs j _ ob' _ Ho Hh'). unfold which_oneof. rewrite (aget_nat _ _ _ Hw), (aget_nat _ _ _ Hw').
  split; [reflexivity|]. intros f Hf. rewrite (code_has_member _ _ _ Hs j _ f ob _ Ho Hf Hh), (code_has_member _ _ _ Hs j _ f ob' _ Ho Hf Hh').
  unfold has_member, which_oneof. rewrite (aget_nat _ _ _ Hw), (aget_nat _ _ _ Hw'). cbn [bind]. split; [reflexivity|]. intros E. injection E as E. apply Z.eqb_eq in E.
  rewrite (code_get_member _ _ _ Hs j _ f ob _ _ _ w Ho Hf Hh Hw), (code_get_member _ _ _ Hs j _ f ob' _ _ _ w Ho Hf Hh' Hw') by congruence. reflexivity.
Qed.
Lemma field_alone fuel i u ob ob' : of_field d fs i u -> valid_object d fs os ob -> user_run fuel d fs os u ob = Done ob' ->
  (forall i' g, nth_error fields i' = Some g -> i' <> i -> same_field d fs os ob ob' g)
  /\ (forall j n ol, nth_error oneofs j = Some (n, ol) -> same_oneof d fs os ob ob' n ol).
Proof.
  intros Hof (v & Hw & Hh) Hu. destruct v as [| | | |pres vs ovs]; try contradiction.
  assert (H : exists o, (o = OpClearField i \/ exists o', o = OpField i o') /\ same_object d (user_run fuel d fs os u ob) (let* (_, v') := run_op fuel o (OElem (EMsg fs os)) (VM pres vs ovs) in Done v')).
  { destruct Hof as [f num k t arity fn fr o Hf Hd Hc|f num k t o Hf Hd Hm]; cbn [user_run].
    - exists o. split; [destruct Hc; [right; eexists; reflexivity|left; reflexivity|right; eexists; reflexivity|right; eexists; reflexivity]|]. eapply field_call_same; eassumption.
    - exists (OpField i o). split; [right; eexists; reflexivity|]. eapply field_through_same; eassumption. }
  destruct H as (o & Ho & H). rewrite Hu in H. destruct (run_op fuel o (OElem (EMsg fs os)) (VM pres vs ovs)) as [[e v']| |] eqn:Hr; cbn [bind same_object] in H; try contradiction.
  destruct (field_op_rest fuel i o e pres vs ovs v' Hw Ho Hr) as (pres' & vs' & -> & Hrest). split.
  - intros i' g Hg Hne. destruct (Hrest i' Hne) as [H1 H2]. eapply get_same_field; eassumption.
  - intros j n ol Hj. eapply get_same_oneof; try eassumption. reflexivity.
Qed.
Lemma oneof_alone fuel j u ob ob' : of_oneof d os j u -> valid_object d fs os ob -> user_run fuel d fs os u ob = Done ob' ->
  (forall i g, nth_error fields i = Some g -> same_field d fs os ob ob' g)
  /\ (forall j' n ol, nth_error oneofs j' = Some (n, ol) -> j' <> j -> same_oneof d fs os ob ob' n ol).
Proof.
  intros Hof (v & Hw & Hh) Hu. destruct v as [| | | |pres vs ovs]; try contradiction.
  assert (H : exists o id, (o = OpOneofClear j id \/ exists o', o = OpOneof j id o') /\ same_object d (user_run fuel d fs os u ob) (let* (_, v') := run_op fuel o (OElem (EMsg fs os)) (VM pres vs ovs) in Done v')).
  { destruct Hof as [n ol i f ms t arity fn fr o Ho Hms Hf Hm Hc|n ol i f ms t o Ho Hms Hf Hm Ht]; cbn [user_run].
    - exists o, (f_number f). split; [destruct Hc; [right; eexists; reflexivity|left; reflexivity]|]. eapply (member_call_same _ _ _ Hs fuel j (n, ol)); eassumption.
    - exists (OpOneof j (f_number f) o), (f_number f). split; [right; eexists; reflexivity|]. eapply (member_through_same _ _ _ Hs fuel j (n, ol)); eassumption. }
  destruct H as (o & id & Ho & H). rewrite Hu in H. destruct (run_op fuel o (OElem (EMsg fs os)) (VM pres vs ovs)) as [[e v']| |] eqn:Hr; cbn [bind same_object] in H; try contradiction.
  destruct (oneof_op_rest fuel j id o e pres vs ovs v' Ho Hr) as (ovs' & -> & Hrest). split.
  - intros i' g Hg. eapply get_same_field; try eassumption; reflexivity.
  - intros j' n ol Hj Hne. eapply get_same_oneof; try eassumption. apply Hrest. exact Hne.
Qed.

(** ** Programs, from a new object *)

Lemma program_same fuel us ops : Forall2 (stands_for d fs os) us ops -> run_ops fuel ops (OElem (EMsg fs os)) (construct (OElem (EMsg fs os))) <> Fuel ->
  same_object d (user_runs fuel d fs os us (new_object d fs os)) (run_ops fuel ops (OElem (EMsg fs os)) (construct (OElem (EMsg fs os)))).
Proof. intros H. apply user_runs_same; [exact Hs|exact H|exact new_holds]. Qed.
Lemma program_valid fuel us ops : desc_ok (EMsg fs os) -> Forall2 (stands_for d fs os) us ops -> Forall (op_ok (OElem (EMsg fs os))) ops ->
  run_ops fuel ops (OElem (EMsg fs os)) (construct (OElem (EMsg fs os))) <> Fuel ->
  exists ob v, user_runs fuel d fs os us (new_object d fs os) = Done ob /\ run_ops fuel ops (OElem (EMsg fs os)) (construct (OElem (EMsg fs os))) = Done v
    /\ shows d fs os ob (view (EMsg fs os) v) /\ valid_object d fs os ob.
Proof.
  intros Hok Hst Hl Hf. pose proof (program_same fuel us ops Hst Hf) as H. pose proof (reachable_valid (OElem (EMsg fs os)) ops fuel Hok Hl) as Hr.
  destruct (run_ops fuel ops (OElem (EMsg fs os)) (construct (OElem (EMsg fs os)))) as [v| |]; try contradiction.
  destruct (user_runs fuel d fs os us (new_object d fs os)) as [ob| |]; try contradiction. cbn [same_object owt] in *.
  exists ob, v. split; [reflexivity|]. split; [reflexivity|]. split; [apply shows_view; assumption|exists v; split; assumption].
Qed.

Lemma copied ob : desc_ok (EMsg fs os) -> valid_object d fs os ob ->
  exists ob', code_copy d fs os ob = Done ob' /\ valid_object d fs os ob' /\ forall x, shows d fs os ob x <-> shows d fs os ob' x.
Proof.
  intros Hok (v & Hw & Hh). destruct (copy_ctor (EMsg fs os) v Hok Hw) as (v' & Ec & Hw' & Ev). unfold copy_construct in Ec.
  pose proof (code_assign_same _ _ _ Hs (new_object d fs os) ob _ v new_holds Hh) as H. cbn [construct] in H. rewrite Ec in H. unfold code_copy.
  destruct (code_assign d fs os (new_object d fs os) ob) as [ob'| |]; try contradiction. cbn [same_object] in H.
  exists ob'. split; [reflexivity|]. split; [exists v'; split; assumption|].
  pose proof (shows_view ob v Hw Hh) as S1. pose proof (shows_view ob' v' Hw' H) as S2. rewrite Ev in S2.
  intros x. split; intros Hx; [rewrite (shows_unique _ _ _ Hx S1); exact S2|rewrite (shows_unique _ _ _ Hx S2); exact S1].
Qed.
Lemma assigned fuel us ops ob rhs : desc_ok (EMsg fs os) -> Forall2 (stands_for d fs os) us ops -> Forall (op_ok (OElem (EMsg fs os))) ops ->
  run_ops fuel ops (OElem (EMsg fs os)) (construct (OElem (EMsg fs os))) <> Fuel -> user_runs fuel d fs os us (new_object d fs os) = Done ob -> valid_object d fs os rhs ->
  exists ob', code_assign d fs os ob rhs = Done ob' /\ valid_object d fs os ob' /\ forall x, shows d fs os rhs x <-> shows d fs os ob' x.
Proof.
  intros Hok Hst Hl Hf Hu (v & Hw & Hh). pose proof (program_same fuel us ops Hst Hf) as H. rewrite Hu in H.
  destruct (run_ops fuel ops (OElem (EMsg fs os)) (construct (OElem (EMsg fs os)))) as [dst| |] eqn:Er; try contradiction. cbn [same_object] in H.
  destruct (assign_copies (EMsg fs os) ops fuel dst v Hok Hl Er Hw) as (v' & Ec & Hw' & Ev).
  pose proof (code_assign_same _ _ _ Hs ob rhs dst v H Hh) as Ha. rewrite Ec in Ha.
  destruct (code_assign d fs os ob rhs) as [ob'| |]; try contradiction. cbn [same_object] in Ha.
  exists ob'. split; [reflexivity|]. split; [exists v'; split; assumption|].
  pose proof (shows_view rhs v Hw Hh) as S1. pose proof (shows_view ob' v' Hw' Ha) as S2. rewrite Ev in S2.
  intros x. split; intros Hx; [rewrite (shows_unique _ _ _ Hx S1); exact S2|rewrite (shows_unique _ _ _ Hx S2); exact S1].
Qed.

(** ** Bytes *)

Lemma wire ob : desc_ok (EMsg fs os) -> valid_object d fs os ob ->
  exists x, shows d fs os ob x /\ (zlen (enc (EMsg fs os) x) < 2 ^ 32 ->
    forall cap b content n b', wfix_rel cap b content (Some n) -> code_serialize d fs os ob _ (wfix_ops cap) b = Done (NoErrors, b') ->
    wfix_content b' = wfix_content b ++ enc (EMsg fs os) x
    /\ forall T (R : rops T) rel, reader_ok R rel -> forall s, rel s (enc (EMsg fs os) x) -> forall fuel, (length (enc (EMsg fs os) x) < fuel)%nat ->
       exists ob' s', code_deserialize fuel d fs os R (new_object d fs os) s = Done (NoErrors, ob', s')
         /\ shows d fs os ob' (norm (EMsg fs os) x) /\ (no_neg_zero (EMsg fs os) x -> shows d fs os ob' x)).
Proof.
  intros Hok (v & Hw & Hh). exists (view (EMsg fs os) v). split; [apply shows_view; assumption|]. intros Hz cap b content n b' Hrel Hser.
  rewrite (code_serialize_eq _ _ _ Hs) with (v := v) in Hser by assumption.
  pose proof (serialize_is_enc fs os v Hw Hok Hz cap b content n Hrel b' Hser) as Hc. split; [exact Hc|].
  destruct (fresh_good (EMsg fs os) _ Hok (or_introl eq_refl)) as (G1 & G2 & G3).
  destruct (round_trip0 fs os v (default_value (EMsg fs os)) Hok Hw Hz G1 G2 G3 cap b content n b' Hrel Hser) as (bytes & Eb & Hrt).
  assert (bytes = enc (EMsg fs os) (view (EMsg fs os) v)) as -> by (eapply app_inv_head; rewrite <- Eb; exact Hc).
  intros T R rel HR s Hs' fuel Hfuel. destruct (Hrt T R rel HR s Hs' fuel Hfuel) as (v' & s' & Ed & Ev & Hw' & _).
  pose proof (code_deserialize_same _ _ _ Hs R fuel (new_object d fs os) (default_value (EMsg fs os)) s new_holds) as H. rewrite Ed in H. specialize (H ltac:(discriminate)).
  destruct (code_deserialize fuel d fs os R (new_object d fs os) s) as [[[e ob'] s1]| |]; try contradiction. cbn [same_end] in H. destruct H as (-> & -> & Hh').
  exists ob', s'. split; [reflexivity|]. rewrite <- Ev. split; [apply shows_view; assumption|]. intros Hn. rewrite <- (norm_id _ _ Hw Hn), <- Ev. apply shows_view; assumption.
Qed.
End Objects.

(** ** For a class of a .proto file *)

Section Class.
Context (request : list pfile) (lengths : text -> Z) (d : mdef) (fs : list fdesc) (os : list odesc) (Hc : class_for request lengths d fs os).

Lemma class_programs fuel us ops : (forall p, capacity_ok (lengths p)) -> Forall2 (stands_for d fs os) us ops -> Forall (op_ok (OElem (EMsg fs os))) ops ->
  run_ops fuel ops (OElem (EMsg fs os)) (construct (OElem (EMsg fs os))) <> Fuel ->
  exists ob v, user_runs fuel d fs os us (new_object d fs os) = Done ob /\ run_ops fuel ops (OElem (EMsg fs os)) (construct (OElem (EMsg fs os))) = Done v
    /\ shows d fs os ob (view (EMsg fs os) v) /\ valid_object d fs os ob.
Proof. intros Hl. apply program_valid; [eapply class_sound; exact Hc|eapply class_desc; eassumption]. Qed.
Lemma class_calls fuel u o ob v : stands_for d fs os u o -> holds_value d ob v -> run_op fuel o (OElem (EMsg fs os)) v <> Fuel ->
  same_object d (user_run fuel d fs os u ob) (let* (_, v') := run_op fuel o (OElem (EMsg fs os)) v in Done v').
Proof. apply user_run_same. eapply class_sound. exact Hc. Qed.
Lemma class_serialize ob v S (W : wops S) s : wt (EMsg fs os) v -> holds_value d ob v -> code_serialize d fs os ob S W s = serialize (EMsg fs os) v S W s.
Proof. apply code_serialize_eq. eapply class_sound. exact Hc. Qed.
Lemma class_deserialize fuel ob v S (R : rops S) s : holds_value d ob v -> deserialize fuel (EMsg fs os) S R v s <> Fuel ->
  same_end d (code_deserialize fuel d fs os R ob s) (deserialize fuel (EMsg fs os) S R v s).
Proof. apply code_deserialize_same. eapply class_sound. exact Hc. Qed.
Lemma class_shows ob v : wt (EMsg fs os) v -> holds_value d ob v -> forall x, shows d fs os ob x <-> x = view (EMsg fs os) v.
Proof.
  intros Hw Hh x. pose proof (class_sound _ _ _ _ _ Hc) as Hs. pose proof (shows_view _ _ _ Hs ob v Hw Hh) as H. split; [intros Hx; eapply shows_unique; eassumption|intros ->; exact H].
Qed.
Lemma class_alone_field fuel i u ob ob' : of_field d fs i u -> valid_object d fs os ob -> user_run fuel d fs os u ob = Done ob' ->
  (forall i' g, nth_error (fields_of d) i' = Some g -> i' <> i -> same_field d fs os ob ob' g)
  /\ (forall j n ol, nth_error (oneofs_of d) j = Some (n, ol) -> same_oneof d fs os ob ob' n ol).
Proof. apply field_alone. eapply class_sound. exact Hc. Qed.
Lemma class_alone_oneof fuel j u ob ob' : of_oneof d os j u -> valid_object d fs os ob -> user_run fuel d fs os u ob = Done ob' ->
  (forall i g, nth_error (fields_of d) i = Some g -> same_field d fs os ob ob' g)
  /\ (forall j' n ol, nth_error (oneofs_of d) j' = Some (n, ol) -> j' <> j -> same_oneof d fs os ob ob' n ol).
Proof. apply oneof_alone. eapply class_sound. exact Hc. Qed.
Lemma class_copied ob : (forall p, capacity_ok (lengths p)) -> valid_object d fs os ob ->
  exists ob', code_copy d fs os ob = Done ob' /\ valid_object d fs os ob' /\ forall x, shows d fs os ob x <-> shows d fs os ob' x.
Proof. intros Hl. apply copied; [eapply class_sound; exact Hc|eapply class_desc; eassumption]. Qed.
Lemma class_assigned fuel us ops ob rhs : (forall p, capacity_ok (lengths p)) -> Forall2 (stands_for d fs os) us ops -> Forall (op_ok (OElem (EMsg fs os))) ops ->
  run_ops fuel ops (OElem (EMsg fs os)) (construct (OElem (EMsg fs os))) <> Fuel -> user_runs fuel d fs os us (new_object d fs os) = Done ob -> valid_object d fs os rhs ->
  exists ob', code_assign d fs os ob rhs = Done ob' /\ valid_object d fs os ob' /\ forall x, shows d fs os rhs x <-> shows d fs os ob' x.
Proof. intros Hl. apply assigned; [eapply class_sound; exact Hc|eapply class_desc; eassumption]. Qed.
Lemma class_wire ob : (forall p, capacity_ok (lengths p)) -> valid_object d fs os ob ->
  exists x, shows d fs os ob x /\ (zlen (enc (EMsg fs os) x) < 2 ^ 32 ->
    forall cap b content n b', wfix_rel cap b content (Some n) -> code_serialize d fs os ob _ (wfix_ops cap) b = Done (NoErrors, b') ->
    wfix_content b' = wfix_content b ++ enc (EMsg fs os) x
    /\ forall T (R : rops T) rel, reader_ok R rel -> forall s, rel s (enc (EMsg fs os) x) -> forall fuel, (length (enc (EMsg fs os) x) < fuel)%nat ->
       exists ob' s', code_deserialize fuel d fs os R (new_object d fs os) s = Done (NoErrors, ob', s')
         /\ shows d fs os ob' (norm (EMsg fs os) x) /\ (no_neg_zero (EMsg fs os) x -> shows d fs os ob' x)).
Proof. intros Hl. apply wire; [eapply class_sound; exact Hc|eapply class_desc; eassumption]. Qed.
Lemma class_names : (forall f, In f (fields_of d ++ concat (map snd (oneofs_of d))) -> code_name d fs os (f_number f) = Done (f_name f))
  /\ (forall n, (forall f, In f (fields_of d ++ concat (map snd (oneofs_of d))) -> f_number f <> n) -> code_name d fs os n = Done (chars "Invalid FieldNumber")).
Proof. pose proof (class_sound _ _ _ _ _ Hc) as Hs. split; [apply code_name_field; exact Hs|apply code_name_other; exact Hs]. Qed.
End Class.
