(** * GenBodySer: the statements of serialize() do what [serialize] of Message.v says. *)
From Coq Require Import String.
From Verif Require Import Base Buffers Wire Schema Fields Message Api Spec BitLemmas Struct Printf Generator GenMembers GenBody SpecBody GenOrder GenBodyRun GenBodySound
  GenBodyOneof Tables ReadAny ApiProofs.
From Coq Require Import List ZifyBool ZifyNat Lia.

Lemma skipn_head {A} n (l : list A) x r : skipn n l = x :: r -> nth_error l n = Some x /\ skipn (Datatypes.S n) l = r.
Proof.
  revert l. induction n as [|n IH]; intros [|a l] H; try discriminate; [cbn in H; injection H as -> ->; split; reflexivity|]. cbn [skipn] in H. apply IH. exact H.
Qed.
Lemma is_ok_dec e : {e = NoErrors} + {e <> NoErrors /\ is_ok e = false}.
Proof. destruct e; [left; reflexivity|right; split; [discriminate|reflexivity]..]. Defined.

Section Class.
Context (d : mdef) (fs : list fdesc) (os : list odesc) (Hs : sound d fs os).
Notation c := (class_of d fs os).
Notation fields := (fields_of d).
Notation oneofs := (oneofs_of d).

(** ** has_<field>() *)

Lemma has_field_call i f ob : nth_error fields i = Some f -> f_optional f = true ->
  call_has c ob (pre "has_" (f_name f)) = presence_has (ob_presence ob) (opt_index fs i).
Proof.
  intros Hf Ho. unfold call_has. rewrite (function_found _ _ _ Hs 0 _ (has_code None f)).
  - unfold has_code. cbn [holds]. rewrite (presence_index_of _ _ _ Hs _ _ Hf Ho). reflexivity.
  - apply (field_function _ f); [eapply nth_error_In; exact Hf|]. unfold field_functions, has_presence. rewrite Ho. left. reflexivity.
Qed.
Lemma has_member_call j o f ob w a y : nth_error oneofs j = Some o -> In f (snd o) -> oneof_is ob o w a y ->
  call_has c ob (pre "has_" (f_name f)) = Done (f_number f =? w).
Proof.
  intros Ho Hf Hi. unfold call_has. rewrite (function_found _ _ _ Hs 0 _ (has_code (Some (fst o)) f)).
  - unfold has_code. cbn [holds]. rewrite (number_which _ _ _ _ _ _ _ _ _ Hi). cbn [number_of]. rewrite (id_value _ _ _ Hs) by (eapply oneof_In; eassumption). reflexivity.
  - eapply member_function; [exact Ho|exact Hf|]. unfold field_functions, has_presence. rewrite orb_true_r. left. reflexivity.
Qed.

Section Serialize.
Context {S : Type} (W : wops S).
Notation rl k := (run_list c (Writing W) 0 (invoke c (Writing W) 0 k)).

Definition wrote (ob : object) (x : bool * (frame * object * S)) (y : err * S) : Prop :=
  let '(br, (fr', ob', s')) := x in br = false /\ fr_return fr' = fst y /\ ob' = ob /\ s' = snd y.

Lemma run_ok_write k fr ob s x e flag i f num kd t v : fr_return fr = NoErrors -> type_of c x = Done (oty_of kd t) -> read ob x = Done v -> enum_value c e = Done num ->
  nth_error fields i = Some f ->
  rel (wrote ob) (rl k [SetReturn (RSerialize x e flag)] (fr, ob, s)) (var_serialize (oty_of kd t) v num flag S W s).
Proof.
  intros Hr Ht Hv He _. rewrite run_list_one, run_return. cbn [result_of]. rewrite Ht, Hv, He. cbn [bind].
  destruct (var_serialize (oty_of kd t) v num flag S W s) as [[e' s']| |]; cbn [bind rel]; auto. repeat split; reflexivity.
Qed.
Lemma true_ok fr ob : fr_return fr = NoErrors -> true_now c fr ob ok = Done true.
Proof. intros H. unfold true_now, ok. cbn [holds error_of]. rewrite H. reflexivity. Qed.
Lemma false_ok fr ob : fr_return fr <> NoErrors -> true_now c fr ob ok = Done false.
Proof. intros H. unfold true_now, ok. cbn [holds error_of]. destruct (err_dec NoErrors (fr_return fr)); [congruence|reflexivity]. Qed.

Lemma serialize_field_run k i f num kd t v fr ob pres vs ovs s : nth_error fields i = Some f -> nth_error fs i = Some (num, kd, t) -> nth_error vs i = Some v ->
  holds_value d ob (VM pres vs ovs) -> fr_return fr = NoErrors ->
  rel (wrote ob) (rl k (serialize_field None f) (fr, ob, s)) (field_serialize (num, kd, t, serialize t) (opt_index fs i) pres v S W s).
Proof.
  intros Hf Hd Hv Hh Hr. destruct (Forall2_nth _ _ _ _ _ (s_fields _ _ _ Hs) Hf) as (x & Ex & Hfit). rewrite Hd in Ex. injection Ex as <-. destruct Hfit as [Hnum Hfit].
  assert (Hp : ob_presence ob = pres) by apply Hh.
  assert (Hin : In f (fields ++ concat (map snd oneofs))) by (apply in_or_app; left; eapply nth_error_In; exact Hf).
  unfold serialize_field, has_presence. rewrite orb_false_r.
  destruct (recursive f) eqn:Erec.
  { unfold recursive in Erec. destruct (f_class f); try discriminate. destruct Hfit as [-> _]. cbn [run_list field_serialize rel]. repeat split; auto. }
  destruct (hold_read _ _ _ _ _ _ _ Hh Hf Erec) as (v' & Ev & _ & Erd). rewrite Hv in Ev. injection Ev as <-.
  assert (Hw : forall flag, rel (wrote ob) (rl k [SetReturn (RSerialize (place None f) (id_name f) flag)] (fr, ob, s)) (var_serialize (oty_of kd t) v num flag S W s)).
  { intros flag. eapply run_ok_write; [exact Hr|eapply variable_type; eassumption|exact Erd|rewrite <- Hnum; apply (id_value _ _ _ Hs); exact Hin|exact Hf]. }
  assert (Hok : holds c (call_has c) fr ob ok = Done true) by exact (true_ok fr ob Hr).
  unfold recursive in Erec. destruct (f_class f) as [sc|n|n|ref|ref|n cl|] eqn:Ecl; try discriminate.
  - rewrite run_list_one, run_if. unfold true_now. destruct Hfit as [Hk Ht]. cbn [fits_class] in Ht. subst t. destruct (f_optional f) eqn:Eo; subst kd; cbn [holds field_serialize oty_of].
    + rewrite (has_field_call _ _ _ Hf Eo), Hp. destruct (presence_has pres (opt_index fs i)) as [[|]| |]; cbn [bind]; try exact I; [rewrite Hok; cbn [bind]; apply Hw|].
      cbn [run_list rel]. repeat split; auto.
    + rewrite (variable_type _ _ _ Hs _ _ _ _ _ Hf Hd) by (unfold recursive; rewrite Ecl; reflexivity). rewrite Erd. cbn [bind oty_of var_differs].
      destruct v as [z| | | |]; cbn [bind rel]; try exact I. destruct (scalar_differs_from_default sc z); [rewrite Hok; cbn [bind]; apply Hw|cbn [run_list rel]; repeat split; auto].
  - rewrite run_list_one, run_if. unfold true_now. destruct Hfit as [Hk (n' & ->)]. destruct (f_optional f) eqn:Eo; subst kd; cbn [holds field_serialize oty_of].
    + rewrite (has_field_call _ _ _ Hf Eo), Hp. destruct (presence_has pres (opt_index fs i)) as [[|]| |]; cbn [bind]; try exact I; [rewrite Hok; cbn [bind]; apply Hw|].
      cbn [run_list rel]. repeat split; auto.
    + rewrite Hok. cbn [bind]. apply Hw.
  - rewrite run_list_one, run_if. unfold true_now. destruct Hfit as [Hk (n' & ->)]. destruct (f_optional f) eqn:Eo; subst kd; cbn [holds field_serialize oty_of].
    + rewrite (has_field_call _ _ _ Hf Eo), Hp. destruct (presence_has pres (opt_index fs i)) as [[|]| |]; cbn [bind]; try exact I; [rewrite Hok; cbn [bind]; apply Hw|].
      cbn [run_list rel]. repeat split; auto.
    + rewrite Hok. cbn [bind]. apply Hw.
  - rewrite run_list_one, run_if. unfold true_now. destruct Hfit as [Hk Ht]. cbn [fits_class] in Ht. subst t. destruct (f_optional f) eqn:Eo; subst kd; cbn [holds field_serialize oty_of].
    + rewrite (has_field_call _ _ _ Hf Eo), Hp. destruct (presence_has pres (opt_index fs i)) as [[|]| |]; cbn [bind]; try exact I; [rewrite Hok; cbn [bind]; apply Hw|].
      cbn [run_list rel]. repeat split; auto.
    + rewrite (variable_type _ _ _ Hs _ _ _ _ _ Hf Hd) by (unfold recursive; rewrite Ecl; reflexivity). rewrite Erd. cbn [bind oty_of var_differs].
      destruct v as [z| | | |]; cbn [bind rel]; try exact I. destruct (scalar_differs_from_default Enumeration z); [rewrite Hok; cbn [bind]; apply Hw|cbn [run_list rel]; repeat split; auto].
  - rewrite run_list_one, run_if. unfold true_now. destruct Hfit as [Hk (fs' & os' & ->)]. destruct (f_optional f) eqn:Eo; subst kd; cbn [holds field_serialize oty_of].
    + rewrite (has_field_call _ _ _ Hf Eo), Hp. destruct (presence_has pres (opt_index fs i)) as [[|]| |]; cbn [bind]; try exact I; [rewrite Hok; cbn [bind]; apply Hw|].
      cbn [run_list rel]. repeat split; auto.
    + rewrite Hok. cbn [bind]. apply Hw.
  - rewrite run_list_one, run_if. unfold true_now. destruct Hfit as [(n' & ->) Ho]. rewrite Ho, Hok. cbn [bind field_serialize]. apply Hw.
Qed.

(** After an error the remaining statements only evaluate their conditions. *)
Lemma serialize_field_skip k i f num kd t v fr ob pres vs ovs s : nth_error fields i = Some f -> nth_error fs i = Some (num, kd, t) -> nth_error vs i = Some v ->
  holds_value d ob (VM pres vs ovs) -> wt (EMsg fs os) (VM pres vs ovs) -> fr_return fr <> NoErrors -> rl k (serialize_field None f) (fr, ob, s) = Done (false, (fr, ob, s)).
Proof.
  intros Hf Hd Hv Hh (Hwp & Hwu & Hwf & _) Hr. destruct (Forall2_nth _ _ _ _ _ (s_fields _ _ _ Hs) Hf) as (x & Ex & Hfit). rewrite Hd in Ex. injection Ex as <-. destruct Hfit as [Hnum Hfit].
  assert (Hp : ob_presence ob = pres) by apply Hh. assert (Hok : holds c (call_has c) fr ob ok = Done false) by exact (false_ok fr ob Hr).
  assert (Hhas : f_optional f = true -> kd = KOpt -> exists x, holds c (call_has c) fr ob (CHas false (pre "has_" (f_name f))) = Done x).
  { intros Eo ->. cbn [holds]. rewrite (has_field_call _ _ _ Hf Eo), Hp, opt_index_optix.
    apply all_Forall in Hwu. destruct (opt_present _ _ _ _ _ Hd Hwp Hwu) as (p' & Ep & _). unfold presence_set in Ep. unfold presence_has.
    destruct (aget pres (presence_index (optix fs i))); [|discriminate|discriminate]. cbn [bind]. eexists. reflexivity. }
  assert (Hwv : wt_field kd (wt t) v).
  { clear - Hwf Hd Hv. revert i vs Hd Hv Hwf. induction fs as [|[[n0 k0] t0] l IH]; intros [|i] [|v0 vs] Hd Hv Hwf; try discriminate; cbn [all2] in Hwf; try contradiction.
    - injection Hd as -> -> ->. injection Hv as ->. apply Hwf.
    - apply (IH i vs); [exact Hd|exact Hv|apply Hwf]. }
  unfold serialize_field, has_presence. rewrite orb_false_r.
  destruct (recursive f) eqn:Erec.
  { unfold recursive in Erec. destruct (f_class f); try discriminate. reflexivity. }
  destruct (hold_read _ _ _ _ _ _ _ Hh Hf Erec) as (v' & Ev & _ & Erd). rewrite Hv in Ev. injection Ev as <-.
  pose proof (variable_type _ _ _ Hs _ _ _ _ _ Hf Hd Erec) as Hty.
  unfold recursive in Erec. destruct (f_class f) as [sc|n|n|ref|ref|n cl|] eqn:Ecl; try discriminate; rewrite run_list_one, run_if; unfold true_now.
  - destruct Hfit as [Hk Ht]. cbn [fits_class] in Ht. subst t. destruct (f_optional f) eqn:Eo; subst kd.
    + destruct (Hhas eq_refl eq_refl) as [x Hx]. cbn [holds] in *. rewrite Hx. cbn [bind]. destruct x; [rewrite Hok|]; reflexivity.
    + cbn [holds]. rewrite Hty, Erd. cbn [bind oty_of var_differs]. cbn [wt_field wt] in Hwv. destruct v as [z| | | |]; try contradiction. cbn [bind].
      destruct (scalar_differs_from_default sc z); [rewrite Hok|]; reflexivity.
  - destruct Hfit as [Hk _]. destruct (f_optional f) eqn:Eo; subst kd; [destruct (Hhas eq_refl eq_refl) as [x Hx]; cbn [holds] in *; rewrite Hx; cbn [bind]; destruct x; [rewrite Hok|]; reflexivity|rewrite Hok; reflexivity].
  - destruct Hfit as [Hk _]. destruct (f_optional f) eqn:Eo; subst kd; [destruct (Hhas eq_refl eq_refl) as [x Hx]; cbn [holds] in *; rewrite Hx; cbn [bind]; destruct x; [rewrite Hok|]; reflexivity|rewrite Hok; reflexivity].
  - destruct Hfit as [Hk Ht]. cbn [fits_class] in Ht. subst t. destruct (f_optional f) eqn:Eo; subst kd.
    + destruct (Hhas eq_refl eq_refl) as [x Hx]. cbn [holds] in *. rewrite Hx. cbn [bind]. destruct x; [rewrite Hok|]; reflexivity.
    + cbn [holds]. rewrite Hty, Erd. cbn [bind oty_of var_differs]. cbn [wt_field wt] in Hwv. destruct v as [z| | | |]; try contradiction. cbn [bind].
      destruct (scalar_differs_from_default Enumeration z); [rewrite Hok|]; reflexivity.
  - destruct Hfit as [Hk _]. destruct (f_optional f) eqn:Eo; subst kd; [destruct (Hhas eq_refl eq_refl) as [x Hx]; cbn [holds] in *; rewrite Hx; cbn [bind]; destruct x; [rewrite Hok|]; reflexivity|rewrite Hok; reflexivity].
  - rewrite Hok. reflexivity.
Qed.

Definition stab : list fdesc -> _ := map (fun '(num, k, t) => (num, k, t, serialize t)).
Lemma fields_skip k ob pres vs ovs : holds_value d ob (VM pres vs ovs) -> wt (EMsg fs os) (VM pres vs ovs) -> forall l n fr s, skipn n fields = l -> fr_return fr <> NoErrors ->
  rl k (concat (map (serialize_field None) l)) (fr, ob, s) = Done (false, (fr, ob, s)).
Proof.
  intros Hh Hwt. induction l as [|f l IH]; intros n fr s Hn Hr; [reflexivity|]. destruct (skipn_head _ _ _ _ Hn) as [Hf Hn']. cbn [map concat]. rewrite run_list_app.
  destruct (Forall2_nth _ _ _ _ _ (s_fields _ _ _ Hs) Hf) as ([[num kd] t] & Hd & _). destruct (Forall2_nth _ _ _ _ _ (proj1 (proj2 Hh)) Hf) as (v & Hv & _).
  rewrite (serialize_field_skip k n f num kd t v fr ob pres vs ovs s Hf Hd Hv Hh Hwt Hr). cbn [bind]. apply (IH (Datatypes.S n)); assumption.
Qed.
Lemma fields_run k ob pres vs ovs : holds_value d ob (VM pres vs ovs) -> wt (EMsg fs os) (VM pres vs ovs) -> forall l ds vl n fr s, skipn n fields = l -> skipn n fs = ds -> skipn n vs = vl ->
  fr_return fr = NoErrors -> rel (wrote ob) (rl k (concat (map (serialize_field None) l)) (fr, ob, s)) (fields_serialize (stab ds) (opt_index fs n) pres vl W s).
Proof.
  intros Hh Hwt. induction l as [|f l IH]; intros ds vl n fr s Hn Hn1 Hn2 Hr.
  - assert (length fields = length fs) by (pose proof (s_fields _ _ _ Hs) as H; clear - H; induction H; cbn; congruence).
    assert (length fields = length vs) by (pose proof (proj1 (proj2 Hh)) as H'; clear - H'; induction H'; cbn; congruence).
    assert (Hle : (length fields <= n)%nat) by (apply (f_equal (@length _)) in Hn; rewrite skipn_length in Hn; cbn in Hn; lia).
    rewrite skipn_all2 in Hn1, Hn2 by lia. subst ds vl. cbn [map concat run_list stab fields_serialize rel]. repeat split; auto.
  - destruct (skipn_head _ _ _ _ Hn) as [Hf Hn'].
    destruct (Forall2_nth _ _ _ _ _ (s_fields _ _ _ Hs) Hf) as ([[num kd] t] & Hd & _). destruct (Forall2_nth _ _ _ _ _ (proj1 (proj2 Hh)) Hf) as (v & Hv & _).
    destruct ds as [|x ds]; [apply nth_error_lt in Hd; apply (f_equal (@length _)) in Hn1; rewrite skipn_length in Hn1; cbn in Hn1; lia|].
    destruct vl as [|v' vl]; [apply nth_error_lt in Hv; apply (f_equal (@length _)) in Hn2; rewrite skipn_length in Hn2; cbn in Hn2; lia|].
    destruct (skipn_head _ _ _ _ Hn1) as [Hd' Hn1']. destruct (skipn_head _ _ _ _ Hn2) as [Hv' Hn2']. rewrite Hd in Hd'. injection Hd' as <-. rewrite Hv in Hv'. injection Hv' as <-.
    cbn [map concat stab fields_serialize]. rewrite run_list_app. eapply rel_bind; [eapply serialize_field_run; eassumption|].
    intros [br [[fr' ob'] s']] [e s''] (-> & Hr' & -> & ->). cbn [fst snd] in *. rewrite <- (opt_index_next _ _ _ _ _ Hd).
    destruct (is_ok_dec e) as [->|[He ->]]; cbn [is_ok]; [apply IH; auto|]. rewrite (fields_skip k ob pres vs ovs Hh Hwt l (Datatypes.S n) fr' s'' Hn') by congruence. repeat split; auto.
Qed.

(** ** The oneofs *)

Lemma oneof_run k j o ms w fr ob s : nth_error oneofs j = Some o -> nth_error os j = Some ms -> oneof_held ob o w -> fr_return fr = NoErrors ->
  rel (wrote ob) (rl k (serialize_oneof o) (fr, ob, s))
    (match find_member (map (fun '(num, t) => (num, t, serialize t)) ms) (fst w) with
     | Some (t, ser) => elem_serialize_with_id t ser (snd w) (fst w) true S W s
     | None => Done (NoErrors, s)
     end).
Proof.
  intros Ho Hms Hh Hr. unfold serialize_oneof. rewrite run_list_one. destruct (held_is _ _ _ Hh) as (a & y & Hi & Hv).
  rewrite (run_members _ _ _ Hs _ _ _ _ (serialize_field (Some (fst o))) (snd o) fr ob s (fst w));
    [|eapply members_incl; exact Ho|eapply number_which; exact Hi|intros g _; unfold serialize_field; destruct (f_class g); reflexivity].
  destruct (fits_at _ _ _ Hs _ _ Ho) as (ms' & Ems & Hfit). rewrite Hms in Ems. injection Ems as <-.
  destruct (find_fits _ _ Hfit serialize (fst w)) as [(i & f & t & -> & Hf & Hm & En & Hcl & Hopt & ->)|(-> & -> & _)]; [|cbn [run_list bind rel]; repeat split; auto].
  assert (Hin : In f (snd o)) by (eapply nth_error_In; exact Hf).
  assert (Hrun : rl k (serialize_field (Some (fst o)) f) (fr, ob, s) = rl k [SetReturn (RSerialize (place (Some (fst o)) f) (id_name f) true)] (fr, ob, s)).
  { unfold serialize_field, has_presence. rewrite Hopt. cbn [orb]. destruct (f_class f); try contradiction; rewrite (run_list_one _ _ _ _ (If _ _ _)), run_if; unfold true_now; cbn [holds];
      rewrite (has_member_call _ _ _ _ _ _ _ Ho Hin Hi), En, Z.eqb_refl; cbn [bind]; rewrite (true_ok fr ob Hr : holds c (call_has c) fr ob ok = _); reflexivity. }
  rewrite Hrun, run_list_one, run_return. cbn [result_of]. rewrite (member_type _ _ _ Hs _ _ _ _ _ _ _ Ho Hms Hf Hm), (read_member _ _ _ _ _ _ Hi), (id_value _ _ _ Hs f) by (eapply oneof_In; eassumption).
  cbn [bind var_serialize]. rewrite (Hv f Hin En), En. destruct (elem_serialize_with_id t (serialize t) (snd w) (fst w) true S W s) as [[e s']| |]; cbn [bind rel]; auto. repeat split; reflexivity.
Qed.
Lemma oneof_skip k j o w fr ob s : nth_error oneofs j = Some o -> oneof_held ob o w -> fr_return fr <> NoErrors -> rl k (serialize_oneof o) (fr, ob, s) = Done (false, (fr, ob, s)).
Proof.
  intros Ho Hh Hr. unfold serialize_oneof. rewrite run_list_one. destruct (held_is _ _ _ Hh) as (a & y & Hi & Hv).
  rewrite (run_members _ _ _ Hs _ _ _ _ (serialize_field (Some (fst o))) (snd o) fr ob s (fst w));
    [|eapply members_incl; exact Ho|eapply number_which; exact Hi|intros g _; unfold serialize_field; destruct (f_class g); reflexivity].
  destruct (fits_at _ _ _ Hs _ _ Ho) as (ms & _ & Hfit).
  destruct (find_fits _ _ Hfit serialize (fst w)) as [(i & f & t & -> & Hf & Hm & En & Hcl & Hopt & _)|(-> & _)]; [|reflexivity].
  assert (Hin : In f (snd o)) by (eapply nth_error_In; exact Hf).
  unfold serialize_field, has_presence. rewrite Hopt. cbn [orb]. destruct (f_class f); try contradiction; rewrite (run_list_one _ _ _ _ (If _ _ _)), run_if; unfold true_now; cbn [holds];
    rewrite (has_member_call _ _ _ _ _ _ _ Ho Hin Hi), En, Z.eqb_refl; cbn [bind]; rewrite (false_ok fr ob Hr : holds c (call_has c) fr ob ok = _); reflexivity.
Qed.
Definition sotab : list odesc -> _ := map (map (fun '(num, t) => (num, t, serialize t))).
Lemma oneofs_skip k ob ovs : Forall2 (oneof_held ob) oneofs ovs -> forall l n fr s, skipn n oneofs = l -> fr_return fr <> NoErrors ->
  rl k (concat (map serialize_oneof l)) (fr, ob, s) = Done (false, (fr, ob, s)).
Proof.
  intros Hh. induction l as [|o l IH]; intros n fr s Hn Hr; [reflexivity|]. destruct (skipn_head _ _ _ _ Hn) as [Ho Hn']. cbn [map concat]. rewrite run_list_app.
  destruct (Forall2_nth _ _ _ _ _ Hh Ho) as (w & _ & Hw). rewrite (oneof_skip k n o w fr ob s Ho Hw Hr). cbn [bind]. apply (IH (Datatypes.S n)); assumption.
Qed.
Lemma oneofs_run k ob ovs : Forall2 (oneof_held ob) oneofs ovs -> forall l ds vl n fr s, skipn n oneofs = l -> skipn n os = ds -> skipn n ovs = vl -> fr_return fr = NoErrors ->
  rel (wrote ob) (rl k (concat (map serialize_oneof l)) (fr, ob, s)) (oneofs_serialize (sotab ds) vl W s).
Proof.
  intros Hh. induction l as [|o l IH]; intros ds vl n fr s Hn Hn1 Hn2 Hr.
  - assert (length oneofs = length os) by (pose proof (s_oneofs _ _ _ Hs) as H; clear - H; induction H; cbn; congruence).
    assert (length oneofs = length ovs) by (clear - Hh; induction Hh; cbn; congruence).
    assert (Hle : (length oneofs <= n)%nat) by (apply (f_equal (@length _)) in Hn; rewrite skipn_length in Hn; cbn in Hn; lia).
    rewrite skipn_all2 in Hn1, Hn2 by lia. subst ds vl. cbn [map concat run_list sotab oneofs_serialize rel]. repeat split; auto.
  - destruct (skipn_head _ _ _ _ Hn) as [Ho Hn'].
    destruct (Forall2_nth _ _ _ _ _ (s_oneofs _ _ _ Hs) Ho) as (ms & Hms & _). destruct (Forall2_nth _ _ _ _ _ Hh Ho) as (w & Hw & Hhw).
    destruct ds as [|x ds]; [apply nth_error_lt in Hms; apply (f_equal (@length _)) in Hn1; rewrite skipn_length in Hn1; cbn in Hn1; lia|].
    destruct vl as [|v' vl]; [apply nth_error_lt in Hw; apply (f_equal (@length _)) in Hn2; rewrite skipn_length in Hn2; cbn in Hn2; lia|].
    destruct (skipn_head _ _ _ _ Hn1) as [Hd' Hn1']. destruct (skipn_head _ _ _ _ Hn2) as [Hv' Hn2']. rewrite Hms in Hd'. injection Hd' as <-. rewrite Hw in Hv'. injection Hv' as <-.
    cbn [map concat sotab oneofs_serialize]. destruct w as [which v]. rewrite run_list_app. eapply rel_bind; [apply (oneof_run k n o ms (which, v) fr ob s Ho Hms Hhw Hr)|].
    intros [br [[fr' ob'] s']] [e s''] (-> & Hr' & -> & ->). cbn [fst snd] in *.
    destruct (is_ok_dec e) as [->|[He ->]]; cbn [is_ok]; [apply (IH ds vl (Datatypes.S n)); auto|]. rewrite (oneofs_skip k ob ovs Hh l (Datatypes.S n) fr' s'' Hn') by congruence. repeat split; auto.
Qed.

Lemma code_serialize_eq ob v s : wt (EMsg fs os) v -> holds_value d ob v -> code_serialize d fs os ob S W s = serialize (EMsg fs os) v S W s.
Proof.
  intros Hwt Hh. destruct v as [| | | |pres vs ovs]; try contradiction. unfold code_serialize, execute, serialize_body. rewrite run_list_app. cbn [serialize msg_serialize].
  pose proof (fields_run 4 ob pres vs ovs Hh Hwt fields fs vs 0 no_frame s eq_refl eq_refl eq_refl eq_refl) as H. cbn [opt_index] in H.
  replace (opt_index fs 0) with 0 in H by (destruct fs as [|[[? ?] ?] ?]; reflexivity). fold stab. fold sotab.
  destruct (rl 4 (concat (map (serialize_field None) fields)) (no_frame, ob, s)) as [[br [[fr ob'] s']]| |], (fields_serialize (stab fs) 0 pres vs W s) as [[e s'']| |];
    cbn [rel wrote] in H; try contradiction; cbn [bind]; try reflexivity. destruct H as (-> & Hr & -> & ->). cbn [fst snd] in *.
  destruct (is_ok_dec e) as [->|[He ->]]; cbn [is_ok].
  - pose proof (oneofs_run 4 ob ovs (proj2 (proj2 Hh)) oneofs os ovs 0 fr s'' eq_refl eq_refl eq_refl Hr) as H.
    destruct (rl 4 (concat (map serialize_oneof oneofs)) (fr, ob, s'')) as [[br [[fr' ob'] s3]]| |], (oneofs_serialize (sotab os) ovs W s'') as [[e s4]| |];
      cbn [rel wrote] in H; try contradiction; cbn [bind]; try reflexivity. destruct H as (-> & Hr' & -> & ->). cbn [fst snd] in *. rewrite Hr'. reflexivity.
  - rewrite (oneofs_skip 4 ob ovs (proj2 (proj2 Hh)) oneofs 0 fr s'' eq_refl) by congruence. cbn [bind]. rewrite Hr. reflexivity.
Qed.
End Serialize.
End Class.
