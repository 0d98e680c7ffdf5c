(** * ProgramsProofs: programs with different versions of the .proto files (C93). *)
From Coq Require Import String.
From Verif Require Import Base Buffers Wire Schema Fields Message Api Spec SpecRetype SpecVersions SpecMerge SpecApi SpecHistory Contracts Printf Generator SpecGenerator SpecInstance GenMembers SpecMembers
  GenReg GenRender GenOrder GenTypes GenInstance GenBody SpecBody SpecEvolve SpecUpdate SpecTalk SpecPrograms
  BufferProofs Struct Tables ReadAny DecodeProofs DecodeProps SerProofs SerProps ClearProofs TidyProofs ApiProofs ApiProps CleanProofs HistoryProps MalformedProps VersionProofs MergeProofs MergeLaws
  ReadTotal TalkProofs UpdateProofs GenBodySound GenBodyObject EvolveProofs.
From Coq Require Import List ZifyBool ZifyNat Lia.

(** ** Types of messages that can be sent are compatible *)

Section InStep.
Context (same : path -> path -> Prop) (old new : list pfile) (Hu : in_step same old new) (Hl : legal old) (Hl' : legal new) (Hr : references old) (Hr' : references new).

Lemma type_compatible m m' g g' lengths lengths' e e' : kept_type same (pf_type g) (pf_type g') ->
  (forall T T' lengths lengths', same T T' -> is_declared old lengths T e -> is_declared new lengths' T' e' -> compatible e e') ->
  declared_type (is_declared old) lengths m g e -> declared_type (is_declared new) lengths' m' g' e' -> compatible e e'.
Proof.
  intros Hk IH Hd Hd'. unfold kept_type in Hk. destruct Hd as [sc E|E|E|T E|T e E Hd]; rewrite E in Hk; destruct Hd' as [sc' E'|E'|E'|T' E'|T' e' E' Hd']; rewrite E' in Hk;
    try contradiction; try (constructor; first [exact Hk|reflexivity]).
  eapply IH; eassumption.
Qed.

Lemma in_step_compatible : forall t t' lengths lengths' s s', same s s' -> is_declared old lengths s t -> is_declared new lengths' s' t' -> compatible t t'.
Proof.
  induction t as [sc|st max|fs os Hf Ho] using ety_ind'; intros t' lengths lengths' s s' Hs Hd Hd'; [inversion Hd|inversion Hd|].
  inversion Hd as [l1 s1 m fs1 os1 Hm Hfs Hos]; subst. inversion Hd' as [l2 s2 m' fs' os' Hm' Hfs' Hos']; subst.
  pose proof (Hu _ _ _ _ Hs Hm Hm') as HA.
  assert (IH : forall num k e, In (num, k, e) (all_fields fs os) -> forall e' T T' lengths lengths', same T T' -> is_declared old lengths T e -> is_declared new lengths' T' e' -> compatible e e').
  { intros num k e Hin e' T T' l l' HT H1 H2. unfold all_fields in Hin. apply in_app_or in Hin. destruct Hin as [Hin|Hin].
    - rewrite Forall_forall in Hf. specialize (Hf _ Hin). cbn in Hf. eapply Hf; eassumption.
    - apply in_flat_map in Hin. destruct Hin as (ms & Hms & Hin). apply in_map_iff in Hin. destruct Hin as ([num' e0] & E & Hin). injection E as -> <- ->.
      rewrite Forall_forall in Ho. specialize (Ho _ Hms). rewrite Forall_forall in Ho. specialize (Ho _ Hin). cbn in Ho. eapply Ho; eassumption. }
  constructor. intros num k e k' e' Hin Hin'.
  destruct (declared_entry _ _ _ _ _ _ _ _ _ Hl Hr Hm Hfs Hos Hin Hd) as (g & Hg & En & C). destruct (declared_entry _ _ _ _ _ _ _ _ _ Hl' Hr' Hm' Hfs' Hos' Hin' Hd') as (g' & Hg' & En' & C').
  destruct (HA g g' Hg Hg' ltac:(congruence)) as (Er & Hk & Hrf). specialize (IH _ _ _ Hin e').
  destruct C as [(C1 & -> & ->)|(C1 & C0 & C2)], C' as [(C1' & -> & ->)|(C1' & C0' & C2')].
  + split; [exact I|]. constructor; cbn; tauto.
  + tauto.
  + tauto.
  + split; [|eapply type_compatible; eassumption].
    destruct C2 as [(B1 & n & ->)|(B1 & [->| ->])], C2' as [(B1' & n' & ->)|(B1' & [->| ->])]; try exact I; congruence.
Qed.
End InStep.

Lemma made_desc c : made_ok c -> desc_ok (c_type c).
Proof. intros [H Hl]. eapply class_desc; [eapply class_at_for; exact H|exact Hl]. Qed.
Lemma made_class c : made_ok c -> class_for (c_request c) (c_lengths c) (c_def c) (c_fields c) (c_oneofs c).
Proof. intros [H _]. eapply class_at_for; exact H. Qed.
Lemma understands_compatible c c' : made_ok c -> made_ok c' -> understands c c' -> compatible (c_type c) (c_type c').
Proof.
  intros [H Hl] [H' Hl'] (same & Hu & Hs). destruct (class_at_declared _ _ _ _ _ _ H) as [Hp Hd], (class_at_declared _ _ _ _ _ _ H') as [Hp' Hd'].
  destruct Hp as (H1 & _ & H2 & _), Hp' as (H1' & _ & H2' & _). eapply in_step_compatible; eassumption.
Qed.

(** ** One event *)

(** The object has the content [v], which shows what is known. *)
Definition has_content (c : made) (ob : object) (v : value) : Prop := good_object (c_type c) v /\ holds_value (c_def c) ob v.

Lemma call_step c u o ob v x e y fuel : made_ok c -> has_content c ob v -> view (c_type c) v = x -> stands_for (c_def c) (c_fields c) (c_oneofs c) u o ->
  op_ok (OElem (c_type c)) o -> keeps_lists (OElem (c_type c)) x o -> effect (OElem (c_type c)) x o = Some (e, y) ->
  exists ob' v', user_run fuel (c_def c) (c_fields c) (c_oneofs c) u ob = Done ob' /\ has_content c ob' v' /\ view (c_type c) v' = y.
Proof.
  intros Hc ((Hw & Ht & Hcl) & Hh) Hx Hsf Ho Hk He. pose proof (made_desc _ Hc) as Hd.
  pose proof (op_safe fuel o (OElem (c_type c)) v Hd Hw Ht Ho) as Hp. unfold op_post in Hp.
  pose proof (class_calls _ _ _ _ _ (made_class _ Hc) fuel u o ob v Hsf Hh) as H. fold (c_type c) in H.
  destruct (run_op fuel o (OElem (c_type c)) v) as [[e' v']| |] eqn:Er; [|contradiction|exfalso; eapply effect_no_decode; eassumption].
  specialize (H ltac:(discriminate)). cbn [bind] in H. destruct (user_run fuel (c_def c) (c_fields c) (c_oneofs c) u ob) as [ob'| |]; try contradiction. cbn [same_object] in H.
  destruct (call_effect _ _ _ _ _ _ _ _ _ Hd Hw Ht Ho Hx He Er) as (_ & Hy & Hw' & Ht').
  pose proof (op_clean _ o (OElem (c_type c)) v _ _ Hd Hw Ht Ho Hcl ltac:(cbn [oview]; rewrite Hx; exact Hk) Er) as Hc'.
  exists ob', v'. split; [reflexivity|]. split; [|exact Hy]. split; [|exact H]. split; [exact Hw'|]. split; assumption.
Qed.

Lemma clear_step c ob v fuel : made_ok c -> has_content c ob v ->
  exists ob' v', user_run fuel (c_def c) (c_fields c) (c_oneofs c) UClear ob = Done ob' /\ has_content c ob' v' /\ view (c_type c) v' = sdefault (c_type c).
Proof. intros Hc Hh. eapply (call_step c UClear OpClear); try eassumption; try reflexivity; try exact I. constructor. Qed.

Lemma copy_step c ob1 v1 ob2 v2 : made_ok c -> has_content c ob1 v1 -> has_content c ob2 v2 -> no_shorter (c_type c) (view (c_type c) v2) (view (c_type c) v1) ->
  exists ob' v', code_assign (c_def c) (c_fields c) (c_oneofs c) ob2 ob1 = Done ob' /\ has_content c ob' v' /\ view (c_type c) v' = view (c_type c) v1.
Proof.
  intros Hc Hh1 Hh2 Hn. eapply (call_step c (UAssign ob1) (OpAssign v1) ob2 v2 _ NoErrors (view (c_type c) v1) 0); try eassumption; try reflexivity.
  - constructor. apply Hh1.
  - apply Hh1.
Qed.

Lemma sends_bytes c ob v bytes : made_ok c -> has_content c ob v -> zlen (enc (c_type c) (view (c_type c) v)) < 2 ^ 31 -> code_sends c ob bytes -> bytes = enc (c_type c) (view (c_type c) v).
Proof.
  intros Hc ((Hw & _ & _) & Hh) Hz (cap & b & Hcap & E & Eb). rewrite (class_serialize _ _ _ _ _ (made_class _ Hc) ob v _ _ _ Hw Hh) in E.
  eapply (sends_enc (c_fields c) (c_oneofs c) v); [exact (made_desc _ Hc)|exact Hw|fold (c_type c); lia|]. exists cap, b. auto.
Qed.
Lemma code_sends_exists c ob v : made_ok c -> has_content c ob v -> zlen (enc (c_type c) (view (c_type c) v)) < 2 ^ 31 -> exists bytes, code_sends c ob bytes.
Proof.
  intros Hc ((Hw & _ & _) & Hh) Hz. destruct (sends_exists (c_fields c) (c_oneofs c) v (made_desc _ Hc) Hw Hz) as (bytes & cap & b & Hcap & E & Eb).
  exists bytes, cap, b. split; [exact Hcap|]. split; [|exact Eb]. rewrite (class_serialize _ _ _ _ _ (made_class _ Hc) ob v _ _ _ Hw Hh). exact E.
Qed.

Definition outcome_of (t' : ety) (w : option sval) (e : err) (v' : value) : Prop := match w with Some w => e = NoErrors /\ view t' v' = w | None => e = ArrayFull end.
Lemma update_value c c' v v0 : made_ok c -> made_ok c' -> compatible (c_type c) (c_type c') -> good_object (c_type c) v -> good_object (c_type c') v0 ->
  zlen (enc (c_type c) (view (c_type c) v)) < 2 ^ 31 ->
  forall S (R : rops S) rel, reader_ok R rel -> forall s, rel s (enc (c_type c) (view (c_type c) v)) -> forall fuel, (length (enc (c_type c) (view (c_type c) v)) < fuel)%nat ->
  exists e v' s', deserialize fuel (c_type c') S R v0 s = Done (e, v', s') /\ good_object (c_type c') v'
    /\ outcome_of (c_type c') (SpecUpdate.updated (c_type c) (c_type c') (view (c_type c') v0) (norm (c_type c) (view (c_type c) v))) e v'.
Proof.
  intros Hc Hc' Hcomp (Hw & _ & _) (Hw0 & Ht0 & Hc0) Hz S R rel ok s Hs fuel Hfu. pose proof (made_desc _ Hc) as Hd. pose proof (made_desc _ Hc') as Hd'.
  pose proof (message_upd false (c_fields c) (c_oneofs c) (c_fields c') (c_oneofs c') v (view (c_type c') v0) ltac:(apply Forall_forall; intros; apply upd_all)
    ltac:(apply Forall_forall; intros; apply Forall_forall; intros; apply upd_all) Hcomp Hw (ex_intro _ v0 (conj Hw0 eq_refl)) Hd Hd' ltac:(fold (c_type c); lia)) as H.
  cbv zeta in H. fold (c_type c) (c_type c') in H. unfold outcome in H.
  destruct (SpecUpdate.updated (c_type c) (c_type c') (view (c_type c') v0) (norm (c_type c) (view (c_type c) v))) as [w|]; cbn [okb val] in H.
  - destruct (decode_reads _ _ v0 false false _ _ _ _ Hd' Hw0 Hc0 H S R rel ok ltac:(discriminate) s Hs fuel Hfu) as (v' & s' & E' & _ & Hw' & Hc'' & _ & Hv).
    exists NoErrors, v', s'. split; [exact E'|]. split; [|split; [reflexivity|exact (Hv (or_intror eq_refl))]]. split; [exact Hw'|]. split; [eapply deserialize_tidy; eauto|exact Hc''].
  - destruct H as (n0 & r & H). destruct (decode_reads _ _ v0 false false _ _ _ _ Hd' Hw0 Hc0 H S R rel ok ltac:(discriminate) s Hs fuel Hfu) as (v' & s' & E' & _ & Hw' & Hc'' & _).
    exists ArrayFull, v', s'. split; [exact E'|]. split; [|reflexivity]. split; [exact Hw'|]. split; [eapply deserialize_tidy; eauto|exact Hc''].
Qed.

Lemma receive_step c c' ob v ob0 v0 bytes e ob' : made_ok c -> made_ok c' -> understands c c' -> has_content c ob v -> has_content c' ob0 v0 ->
  zlen (enc (c_type c) (view (c_type c) v)) < 2 ^ 31 -> code_sends c ob bytes -> code_receives c' ob0 bytes e ob' ->
  exists v', has_content c' ob' v' /\ outcome_of (c_type c') (SpecUpdate.updated (c_type c) (c_type c') (view (c_type c') v0) (norm (c_type c) (view (c_type c) v))) e v'.
Proof.
  intros Hc Hc' Hun Hh (Hg0 & Hh0) Hz Hse (S & R & rel & s & fuel & s' & ok & Hs & Hfu & E). rewrite (sends_bytes _ _ _ _ Hc Hh Hz Hse) in *.
  destruct (update_value c c' v v0 Hc Hc' (understands_compatible _ _ Hc Hc' Hun) (proj1 Hh) Hg0 Hz S R rel ok s Hs fuel Hfu) as (e1 & v' & s1 & E1 & Hg' & Ho).
  pose proof (class_deserialize _ _ _ _ _ (made_class _ Hc') fuel ob0 v0 S R s Hh0) as H. fold (c_type c') in H. rewrite E1 in H. specialize (H ltac:(discriminate)). rewrite E in H.
  cbn [same_end] in H. destruct H as (-> & _ & Hh'). exists v'. split; [split; assumption|exact Ho].
Qed.
Lemma receive_exists c c' ob v ob0 v0 bytes : made_ok c -> made_ok c' -> understands c c' -> has_content c ob v -> has_content c' ob0 v0 ->
  zlen (enc (c_type c) (view (c_type c) v)) < 2 ^ 31 -> code_sends c ob bytes -> exists e ob', code_receives c' ob0 bytes e ob'.
Proof.
  intros Hc Hc' Hun Hh (Hg0 & Hh0) Hz Hse. rewrite (sends_bytes _ _ _ _ Hc Hh Hz Hse) in *.
  assert (Hb : Forall is_byte (enc (c_type c) (view (c_type c) v))) by (apply enc_bytes; [apply Hh|now apply made_desc|lia]).
  destruct (update_value c c' v v0 Hc Hc' (understands_compatible _ _ Hc Hc' Hun) (proj1 Hh) Hg0 Hz (list Z) lops lrel lops_ok _ (conj eq_refl Hb) _ (Nat.lt_succ_diag_r _)) as (e1 & v' & s1 & E1 & Hg' & Ho).
  pose proof (class_deserialize _ _ _ _ _ (made_class _ Hc') (S (length (enc (c_type c) (view (c_type c) v)))) ob0 v0 _ lops (enc (c_type c) (view (c_type c) v)) Hh0) as H. fold (c_type c') in H. rewrite E1 in H. specialize (H ltac:(discriminate)).
  destruct (code_deserialize _ _ _ _ lops ob0 _) as [[[e2 ob'] s2]| |] eqn:E2 in H; try contradiction.
  exists e2, ob', (list Z), lops, lrel, (enc (c_type c) (view (c_type c) v)), (S (length (enc (c_type c) (view (c_type c) v)))), s2.
  split; [exact lops_ok|]. split; [split; [reflexivity|exact Hb]|]. split; [lia|exact E2].
Qed.

(** ** All events *)

Definition inv (cs : list made) (st : list (option sval)) (obs : list object) : Prop :=
  length obs = length cs /\ length st = length cs
  /\ forall i c k ob, nth_error cs i = Some c -> nth_error st i = Some k -> nth_error obs i = Some ob ->
       exists v, has_content c ob v /\ forall x, k = Some x -> view (c_type c) v = x.

Lemma nth_upd_same {A} i (x : A) l y : nth_error (upd i x l) i = Some y -> y = x.
Proof. revert i. induction l as [|a l IH]; intros [|i] H; cbn in *; try discriminate; [congruence|]. eauto. Qed.
Lemma nth_upd_other {A} i j (x : A) l : i <> j -> nth_error (upd i x l) j = nth_error l j.
Proof. revert i j. induction l as [|a l IH]; intros [|i] [|j] H; cbn; try reflexivity; [congruence|]. apply IH. congruence. Qed.
Lemma upd_len {A} i (x : A) l : length (upd i x l) = length l.
Proof. revert i. induction l as [|a l IH]; intros [|i]; cbn; auto. Qed.

Lemma inv_upd cs st obs i c k ob v : inv cs st obs -> nth_error cs i = Some c -> has_content c ob v -> (forall x, k = Some x -> view (c_type c) v = x) ->
  inv cs (upd i k st) (upd i ob obs).
Proof.
  intros (H1 & H2 & H3) Hc Hh Hk. split; [now rewrite upd_len|]. split; [now rewrite upd_len|]. intros j c' k' ob' Ej Ek Eo.
  destruct (Nat.eq_dec i j) as [<-|Hn].
  - apply nth_upd_same in Ek, Eo. subst k' ob'. assert (c' = c) by congruence. subst c'. exists v. auto.
  - rewrite nth_upd_other in Ek by assumption. rewrite nth_upd_other in Eo by assumption. eauto.
Qed.
Lemma inv_at cs st obs i c : inv cs st obs -> nth_error cs i = Some c -> exists k ob v, nth_error st i = Some k /\ nth_error obs i = Some ob /\ has_content c ob v /\ forall x, k = Some x -> view (c_type c) v = x.
Proof.
  intros (H1 & H2 & H3) Hc. assert (Hi : (i < length cs)%nat) by (apply nth_error_Some; congruence).
  destruct (nth_error st i) as [k|] eqn:Ek; [|apply nth_error_None in Ek; lia]. destruct (nth_error obs i) as [ob|] eqn:Eo; [|apply nth_error_None in Eo; lia].
  destruct (H3 _ _ _ _ Hc Ek Eo) as (v & H). exists k, ob, v. tauto.
Qed.
Lemma made_at cs i c : Forall made_ok cs -> nth_error cs i = Some c -> made_ok c.
Proof. intros H E. eapply Forall_at; eassumption. Qed.

Ltac at_object i Hcs Hinv Hci k ob v Ek Eo Hh Hk := destruct (inv_at _ _ _ _ _ Hinv Hci) as (k & ob & v & Ek & Eo & Hh & Hk).

Lemma programs_right cs : Forall made_ok cs -> forall st evs known st', expected cs st evs known st' ->
  forall obs answers obs', inv cs st obs -> happens cs obs evs answers obs' -> right (fun e => e) known answers /\ inv cs st' obs'.
Proof.
  intros Hcs st evs known st' Hex.
  induction Hex as [st|st i c u o x e y evs ans st' Hci Hi Hsf Ho Hk He Hex IH|st i c evs ans st' Hci Hi Hex IH|st i j c x y evs ans st' Hij Hci Hcj Hi Hj Hn Hex IH
    |st i j c1 c2 x y w evs ans st' Hci Hcj Hun Hi Hj Hz Hup Hex IH|st i j c1 c2 x y evs ans st' Hci Hcj Hun Hi Hj Hz Hup Hex IH|st i j c1 c2 x evs ans st' Hci Hcj Hun Hi Hj Hz Hex IH];
    intros obs answers obs' Hinv Hha; inversion Hha; subst; clear Hha.
  - split; [constructor|exact Hinv].
  - at_object i Hcs Hinv Hci k0 ob0 v0 Ek Eo Hh Hkn. assert (k0 = Some x) by congruence. subst k0. specialize (Hkn _ eq_refl).
    replace c0 with c in * by congruence. replace ob with ob0 in * by congruence.
    destruct (call_step c u o ob0 v0 x e y fuel (made_at _ _ _ Hcs Hci) Hh Hkn Hsf Ho Hk He) as (ob1 & v1 & E1 & Hh1 & Hy). replace ob' with ob1 in * by congruence.
    eapply IH; [|eassumption]. eapply inv_upd; eauto. now intros ? [= <-].
  - at_object i Hcs Hinv Hci k0 ob0 v0 Ek Eo Hh Hkn. replace c0 with c in * by congruence. replace ob with ob0 in * by congruence.
    destruct (clear_step c ob0 v0 fuel (made_at _ _ _ Hcs Hci) Hh) as (ob1 & v1 & E1 & Hh1 & Hy). replace ob' with ob1 in * by congruence.
    eapply IH; [|eassumption]. eapply inv_upd; eauto. now intros ? [= <-].
  - at_object i Hcs Hinv Hci k1 o1 v1 Ek1 Eo1 Hh1 Hkn1. at_object j Hcs Hinv Hcj k2 o2 v2 Ek2 Eo2 Hh2 Hkn2.
    assert (k1 = Some x) by congruence. subst k1. specialize (Hkn1 _ eq_refl). assert (k2 = Some y) by congruence. subst k2. specialize (Hkn2 _ eq_refl).
    replace c0 with c in * by congruence. replace ob1 with o1 in * by congruence. replace ob2 with o2 in * by congruence.
    destruct (copy_step c o1 v1 o2 v2 (made_at _ _ _ Hcs Hcj) Hh1 Hh2 ltac:(rewrite Hkn1, Hkn2; exact Hn)) as (o3 & v3 & E3 & Hh3 & Hy). replace ob' with o3 in * by congruence.
    eapply IH; [|eassumption]. eapply inv_upd; eauto. intros ? [= <-]. congruence.
  - at_object i Hcs Hinv Hci k1 o1 v1 Ek1 Eo1 Hh1 Hkn1. at_object j Hcs Hinv Hcj k2 o2 v2 Ek2 Eo2 Hh2 Hkn2.
    assert (k1 = Some x) by congruence. subst k1. specialize (Hkn1 _ eq_refl). assert (k2 = Some y) by congruence. subst k2. specialize (Hkn2 _ eq_refl).
    replace c0 with c1 in * by congruence. replace c3 with c2 in * by congruence. replace ob1 with o1 in * by congruence. replace ob2 with o2 in * by congruence. subst x y.
    destruct (receive_step c1 c2 o1 v1 o2 v2 bytes e ob' (made_at _ _ _ Hcs Hci) (made_at _ _ _ Hcs Hcj) Hun Hh1 Hh2 Hz ltac:(assumption) ltac:(assumption)) as (v3 & Hh3 & Hout).
    rewrite Hup in Hout. cbn [outcome_of] in Hout. destruct Hout as [-> Hv3].
    match goal with H : happens _ (upd _ _ _) _ _ _ |- _ => destruct (IH _ _ _ (inv_upd _ _ _ j _ (Some w) _ _ Hinv Hcj Hh3 ltac:(now intros ? [= <-])) H) as [A B] end.
    split; [|exact B]. constructor; [|exact A]. now intros ? [= <-].
  - at_object i Hcs Hinv Hci k1 o1 v1 Ek1 Eo1 Hh1 Hkn1. at_object j Hcs Hinv Hcj k2 o2 v2 Ek2 Eo2 Hh2 Hkn2.
    assert (k1 = Some x) by congruence. subst k1. specialize (Hkn1 _ eq_refl). assert (k2 = Some y) by congruence. subst k2. specialize (Hkn2 _ eq_refl).
    replace c0 with c1 in * by congruence. replace c3 with c2 in * by congruence. replace ob1 with o1 in * by congruence. replace ob2 with o2 in * by congruence. subst x y.
    destruct (receive_step c1 c2 o1 v1 o2 v2 bytes e ob' (made_at _ _ _ Hcs Hci) (made_at _ _ _ Hcs Hcj) Hun Hh1 Hh2 Hz ltac:(assumption) ltac:(assumption)) as (v3 & Hh3 & Hout).
    rewrite Hup in Hout. cbn [outcome_of] in Hout. subst e.
    match goal with H : happens _ (upd _ _ _) _ _ _ |- _ => destruct (IH _ _ _ (inv_upd _ _ _ j _ None _ _ Hinv Hcj Hh3 ltac:(discriminate)) H) as [A B] end.
    split; [|exact B]. constructor; [|exact A]. now intros ? [= <-].
  - at_object i Hcs Hinv Hci k1 o1 v1 Ek1 Eo1 Hh1 Hkn1. at_object j Hcs Hinv Hcj k2 o2 v2 Ek2 Eo2 Hh2 Hkn2.
    assert (k1 = Some x) by congruence. subst k1. specialize (Hkn1 _ eq_refl).
    replace c0 with c1 in * by congruence. replace c3 with c2 in * by congruence. replace ob1 with o1 in * by congruence. replace ob2 with o2 in * by congruence. subst x.
    destruct (receive_step c1 c2 o1 v1 o2 v2 bytes e ob' (made_at _ _ _ Hcs Hci) (made_at _ _ _ Hcs Hcj) Hun Hh1 Hh2 Hz ltac:(assumption) ltac:(assumption)) as (v3 & Hh3 & Hout).
    assert (Hu : upd j None st = st).
    { clear - Hj. revert st Hj. induction j as [|j IHj]; intros [|a st] Hj; cbn in *; try discriminate; [congruence|]. f_equal. auto. }
    match goal with H : happens _ (upd _ _ _) _ _ _ |- _ => destruct (IH _ _ _ ltac:(rewrite <- Hu; exact (inv_upd _ _ _ j _ None _ _ Hinv Hcj Hh3 ltac:(discriminate))) H) as [A B] end.
    split; [|exact B]. constructor; [|exact A]. discriminate.
Qed.

Lemma programs_happen cs : Forall made_ok cs -> forall st evs known st', expected cs st evs known st' ->
  forall obs, inv cs st obs -> exists answers obs', happens cs obs evs answers obs'.
Proof.
  intros Hcs st evs known st' Hex.
  induction Hex as [st|st i c u o x e y evs ans st' Hci Hi Hsf Ho Hk He Hex IH|st i c evs ans st' Hci Hi Hex IH|st i j c x y evs ans st' Hij Hci Hcj Hi Hj Hn Hex IH
    |st i j c1 c2 x y w evs ans st' Hci Hcj Hun Hi Hj Hz Hup Hex IH|st i j c1 c2 x y evs ans st' Hci Hcj Hun Hi Hj Hz Hup Hex IH|st i j c1 c2 x evs ans st' Hci Hcj Hun Hi Hj Hz Hex IH];
    intros obs Hinv.
  - exists [], obs. constructor.
  - at_object i Hcs Hinv Hci k0 ob0 v0 Ek Eo Hh Hkn. assert (k0 = Some x) by congruence. subst k0. specialize (Hkn _ eq_refl).
    destruct (call_step c u o ob0 v0 x e y 0 (made_at _ _ _ Hcs Hci) Hh Hkn Hsf Ho Hk He) as (ob1 & v1 & E1 & Hh1 & Hy).
    destruct (IH (upd i ob1 obs)) as (an & os' & H); [eapply inv_upd; eauto; now intros ? [= <-]|]. exists an, os'. econstructor; eassumption.
  - at_object i Hcs Hinv Hci k0 ob0 v0 Ek Eo Hh Hkn.
    destruct (clear_step c ob0 v0 0 (made_at _ _ _ Hcs Hci) Hh) as (ob1 & v1 & E1 & Hh1 & Hy).
    destruct (IH (upd i ob1 obs)) as (an & os' & H); [eapply inv_upd; eauto; now intros ? [= <-]|]. exists an, os'. econstructor; eassumption.
  - at_object i Hcs Hinv Hci k1 o1 v1 Ek1 Eo1 Hh1 Hkn1. at_object j Hcs Hinv Hcj k2 o2 v2 Ek2 Eo2 Hh2 Hkn2.
    assert (k1 = Some x) by congruence. subst k1. specialize (Hkn1 _ eq_refl). assert (k2 = Some y) by congruence. subst k2. specialize (Hkn2 _ eq_refl).
    destruct (copy_step c o1 v1 o2 v2 (made_at _ _ _ Hcs Hcj) Hh1 Hh2 ltac:(rewrite Hkn1, Hkn2; exact Hn)) as (o3 & v3 & E3 & Hh3 & Hy).
    destruct (IH (upd j o3 obs)) as (an & os' & H); [eapply inv_upd; eauto; intros ? [= <-]; congruence|]. exists an, os'. econstructor; eassumption.
  - at_object i Hcs Hinv Hci k1 o1 v1 Ek1 Eo1 Hh1 Hkn1. at_object j Hcs Hinv Hcj k2 o2 v2 Ek2 Eo2 Hh2 Hkn2.
    assert (k1 = Some x) by congruence. subst k1. specialize (Hkn1 _ eq_refl). assert (k2 = Some y) by congruence. subst k2. specialize (Hkn2 _ eq_refl). subst x y.
    destruct (code_sends_exists c1 o1 v1 (made_at _ _ _ Hcs Hci) Hh1 Hz) as (bytes & Hse).
    destruct (receive_exists c1 c2 o1 v1 o2 v2 bytes (made_at _ _ _ Hcs Hci) (made_at _ _ _ Hcs Hcj) Hun Hh1 Hh2 Hz Hse) as (e & ob' & Hre).
    destruct (receive_step c1 c2 o1 v1 o2 v2 bytes e ob' (made_at _ _ _ Hcs Hci) (made_at _ _ _ Hcs Hcj) Hun Hh1 Hh2 Hz Hse Hre) as (v3 & Hh3 & Hout).
    rewrite Hup in Hout. cbn [outcome_of] in Hout. destruct Hout as [-> Hv3].
    destruct (IH (upd j ob' obs)) as (an & os' & H); [eapply inv_upd; eauto; now intros ? [= <-]|]. eexists (_ :: an), os'. econstructor; eassumption.
  - at_object i Hcs Hinv Hci k1 o1 v1 Ek1 Eo1 Hh1 Hkn1. at_object j Hcs Hinv Hcj k2 o2 v2 Ek2 Eo2 Hh2 Hkn2.
    assert (k1 = Some x) by congruence. subst k1. specialize (Hkn1 _ eq_refl). assert (k2 = Some y) by congruence. subst k2. specialize (Hkn2 _ eq_refl). subst x y.
    destruct (code_sends_exists c1 o1 v1 (made_at _ _ _ Hcs Hci) Hh1 Hz) as (bytes & Hse).
    destruct (receive_exists c1 c2 o1 v1 o2 v2 bytes (made_at _ _ _ Hcs Hci) (made_at _ _ _ Hcs Hcj) Hun Hh1 Hh2 Hz Hse) as (e & ob' & Hre).
    destruct (receive_step c1 c2 o1 v1 o2 v2 bytes e ob' (made_at _ _ _ Hcs Hci) (made_at _ _ _ Hcs Hcj) Hun Hh1 Hh2 Hz Hse Hre) as (v3 & Hh3 & _).
    destruct (IH (upd j ob' obs)) as (an & os' & H); [eapply inv_upd; eauto; discriminate|]. eexists (_ :: an), os'. econstructor; eassumption.
  - at_object i Hcs Hinv Hci k1 o1 v1 Ek1 Eo1 Hh1 Hkn1. at_object j Hcs Hinv Hcj k2 o2 v2 Ek2 Eo2 Hh2 Hkn2.
    assert (k1 = Some x) by congruence. subst k1. specialize (Hkn1 _ eq_refl). subst x.
    destruct (code_sends_exists c1 o1 v1 (made_at _ _ _ Hcs Hci) Hh1 Hz) as (bytes & Hse).
    destruct (receive_exists c1 c2 o1 v1 o2 v2 bytes (made_at _ _ _ Hcs Hci) (made_at _ _ _ Hcs Hcj) Hun Hh1 Hh2 Hz Hse) as (e & ob' & Hre).
    destruct (receive_step c1 c2 o1 v1 o2 v2 bytes e ob' (made_at _ _ _ Hcs Hci) (made_at _ _ _ Hcs Hcj) Hun Hh1 Hh2 Hz Hse Hre) as (v3 & Hh3 & _).
    assert (Hu : upd j None st = st).
    { clear - Hj. revert st Hj. induction j as [|j IHj]; intros [|a st] Hj; cbn in *; try discriminate; [congruence|]. f_equal. auto. }
    destruct (IH (upd j ob' obs)) as (an & os' & H); [rewrite <- Hu; eapply inv_upd; eauto; discriminate|]. eexists (_ :: an), os'. econstructor; eassumption.
Qed.

Lemma inv_new cs : Forall made_ok cs -> inv cs (fresh_contents cs) (fresh_objects cs).
Proof.
  intros Hcs. split; [apply map_length|]. split; [apply map_length|]. intros i c k ob Ec Ek Eo. unfold fresh_contents, fresh_objects in *.
  rewrite nth_error_map, Ec in Ek. rewrite nth_error_map, Ec in Eo. cbn in Ek, Eo. injection Ek as <-. injection Eo as <-. pose proof (made_at _ _ _ Hcs Ec) as Hc. pose proof (made_desc _ Hc) as Hd.
  exists (default_value (c_type c)). split.
  - split; [split; [now apply default_ok|split]; [now apply default_tidy|now apply default_clean]|]. apply (new_holds _ _ _ (class_sound _ _ _ _ _ (made_class _ Hc))).
  - intros x [= <-]. now apply default_ok.
Qed.
Lemma inv_shows cs st obs : Forall made_ok cs -> inv cs st obs -> all_show cs st obs.
Proof.
  intros Hcs (H1 & H2 & H3). split; [exact H1|]. split; [exact H2|]. intros i c x ob Ec Ek Eo. destruct (H3 _ _ _ _ Ec Ek Eo) as (v & ((Hw & _ & _) & Hh) & Hv).
  apply (class_shows _ _ _ _ _ (made_class _ (made_at _ _ _ Hcs Ec)) ob v Hw Hh). symmetry. now apply Hv.
Qed.

Theorem programs_agree : forall cs events known st, Forall made_ok cs -> expected cs (fresh_contents cs) events known st ->
  forall answers obs, happens cs (fresh_objects cs) events answers obs -> right (fun e => e) known answers /\ all_show cs st obs.
Proof. intros cs evs known st Hcs Hex answers obs Hha. destruct (programs_right cs Hcs _ _ _ _ Hex _ _ _ (inv_new cs Hcs) Hha) as [A B]. split; [exact A|now apply inv_shows]. Qed.
Theorem programs_go_on : forall cs events known st, Forall made_ok cs -> expected cs (fresh_contents cs) events known st ->
  exists answers obs, happens cs (fresh_objects cs) events answers obs.
Proof. intros cs evs known st Hcs Hex. exact (programs_happen cs Hcs _ _ _ _ Hex _ (inv_new cs Hcs)). Qed.
