(** * EvolveProofs: the types that two versions of the .proto files declare (C92). *)
From Coq Require Import String.
From Verif Require Import Base Buffers Schema Fields Message Api Spec SpecRetype SpecVersions Contracts Printf Generator SpecGenerator SpecInstance GenMembers SpecMembers
  GenReg GenRender GenOrder GenTypes GenInstance GenBody SpecBody SpecEvolve Struct Tables ReadAny DecodeProofs DecodeProps SerProofs SerProps MalformedProps VersionProofs GenBodySound GenBodyObject.
From Coq Require Import List ZifyBool ZifyNat Lia.

Notation is_declared := SpecInstance.declared.
Notation all_fields := SpecVersions.declared.

Lemma class_at_for request lengths s d fs os : class_at request lengths s d fs os -> class_for request lengths d fs os.
Proof. intros (params & parent & m & -> & -> & H). exists params, parent, m. split; [reflexivity|]. exact H. Qed.
Lemma class_at_declared request lengths s d fs os : class_at request lengths s d fs os -> protoc_ok request /\ is_declared request lengths s (EMsg fs os).
Proof. intros (params & parent & m & -> & -> & H & _ & _ & _ & H'). split; assumption. Qed.

(** ** The fields of a declared message *)

Lemma group_at m l : In l (oneof_groups m) -> exists i, l = filter (in_oneof i) (m_fields m).
Proof. intros H. unfold oneof_groups in H. apply filter_In in H. destruct H as [H _]. apply in_map_iff in H. destruct H as (i & <- & _). exists i. reflexivity. Qed.
Lemma legal_single request s m g i : legal request -> message request s m -> In g (m_fields m) -> in_oneof i g = true -> pf_repeated g = false.
Proof.
  intros Hl Hm Hg Hi. pose proof (legal_message _ _ _ Hl Hm) as H. destruct m as [n nested enums fields oneofs]. cbn [msg_legal] in H. destruct H as (_ & _ & _ & _ & H & _).
  rewrite Forall_forall in H. specialize (H g Hg). unfold in_oneof in Hi. destruct (pf_oneof g); [|discriminate]. destruct (pf_repeated g); [|reflexivity]. discriminate (H eq_refl).
Qed.

(** A message with a member of its own type in a oneof is not declared at all. *)
Lemma no_self_member request : legal request -> forall t lengths s, is_declared request lengths s t ->
  forall m l g, message request s m -> In l (oneof_groups m) -> In g l -> pf_type g <> PMessage s.
Proof.
  intros Hl. induction t as [sc|st max|fs os Hf Ho] using ety_ind'; intros lengths s Hd m l g Hm Hin Hg E; [inversion Hd|inversion Hd|].
  inversion Hd as [l1 s1 m1 fs1 os1 Hm1 Hfs Hos]; subst. rewrite (message_unique _ _ _ _ Hl Hm1 Hm) in *.
  destruct (Forall2_In_l _ _ _ _ Hos Hin) as (ms & Hms & Hl2). destruct (Forall2_In_l _ _ _ _ Hl2 Hg) as ([n e] & Hn & Hdm). inversion Hdm as [e' Hdt]; subst.
  rewrite Forall_forall in Ho. specialize (Ho _ Hms). rewrite Forall_forall in Ho. specialize (Ho _ Hn). cbn in Ho.
  inversion Hdt as [sc E'|E'|E'|T E'|T e0 E' Hd']; rewrite E in E'; try discriminate. injection E' as <-. subst. exact (Ho _ _ Hd' m l g Hm Hin Hg E).
Qed.
Lemma refers_message request s m g : references request -> message request s m -> In g (m_fields m) -> refers g s -> pf_type g = PMessage s.
Proof. intros Hr Hm Hg [H|H]; [exact H|]. exfalso. destruct (Hr s m g s Hm Hg) as [_ H']. destruct (H' H) as [_ []]. exists m. exact Hm. Qed.

(** Where an entry of the type comes from. *)
Lemma declared_entry request lengths s m fs os num k e : legal request -> references request -> message request s m ->
  Forall2 (declared_field (is_declared request) lengths s m) (filter direct (m_fields m)) fs ->
  Forall2 (Forall2 (declared_member (is_declared request) lengths m)) (oneof_groups m) os ->
  In (num, k, e) (all_fields fs os) ->
  is_declared request lengths s (EMsg fs os) ->
  exists g, In g (m_fields m) /\ pf_number g = num
    /\ ((refers g s /\ k = KRecursive /\ e = EMsg [] [])
        \/ (declared_type (is_declared request) lengths m g e
            /\ ~ refers g s /\ ((pf_repeated g = true /\ exists n, k = KRep n) \/ (pf_repeated g = false /\ (k = KPlain \/ k = KOpt))))).
Proof.
  intros Hl Hr Hm Hf Ho Hin Hd0. unfold all_fields in Hin. apply in_app_or in Hin. destruct Hin as [Hin|Hin].
  - destruct (Forall2_In_r _ _ _ _ Hf Hin) as (g & Hg & Hd). apply filter_In in Hg. destruct Hg as [Hg _]. exists g. split; [exact Hg|].
    inversion Hd; subst; (split; [reflexivity|]).
    + left. auto.
    + right. split; [assumption|]. split; [assumption|]. left. eauto.
    + right. split; [assumption|]. split; [assumption|]. right. destruct (pf_optional g); auto.
  - apply in_flat_map in Hin. destruct Hin as (ms & Hms & Hin). apply in_map_iff in Hin. destruct Hin as ([num' e'] & E & Hin). injection E as -> <- ->.
    destruct (Forall2_In_r _ _ _ _ Ho Hms) as (gs & Hgs & Hl'). destruct (Forall2_In_r _ _ _ _ Hl' Hin) as (g & Hg & Hd). inversion Hd; subst.
    destruct (group_at _ _ Hgs) as [i ->]. apply filter_In in Hg. destruct Hg as [Hg Hi]. exists g. split; [exact Hg|]. split; [reflexivity|].
    right. split; [assumption|]. split.
    + intros Href. apply (refers_message _ _ _ _ Hr Hm Hg) in Href. revert Href. eapply no_self_member; try eassumption. apply filter_In. auto.
    + right. split; [|right; reflexivity]. eapply legal_single; eassumption.
Qed.

(** ** An update gives versions *)

Section Update.
Context (same : path -> path -> Prop) (old new : list pfile) (Hu : update same old new) (Hl : legal old) (Hl' : legal new) (Hr : references old) (Hr' : references new).

Lemma type_version m m' g g' lengths lengths' e e' : kept_type same (pf_type g) (pf_type g') ->
  (forall T T' lengths lengths', same T T' -> is_declared old lengths T e -> is_declared new lengths' T' e' -> version e e') ->
  declared_type (is_declared old) lengths m g e -> declared_type (is_declared new) lengths' m' g' e' -> version e e'.
Proof.
  intros Hk IH Hd Hd'. unfold kept_type in Hk. destruct Hd as [sc E|E|E|T E|T e E Hd]; rewrite E in Hk; destruct Hd' as [sc' E'|E'|E'|T' E'|T' e' E' Hd']; rewrite E' in Hk;
    try contradiction; try (constructor; first [exact Hk|reflexivity]).
  eapply IH; eassumption.
Qed.

Lemma update_version : forall t t' lengths lengths' s s', same s s' -> is_declared old lengths s t -> is_declared new lengths' s' t' -> version t t'.
Proof.
  induction t as [sc|st max|fs os Hf Ho] using ety_ind'; intros t' lengths lengths' s s' Hs Hd Hd'; [inversion Hd|inversion Hd|].
  inversion Hd as [l1 s1 m fs1 os1 Hm Hfs Hos]; subst. inversion Hd' as [l2 s2 m' fs' os' Hm' Hfs' Hos']; subst.
  destruct (Hu _ _ _ _ Hs Hm Hm') as [HA HB].
  assert (IH : forall num k e, In (num, k, e) (all_fields fs os) -> forall e' T T' lengths lengths', same T T' -> is_declared old lengths T e -> is_declared new lengths' T' e' -> version e e').
  { intros num k e Hin e' T T' l l' HT H1 H2. unfold all_fields in Hin. apply in_app_or in Hin. destruct Hin as [Hin|Hin].
    - rewrite Forall_forall in Hf. specialize (Hf _ Hin). cbn in Hf. eapply Hf; eassumption.
    - apply in_flat_map in Hin. destruct Hin as (ms & Hms & Hin). apply in_map_iff in Hin. destruct Hin as ([num' e0] & E & Hin). injection E as -> <- ->.
      rewrite Forall_forall in Ho. specialize (Ho _ Hms). rewrite Forall_forall in Ho. specialize (Ho _ Hin). cbn in Ho. eapply Ho; eassumption. }
  constructor.
  - intros num k e k' e' Hin Hin'.
    destruct (declared_entry _ _ _ _ _ _ _ _ _ Hl Hr Hm Hfs Hos Hin Hd) as (g & Hg & En & C). destruct (declared_entry _ _ _ _ _ _ _ _ _ Hl' Hr' Hm' Hfs' Hos' Hin' Hd') as (g' & Hg' & En' & C').
    destruct (HA g g' Hg Hg' ltac:(congruence)) as (Er & Hk & Hrf). specialize (IH _ _ _ Hin e').
    destruct C as [(C1 & -> & ->)|(C1 & C0 & C2)], C' as [(C1' & -> & ->)|(C1' & C0' & C2')].
    + split; [exact I|]. constructor; cbn; tauto.
    + tauto.
    + tauto.
    + split; [|eapply type_version; eassumption].
      destruct C2 as [(B1 & n & ->)|(B1 & [->| ->])], C2' as [(B1' & n' & ->)|(B1' & [->| ->])]; try exact I; congruence.
  - intros ms' n1 n2 Hms' H1 H2 H1o H2o.
    destruct (Forall2_In_r _ _ _ _ Hos' Hms') as (gs' & Hgs' & Hl2). destruct (group_at _ _ Hgs') as [i ->].
    assert (Hof' : forall n, In n (map fst ms') -> exists g', In g' (m_fields m') /\ in_oneof i g' = true /\ pf_number g' = n).
    { intros n Hn. apply in_map_iff in Hn. destruct Hn as ([n0 e0] & <- & Hn). destruct (Forall2_In_r _ _ _ _ Hl2 Hn) as (g' & Hg' & Hdm). inversion Hdm; subst.
      apply filter_In in Hg'. exists g'. destruct Hg'. auto. }
    assert (Hof : forall n, In n (Spec.field_numbers fs os) -> exists g, In g (filter direct (m_fields m) ++ concat (oneof_groups m)) /\ pf_number g = n).
    { intros n Hn. rewrite (declared_numbers _ _ _ _ _ _ Hfs Hos) in Hn. apply in_map_iff in Hn. destruct Hn as (g & E & Hg). eauto. }
    assert (Hsub : forall g, In g (filter direct (m_fields m) ++ concat (oneof_groups m)) -> In g (m_fields m)).
    { intros g Hg. apply in_app_or in Hg. destruct Hg as [Hg|Hg]; [apply filter_In in Hg; apply Hg|]. apply in_concat in Hg. destruct Hg as (l & Hg & Hgl). eapply group_in; eassumption. }
    destruct (Hof' _ H1) as (g1' & Hg1' & Hi1 & E1'), (Hof' _ H2) as (g2' & Hg2' & Hi2 & E2'). destruct (Hof _ H1o) as (g1 & Hg1 & E1), (Hof _ H2o) as (g2 & Hg2 & E2).
    destruct (HB g1 g2 g1' g2' (Hsub _ Hg1) (Hsub _ Hg2) Hg1' Hg2' ltac:(congruence) ltac:(congruence) (ex_intro _ i (conj Hi1 Hi2))) as [E|(j & Hj1 & Hj2)]; [left; congruence|right].
    assert (Hg : In (filter (in_oneof j) (m_fields m)) (oneof_groups m)).
    { apply in_app_or in Hg1. destruct Hg1 as [Hg1|Hg1]; [apply filter_In in Hg1; destruct Hg1 as [_ Hg1]; exfalso; unfold direct, in_oneof in *; destruct (pf_oneof g1); [|discriminate]; rewrite Hg1 in Hj1; lia|].
      apply in_concat in Hg1. destruct Hg1 as (l & Hl1 & Hg1). destruct (group_at _ _ Hl1) as [j' ->]. apply filter_In in Hg1. destruct Hg1 as [_ Hg1].
      replace j with j'; [exact Hl1|]. unfold in_oneof in *. destruct (pf_oneof g1); [|discriminate]. lia. }
    destruct (Forall2_In_l _ _ _ _ Hos Hg) as (ms & Hms & Hl3). exists ms. split; [exact Hms|].
    assert (Hn : forall g, In g (m_fields m) -> in_oneof j g = true -> In (pf_number g) (map fst ms)).
    { intros g Hgi Hgj. destruct (Forall2_In_l _ _ _ g Hl3) as ([n0 e0] & Hn0 & Hdm); [apply filter_In; auto|]. inversion Hdm; subst. apply in_map_iff. exists (pf_number g, e0). auto. }
    rewrite <- E1, <- E2. split; apply Hn; auto.
Qed.
End Update.

(** ** Names only: the same encoding *)

Definition like_kind (k k' : fkind) : Prop :=
  match k, k' with KPlain, KPlain | KOpt, KOpt | KRep _, KRep _ | KRecursive, KRecursive => True | _, _ => False end.
(** The types differ in lengths only. *)
Fixpoint like (t t' : ety) : Prop :=
  match t, t' with
  | EScalar sc, EScalar sc' => sc = sc'
  | EBytes st _, EBytes st' _ => st = st'
  | EMsg fs os, EMsg fs' os' =>
      all2 (fun '(num, k, t) '(num', k', t') => num = num' /\ like_kind k k' /\ like t t') fs fs'
      /\ all2 (all2 (fun '(num, t) '(num', t') => num = num' /\ like t t')) os os'
  | _, _ => False
  end.

Lemma like_elem num t t' p : like t t' -> enc_elem num t' p = enc_elem num t p.
Proof. destruct t, t'; cbn; intros H; try contradiction; subst; reflexivity. Qed.
Lemma like_lookup ms : forall ms' num, all2 (fun '(num, t) '(num', t') => num = num' /\ like t t') ms ms' ->
  Forall (fun m : Z * ety => forall t' x, like (snd m) t' -> enc t' x = enc (snd m) x) ms ->
  forall o, enc_oneof (map (fun '(num, t) => (num, (t, enc t))) ms') (num, o) = enc_oneof (map (fun '(num, t) => (num, (t, enc t))) ms) (num, o).
Proof.
  induction ms as [|[n t] ms IH]; intros [|[n' t'] ms'] num H Hf o; cbn [all2] in H; try contradiction; [reflexivity|]. destruct H as [[<- Ht] H].
  inversion Hf as [|? ? Hh Hr]; subst. cbn [snd] in Hh. specialize (IH ms' num H Hr o). unfold enc_oneof in *. cbn [map fst snd lookup] in *.
  destruct (n =? num) eqn:E; [|exact IH]. destruct o; try reflexivity. rewrite (like_elem _ _ _ _ Ht), (Hh _ _ Ht). reflexivity.
Qed.
Lemma like_enc : forall t t' x, like t t' -> enc t' x = enc t x.
Proof.
  induction t as [sc|st max|fs os Hf Ho] using ety_ind'; intros [sc'|st' max'|fs' os'] x H; cbn [like] in H; try contradiction.
  - subst. reflexivity.
  - reflexivity.
  - destruct H as [H1 H2]. cbn [enc]. destruct x as [| | | | |vs ovs]; try reflexivity. f_equal.
    + clear H2 Ho. revert fs' H1 vs. induction fs as [|[[n k] t] fs IH]; intros [|[[n' k'] t'] fs'] H1 vs; cbn [all2] in H1; try contradiction; [reflexivity|].
      destruct H1 as [(<- & Hk & Ht) H1]. inversion Hf as [|? ? Hh Hr]; subst. cbn [snd] in Hh. destruct vs as [|v vs]; [reflexivity|]. cbn [map enc_fields]. rewrite (IH Hr fs' H1 vs). f_equal.
      assert (E : forall x, enc t' x = enc t x) by (intros; apply Hh; exact Ht).
      assert (Ee : forall p, enc_elem n t' p = enc_elem n t p) by (intros; apply like_elem; exact Ht).
      unfold enc_field. destruct k, k'; try contradiction; try reflexivity.
      * destruct t, t'; cbn [like] in Ht; try contradiction; subst; rewrite ?E; destruct v; try reflexivity; rewrite ?E; try reflexivity; now rewrite ?Ee.
      * destruct v; try reflexivity. now rewrite E, Ee.
      * destruct v as [| |l| | |]; try reflexivity. destruct t, t'; cbn [like] in Ht; try contradiction; subst.
        { reflexivity. }
        { apply flat_map_ext. intros a. now rewrite E, Ee. }
        { apply flat_map_ext. intros a. now rewrite E, Ee. }
    + clear H1 Hf. revert os' H2 ovs. induction os as [|ms os IH]; intros [|ms' os'] H2 ovs; cbn [all2] in H2; try contradiction; [reflexivity|].
      destruct H2 as [Hm H2]. inversion Ho as [|? ? Hh Hr]; subst. destruct ovs as [|[num o] ovs]; [reflexivity|]. cbn [map enc_oneofs]. rewrite (IH Hr os' H2 ovs). f_equal.
      apply like_lookup; [exact Hm|]. exact Hh.
Qed.

Section Renamed.
Context (same : path -> path -> Prop) (old new : list pfile) (Hu : renamed same old new).

Lemma renamed_direct s s' g g' : renamed_field same s s' g g' -> direct g' = direct g.
Proof. intros (_ & _ & E1 & E2 & _). unfold direct. now rewrite E1, E2. Qed.
Lemma renamed_in s s' g g' i : renamed_field same s s' g g' -> in_oneof i g' = in_oneof i g.
Proof. intros (_ & _ & E1 & E2 & _). unfold in_oneof. now rewrite E1, E2. Qed.
Lemma Forall2_filter {A B} (P : A -> B -> Prop) (p : A -> bool) (q : B -> bool) : (forall a b, P a b -> q b = p a) -> forall l l', Forall2 P l l' -> Forall2 P (filter p l) (filter q l').
Proof. intros H l l' Hl. induction Hl as [|a b l l' Hab Hl IH]; [constructor|]. cbn [filter]. rewrite (H _ _ Hab). destruct (p a); [constructor; assumption|exact IH]. Qed.
Lemma renamed_groups s s' m m' : Forall2 (renamed_field same s s') (m_fields m) (m_fields m') -> oneof_count m' = oneof_count m ->
  Forall2 (Forall2 (renamed_field same s s')) (oneof_groups m) (oneof_groups m').
Proof.
  intros H E. unfold oneof_groups. rewrite E. apply Forall2_filter.
  - intros a b Hab. destruct Hab; reflexivity.
  - induction (seq 0 (oneof_count m)) as [|i l IH]; [constructor|]. cbn [map]. constructor; [|exact IH]. apply Forall2_filter; [|exact H]. intros a b Hab. eapply renamed_in; exact Hab.
Qed.

Lemma type_like m m' g g' lengths lengths' e e' : renamed_type same (pf_type g) (pf_type g') ->
  (forall T T' lengths lengths', same T T' -> is_declared old lengths T e -> is_declared new lengths' T' e' -> like e e') ->
  declared_type (is_declared old) lengths m g e -> declared_type (is_declared new) lengths' m' g' e' -> like e e'.
Proof.
  intros Hk IH Hd Hd'. unfold renamed_type in Hk. destruct Hd as [sc E|E|E|T E|T e E Hd]; rewrite E in Hk; destruct Hd' as [sc' E'|E'|E'|T' E'|T' e' E' Hd']; rewrite E' in Hk;
    try contradiction; try reflexivity; try exact Hk. eapply IH; eassumption.
Qed.
Lemma renamed_like : forall t t' lengths lengths' s s', same s s' -> is_declared old lengths s t -> is_declared new lengths' s' t' -> like t t'.
Proof.
  induction t as [sc|st max|fs os Hf Ho] using ety_ind'; intros t' lengths lengths' s s' Hs Hd Hd'; [inversion Hd|inversion Hd|].
  inversion Hd as [l1 s1 m fs1 os1 Hm Hfs Hos]; subst. inversion Hd' as [l2 s2 m' fs' os' Hm' Hfs' Hos']; subst.
  destruct (Hu _ _ _ _ Hs Hm Hm') as [HA HB]. cbn [like]. split.
  - assert (HF : Forall2 (renamed_field same s s') (filter direct (m_fields m)) (filter direct (m_fields m'))) by (apply Forall2_filter; [intros; eapply renamed_direct; eassumption|exact HA]).
    clear HA HB Hos Hos' Ho Hd Hd'. revert fs Hf Hfs fs' Hfs'. induction HF as [|g g' l l' Hg Hl IH]; intros fs Hf Hfs fs' Hfs'; inversion Hfs as [|? d ? ds Hd Hds]; subst; inversion Hfs' as [|? d' ? ds' Hd' Hds']; subst; [exact I|].
    inversion Hf as [|? ? Hh Hr]; subst. cbn [all2]. destruct d as [[n k] e], d' as [[n' k'] e']. cbn [snd] in Hh. split; [|apply IH; assumption].
    destruct Hg as (En & Er & Eo & Eoo & Ht & Href).
    inversion Hd; subst; inversion Hd'; subst; try tauto; try congruence.
    + repeat split; auto.
    + split; [congruence|]. split; [exact I|]. eapply type_like; try eassumption. intros; eapply Hh; eassumption.
    + split; [congruence|]. split; [rewrite Eo; destruct (pf_optional g); exact I|]. eapply type_like; try eassumption. intros; eapply Hh; eassumption.
  - pose proof (renamed_groups _ _ _ _ HA HB) as HG. clear HA HB Hfs Hfs' Hf Hd Hd'. revert os Ho Hos os' Hos'.
    induction HG as [|l0 l0' l l' Hg Hl IH]; intros os Ho Hos os' Hos'; inversion Hos as [|? d ? ds Hd Hds]; subst; inversion Hos' as [|? d' ? ds' Hd' Hds']; subst; [exact I|].
    inversion Ho as [|? ? Hh Hr]; subst. cbn [all2]. split; [|apply IH; assumption]. clear IH Hds Hds' Hl Hr Hos Hos' Ho.
    revert d Hh Hd d' Hd'. induction Hg as [|g g' l1 l1' Hg Hl1 IH]; intros d Hh Hd d' Hd'; inversion Hd as [|? p ? ps Hp Hps]; subst; inversion Hd' as [|? p' ? ps' Hp' Hps']; subst; [exact I|].
    inversion Hh as [|? ? Hh1 Hr1]; subst. cbn [all2]. destruct p as [n e], p' as [n' e']. cbn [snd] in Hh1. split; [|apply IH; assumption].
    destruct Hg as (En & Er & Eo & Eoo & Ht & Href). inversion Hp; subst. inversion Hp'; subst. split; [congruence|]. eapply type_like; try eassumption. intros; eapply Hh1; eassumption.
Qed.
End Renamed.

(** ** Objects of the classes *)

Lemma version_read fs os fs' os' v : let t := EMsg fs os in let t' := EMsg fs' os' in
  desc_ok t -> desc_ok t' -> version t t' -> wt t v -> zlen (enc t (view t v)) < 2 ^ 32 ->
  let w := carry t t' (norm t (view t v)) in
  forall S (R : rops S) rel, reader_ok R rel -> forall s, rel s (enc t (view t v)) -> forall fuel, (length (enc t (view t v)) < fuel)%nat ->
  exists e v' s', deserialize fuel t' S R (default_value t') s = Done (e, v', s') /\ wt t' v'
    /\ e = (if fits t' w then NoErrors else ArrayFull) /\ (fits t' w = true -> view t' v' = w).
Proof.
  intros t t' Hd Hd' Hver Hw Hz w S R rel ok s Hs fuel Hfu. destruct (fresh_good _ _ Hd' (or_introl eq_refl)) as (Hw0 & Hc0 & Hv0).
  pose proof (message_read fs os fs' os' v false ltac:(apply Forall_forall; intros; apply msg_all)
    ltac:(apply Forall_forall; intros; apply Forall_forall; intros; apply msg_all) Hver Hw Hd Hd' Hz) as H. fold t t' w in H. unfold outcome in H.
  destruct (fits t' w).
  - rewrite <- Hv0 in H. destruct (decode_reads fs' os' _ false false _ _ _ _ Hd' Hw0 Hc0 H S R rel ok ltac:(discriminate) s Hs fuel Hfu) as (v' & s' & E' & _ & Hw' & _ & _ & Hv).
    exists NoErrors, v', s'. specialize (Hv (or_intror eq_refl)). auto.
  - destruct H as (n0 & r & H). rewrite <- Hv0 in H. destruct (decode_reads fs' os' _ false false _ _ _ _ Hd' Hw0 Hc0 H S R rel ok ltac:(discriminate) s Hs fuel Hfu) as (v' & s' & E' & _ & Hw' & _).
    exists ArrayFull, v', s'. split; [exact E'|]. split; [exact Hw'|]. split; [reflexivity|discriminate].
Qed.

Lemma update_read same old new lengths lengths' s s' d fs os d' fs' os' ob : let t := EMsg fs os in let t' := EMsg fs' os' in
  update same old new -> same s s' -> class_at old lengths s d fs os -> class_at new lengths' s' d' fs' os' ->
  (forall p, capacity_ok (lengths p)) -> (forall p, capacity_ok (lengths' p)) -> valid_object d fs os ob ->
  exists x, shows d fs os ob x /\ (zlen (enc t x) < 2 ^ 32 ->
    let y := carry t t' (norm t x) in
    forall cap b content n b', wfix_rel cap b content (Some n) -> code_serialize d fs os ob _ (wfix_ops cap) b = Done (NoErrors, b') ->
    exists bytes, wfix_content b' = wfix_content b ++ bytes /\
    forall T (R : rops T) rel, reader_ok R rel -> forall r, rel r bytes -> forall fuel, (length bytes < fuel)%nat ->
    exists e ob' r', code_deserialize fuel d' fs' os' R (new_object d' fs' os') r = Done (e, ob', r') /\ valid_object d' fs' os' ob'
      /\ (fits t' y = true -> e = NoErrors /\ shows d' fs' os' ob' y) /\ (fits t' y = false -> e = ArrayFull)).
Proof.
  intros t t' Hu Hs Hc Hc' Hl Hl' (v & Hw & Hh). destruct (class_at_declared _ _ _ _ _ _ Hc) as [Hp Hdec]. destruct (class_at_declared _ _ _ _ _ _ Hc') as [Hp' Hdec'].
  apply class_at_for in Hc, Hc'. pose proof (class_desc _ _ _ _ _ Hc Hl) as Hok. pose proof (class_desc _ _ _ _ _ Hc' Hl') as Hok'.
  exists (view t v). split; [apply (class_shows _ _ _ _ _ Hc ob v Hw Hh); reflexivity|]. intros Hz y cap b content n b' Hrel Hser.
  rewrite (class_serialize _ _ _ _ _ Hc ob v _ _ _ Hw Hh) in Hser. exists (enc t (view t v)). split; [eapply serialize_is_enc; eauto|].
  intros T R rel HR r Hr fuel Hfuel.
  assert (Hver : version t t').
  { destruct Hp as (H1 & _ & H2 & _), Hp' as (H1' & _ & H2' & _). eapply update_version; eassumption. }
  destruct (version_read fs os fs' os' v Hok Hok' Hver Hw Hz T R rel HR r Hr fuel Hfuel) as (e & v' & r' & Ed & Hw' & Ee & Ev). fold t t' in Ed, Hw', Ee, Ev. fold y in Ee, Ev.
  pose proof (class_deserialize _ _ _ _ _ Hc' fuel (new_object d' fs' os') (default_value t') T R r (new_holds _ _ _ (class_sound _ _ _ _ _ Hc'))) as H. fold t' in H.
  rewrite Ed in H. specialize (H ltac:(discriminate)). destruct (code_deserialize fuel d' fs' os' R (new_object d' fs' os') r) as [[[e' ob'] r'']| |]; try contradiction.
  cbn [same_end] in H. destruct H as (-> & -> & Hh'). exists e, ob', r'. split; [reflexivity|]. split; [exists v'; auto|]. split.
  - intros Hf. rewrite Hf in Ee. split; [exact Ee|]. apply (class_shows _ _ _ _ _ Hc' ob' v' Hw' Hh'). symmetry. exact (Ev Hf).
  - intros Hf. rewrite Hf in Ee. exact Ee.
Qed.

Lemma renamed_bytes same old new lengths lengths' s s' d fs os d' fs' os' ob ob' x :
  renamed same old new -> same s s' -> class_at old lengths s d fs os -> class_at new lengths' s' d' fs' os' ->
  (forall p, capacity_ok (lengths p)) -> (forall p, capacity_ok (lengths' p)) ->
  valid_object d fs os ob -> valid_object d' fs' os' ob' -> shows d fs os ob x -> shows d' fs' os' ob' x -> zlen (enc (EMsg fs os) x) < 2 ^ 32 ->
  exists bytes,
    (forall cap b content n b', wfix_rel cap b content (Some n) -> code_serialize d fs os ob _ (wfix_ops cap) b = Done (NoErrors, b') ->
       wfix_content b' = wfix_content b ++ bytes)
    /\ (forall cap b content n b', wfix_rel cap b content (Some n) -> code_serialize d' fs' os' ob' _ (wfix_ops cap) b = Done (NoErrors, b') ->
       wfix_content b' = wfix_content b ++ bytes).
Proof.
  intros Hu Hs Hc Hc' Hl Hl' (v & Hw & Hh) (v' & Hw' & Hh') Hx Hx' Hz. destruct (class_at_declared _ _ _ _ _ _ Hc) as [Hp Hdec]. destruct (class_at_declared _ _ _ _ _ _ Hc') as [Hp' Hdec'].
  apply class_at_for in Hc, Hc'. pose proof (class_desc _ _ _ _ _ Hc Hl) as Hok. pose proof (class_desc _ _ _ _ _ Hc' Hl') as Hok'.
  apply (class_shows _ _ _ _ _ Hc ob v Hw Hh) in Hx. apply (class_shows _ _ _ _ _ Hc' ob' v' Hw' Hh') in Hx'.
  pose proof (like_enc _ _ x (renamed_like same old new Hu _ _ _ _ _ _ Hs Hdec Hdec')) as E. exists (enc (EMsg fs os) x). split; intros cap b content n b' Hrel Hser.
  - rewrite (class_serialize _ _ _ _ _ Hc ob v _ _ _ Hw Hh) in Hser. subst x. eapply serialize_is_enc; eauto.
  - rewrite (class_serialize _ _ _ _ _ Hc' ob' v' _ _ _ Hw' Hh') in Hser. rewrite <- E. rewrite <- E in Hz. rewrite Hx' in *. eapply serialize_is_enc; eauto.
Qed.
