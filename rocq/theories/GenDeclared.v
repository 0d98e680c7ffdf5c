(** * GenDeclared: when the parameters in the type of a member variable are declared. *)
From Coq Require Import String.
From Verif Require Import Base Schema Printf Generator SpecGenerator GenOrder GenSort GenReg GenRender GenTypes GenOnce GenInstance GenProps.
From Coq Require Import List ZifyBool ZifyNat Lia.

Lemma member_of_class t request hs s c m ty g : legal request -> Forall2 (written t) request hs -> generated hs s c ->
  message request s m -> In g (m_fields m) -> In (pf_name g, ty) (c_members c) ->
  t s = Some (c_params c) /\ f_class (factory s g) <> FieldErrorRecursive /\ class_type t s (factory s g) (f_class (factory s g)) = Some ty.
Proof.
  intros Hl Hw Hg Hm Hgf Hi. destruct (generated_message _ _ _ _ _ Hw Hg) as (m' & Hm' & Hc).
  assert (m' = m) by (eapply message_unique; eassumption). subst m'. split; [apply Hc|].
  destruct (member_class _ _ _ _ _ _ Hc Hi) as (f & Hf & En & Hne & Hty). destruct (in_field _ _ _ _ Hm Hf) as (g' & Hg' & ->).
  assert (g' = g).
  { pose proof (legal_names m (legal_message _ _ _ Hl Hm)) as Hnd. symmetry. eapply NoDup_names_eq; [exact Hnd|exact Hgf|exact Hg'|exact En]. }
  subst g'. split; [exact Hne|exact Hty].
Qed.

Lemma generated_declared_iff limit request hs s c m g t :
  legal request -> generate limit request = Some hs -> generated hs s c -> message request s m -> In g (m_fields m) ->
  In (pf_name g, t) (c_members c) -> no_clash m ->
  (incl (params_used t) (c_params c) <-> forall T, pf_type g = PMessage T -> templated request T ->
     (pf_repeated g = true -> pf_max g = 0) /\ (pf_repeated g = false -> ~ prefix T s)).
Proof.
  intros Hl Hgen Hg Hm Hgf Hi Hcl. destruct (generate_written _ _ _ Hgen) as (mss & st & Hs & (Hr & Hma) & Hw).
  destruct (member_of_class _ _ _ _ _ _ _ _ Hl Hw Hg Hm Hgf Hi) as (Hc & Hne & Hty). split.
  - intros Hincl T HT Htm.
    assert (Hno : ~ (pf_repeated g = true /\ pf_max g <> 0 \/ pf_repeated g = false /\ prefix T s)).
    { intros Hcase. assert (HTs : T <> s).
      { intros ->. apply Hne. apply factory_recursive. left. exact HT. }
      destruct (generated_undeclared limit request hs s m g T Hl Hgen Hm Hgf Hcase HT HTs Htm Hcl) as (c' & t' & p & Hg' & Hi' & Hp & Hnp).
      destruct (member_of_class _ _ _ _ _ _ _ _ Hl Hw Hg' Hm Hgf Hi') as (Hc' & _ & Hty').
      assert (Et : t' = t) by congruence. assert (Ec : c_params c' = c_params c) by congruence. subst t'. rewrite Ec in Hnp. apply Hnp, Hincl, Hp. }
    split.
    + intros Hrep. destruct (Z.eq_dec (pf_max g) 0) as [E|E]; [exact E|]. exfalso. apply Hno. left. split; assumption.
    + intros Hrep Hp. apply Hno. right. split; assumption.
  - intros H. eapply generated_declared; [exact Hl|exact Hgen|exact Hg|exact Hi| |].
    + intros name a args max ->. assert (Hr' : ~ refers g s) by (intros Hx; apply Hne, factory_recursive, Hx).
      rewrite (factory_plain _ _ Hr') in Hty. unfold single_factory in Hty. destruct (pf_repeated g) eqn:Erep.
      * destruct (pf_type g) as [sc| | |ref|ref] eqn:Et; cbn [class_type] in Hty; try discriminate.
        -- destruct (enum_scopes_ok _ _ _); discriminate.
        -- assert (HTs : ref <> s) by (intros ->; apply Hr'; left; exact Et).
           cbn [class_params] in Hty. destruct (templates limit st ref) as [ps|] eqn:Er; [|discriminate]. cbn in Hty.
           injection Hty as _ Ea El. destruct (generated_arguments limit request hs s m g ref Hl Hgen Hm Hgf Et HTs) as (_ & cT & _ & _ & _ & _ & HgT & _).
           destruct (generated_message _ _ _ _ _ Hw HgT) as (mT & _ & (EtT & _)). rewrite Er in EtT. injection EtT as ->.
           destruct (H ref eq_refl) as [H0 _]; [|rewrite H0 in El by reflexivity; unfold length_of in El; discriminate].
           apply (generated_template limit request hs ref cT Hl Hgen HgT). destruct (c_params cT); discriminate.
      * destruct (pf_type g) as [sc| | |ref|ref] eqn:Et; cbn [class_type] in Hty; try discriminate.
        -- destruct (enum_scopes_ok _ _ _); discriminate.
        -- destruct (class_params _ _ _); discriminate.
    + intros m' g' T Hm' Hg' En Hrep HT Htm Hpre.
      assert (m' = m) by (eapply message_unique; eassumption). subst m'.
      assert (g' = g).
      { pose proof (legal_names m (legal_message _ _ _ Hl Hm)) as Hnd. eapply NoDup_names_eq; [exact Hnd|exact Hg'|exact Hgf|exact En]. }
      subst g'. destruct (H T HT Htm) as [_ H']. exact (H' Hrep Hpre).
Qed.

Lemma generated_repeated limit request hs s m g T :
  legal request -> generate limit request = Some hs ->
  message request s m -> In g (m_fields m) -> pf_repeated g = true -> pf_max g <> 0 -> pf_type g = PMessage T -> T <> s ->
  templated request T -> no_clash m ->
  exists c t p, generated hs s c /\ In (pf_name g, t) (c_members c) /\ In p (params_used t) /\ ~ In p (c_params c).
Proof. intros Hl Hgen Hm Hg Hrep Hmax. eapply generated_undeclared; try eassumption. left. split; assumption. Qed.
Lemma generated_around limit request hs s m g T :
  legal request -> generate limit request = Some hs ->
  message request s m -> In g (m_fields m) -> pf_repeated g = false -> pf_type g = PMessage T -> prefix T s -> T <> s ->
  templated request T -> no_clash m ->
  exists c t p, generated hs s c /\ In (pf_name g, t) (c_members c) /\ In p (params_used t) /\ ~ In p (c_params c).
Proof. intros Hl Hgen Hm Hg Hrep Ht Hpre. eapply generated_undeclared; try eassumption. right. split; assumption. Qed.

Lemma generated_order_iff limit request hs s m g T :
  legal request -> imports_first request -> Forall clear_names request -> generate limit request = Some hs ->
  message request s m -> In g (m_fields m) -> pf_type g = PMessage T ->
  (before (script hs) (Declared T) (Uses s) <-> ~ prefix T s).
Proof.
  intros Hl Hi Hc Hgen Hm Hg Ht. split.
  - intros Hb Hp. eapply generated_enclosing; [exact Hl|exact Hgen|exact Hm|exact Hp| |exact Hb].
    destruct (path_dec T s) as [->|HT]; [exists m; exact Hm|].
    destruct (generated_arguments limit request hs s m g T Hl Hgen Hm Hg Ht HT) as (_ & cT & _ & _ & _ & _ & HgT & _).
    apply (generated_exactly limit request hs Hl Hgen T). exists cT. exact HgT.
  - intros Hp. eapply generated_order; try eassumption. left. exact Ht.
Qed.
