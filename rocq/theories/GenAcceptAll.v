(** * GenAcceptAll: which requests the generator accepts, with types around their own message. *)
From Coq Require Import String.
From Verif Require Import Base Schema Printf Generator SpecGenerator SpecParams GenOrder GenSort GenReg GenRender GenTypes GenOnce GenNames GenProps GenTopo GenAccept GenInstance GenParams.
From Coq Require Import List ZifyBool ZifyNat Lia.

Lemma sequence_None {A} (l : list (option A)) : sequence l = None -> In None l.
Proof. induction l as [|[x|] l IH]; cbn; [discriminate| |left; reflexivity]. destruct (sequence l); [discriminate|]. intros _. right. apply IH. reflexivity. Qed.
Lemma sequence_map_None {A B} (g : A -> option B) l : sequence (map g l) = None -> exists a, In a l /\ g a = None.
Proof. intros H. apply sequence_None in H. apply in_map_iff in H. destruct H as (a & E & Ha). exists a. split; assumption. Qed.

Section All.
  Variables (request : list pfile) (mss : list (list pmsg)) (st : regs).
  Let ds := concat (map (fun '(f, ms) => map (define (p_package f)) ms) (combine request mss)).
  Let L := concat (map all_messages ds).
  Hypothesis Hlegal : legal request.
  Hypothesis Himp : imports_first request.
  Hypothesis Hrefs : references request.
  Hypothesis Hclear : Forall clear_names request.
  Hypothesis Hsorted : Forall2 sorted_file request mss.
  Hypothesis Hruns : runs ds no_regs st.

  (** What is registered as a template has an open length. *)
  Lemma needs_open s m g : message request s m -> In g (m_fields m) -> needs_in s st (factory s g) = true ->
    (forall T mT, pf_type g = PMessage T -> ~ prefix T s -> message request T mT -> contains_templates (st T) = true ->
       exists way kind, open_length request T way kind) ->
    exists way kind, open_length request s way kind.
  Proof.
    intros Hm Hg Hn IH. destruct (refers_to g s) eqn:Er.
    - apply refers_to_spec in Er. unfold needs_in, needs in Hn. rewrite (factory_recursive _ _ Er) in Hn. discriminate.
    - assert (Hr : ~ refers g s) by (intros H; apply refers_to_spec in H; congruence).
      unfold needs_in, needs in Hn. rewrite (factory_plain _ _ Hr) in Hn. destruct (pf_repeated g) eqn:Erep.
      + eexists _, _. apply (ol_list request s m g Hm Hg Erep); [lia|exact Hr].
      + unfold single_factory in Hn. destruct (pf_type g) as [sc| | |T|T] eqn:Et; try discriminate.
        * eexists _, _. apply (ol_string request s m g Hm Hg); [left; exact Et|lia].
        * eexists _, _. apply (ol_string request s m g Hm Hg); [right; exact Et|lia].
        * apply andb_true_iff in Hn. destruct Hn as [Ha Hc]. destruct (Hrefs s m g T Hm Hg) as [H1 _]. destruct (H1 Et) as [mT HmT].
          assert (Hp : ~ prefix T s) by (intros H; apply around_spec in H; rewrite H in Ha; discriminate).
          destruct (IH T mT eq_refl Hp HmT Hc) as (way & kind & Ho). eexists _, _.
          apply (ol_inside request s m g T way kind Hm Hg); [congruence|exact Et| |intros H; contradiction|exact Ho].
          intros ->. apply Hp, prefix_refl.
  Qed.
  Lemma contains_open : forall k s m l1 l2, message request s m -> L = l1 ++ s :: l2 -> (length l1 < k)%nat -> contains_templates (st s) = true ->
    exists way kind, open_length request s way kind.
  Proof.
    induction k as [|k IH]; intros s m l1 l2 Hm E Hlen Hc; [lia|].
    rewrite (reg_of request st mss Hlegal Hsorted Hruns s m Hm) in Hc. cbn [contains_templates] in Hc.
    destruct (filter (needs_in s st) (msg_fields s m)) as [|f fs] eqn:Ef; [discriminate|].
    assert (Hf : In f (filter (needs_in s st) (msg_fields s m))) by (rewrite Ef; left; reflexivity).
    apply filter_In in Hf. destruct Hf as [Hf Hn]. destruct (in_field _ _ _ _ Hm Hf) as (g & Hg & ->).
    apply (needs_open s m g Hm Hg Hn). intros T mT Et Hp HmT HcT.
    pose proof (messages_order request mss s m g T Hlegal Himp Hclear Hsorted Hm Hg (or_introl Et) Hp (ex_intro _ mT HmT)) as Hb.
    fold ds in Hb. fold L in Hb. pose proof (L_once request mss Hlegal Hsorted) as Hnd. fold ds in Hnd. fold L in Hnd. rewrite E in Hb, Hnd.
    pose proof (before_split _ _ _ _ Hnd Hb) as Hin. apply in_split in Hin. destruct Hin as (a & b & ->).
    rewrite <- app_assoc in E. rewrite app_length in Hlen. cbn in Hlen, E. apply (IH T mT a (b ++ s :: l2) HmT E ltac:(lia) HcT).
  Qed.
  Lemma registered_open s m : message request s m -> contains_templates (st s) = true -> exists way kind, open_length request s way kind.
  Proof.
    intros Hm Hc. pose proof (message_listed request mss Hsorted s m Hm) as Hi. fold ds in Hi. fold L in Hi. apply in_split in Hi. destruct Hi as (l1 & l2 & E).
    exact (contains_open (S (length l1)) s m l1 l2 Hm E ltac:(lia) Hc).
  Qed.

  (** Where the recursion does not end there are longer and longer ways. *)
  Lemma none_long : forall n s m, message request s m -> templates (S n) st s = None -> exists way kind, open_length request s way kind /\ (S n <= length way)%nat.
  Proof.
    assert (Hstep : forall n s m, message request s m -> templates (S n) st s = None ->
      exists g T mT, In g (m_fields m) /\ needs_in s st (factory s g) = true /\ ~ refers g s /\ pf_type g = PMessage T /\ message request T mT
        /\ templates n st T = None /\ (pf_repeated g = true -> pf_max g = 0) /\ (prefix T s -> pf_repeated g = true)).
    { intros n s m Hm E. cbn [templates] in E. rewrite (reg_of request st mss Hlegal Hsorted Hruns s m Hm) in E. cbn [registered] in E.
      destruct (sequence _) eqn:Es; [discriminate|]. apply sequence_map_None in Es. destruct Es as (f & Hf & Ef).
      apply filter_In in Hf. destruct Hf as [Hf Hn]. destruct (in_field _ _ _ _ Hm Hf) as (g & Hg & ->). exists g.
      assert (Hr : ~ refers g s) by (intros H; rewrite (factory_recursive _ _ H) in Ef; discriminate).
      pose proof Hn as Hn'. unfold needs_in, needs in Hn'. rewrite (factory_plain _ _ Hr) in Ef, Hn'.
      assert (Hs : class_params (templates n st) (factory s g) (single_factory g) = None -> exists T mT, pf_type g = PMessage T /\ message request T mT /\ templates n st T = None).
      { unfold single_factory. destruct (pf_type g) as [sc| | |T|T] eqn:Et; try discriminate. cbn [class_params]. intros H.
        destruct (Hrefs s m g T Hm Hg) as [H1 _]. destruct (H1 Et) as [mT HmT]. exists T, mT. split; [reflexivity|]. split; [exact HmT|].
        destruct (templates n st T); [discriminate|reflexivity]. }
      destruct (pf_repeated g) eqn:Erep.
      - cbn [class_params] in Ef. destruct (class_params (templates n st) (factory s g) (single_factory g)) eqn:Ec; [discriminate|].
        destruct (Hs eq_refl) as (T & mT & Et & HmT & HT). exists T, mT. repeat split; try assumption; lia.
      - destruct (Hs Ef) as (T & mT & Et & HmT & HT). exists T, mT. repeat split; try assumption; try discriminate.
        intros Hp. unfold single_factory in Hn'. rewrite Et in Hn'. apply around_spec in Hp. rewrite Hp in Hn'. discriminate. }
    induction n as [|n IH]; intros s m Hm E; destruct (Hstep _ s m Hm E) as (g & T & mT & Hg & Hn & Hr & Et & HmT & HT & Hmax & Hpre).
    - assert (Ho : exists way kind, open_length request s way kind).
      { apply (needs_open s m g Hm Hg Hn). intros T' mT' _ _ HmT' Hc. eapply registered_open; eassumption. }
      destruct Ho as (way & kind & Ho). exists way, kind. split; [exact Ho|]. apply open_length_way in Ho. destruct way; [contradiction|cbn; lia].
    - destruct (IH T mT HmT HT) as (way & kind & Ho & Hlen). exists ((p_name m, pf_name g) :: way), kind. split; [|cbn [length]; lia].
      apply (ol_inside request s m g T way kind Hm Hg Hmax Et); [|exact Hpre|exact Ho]. intros ->. apply Hr. left. exact Et.
  Qed.

  Lemma finite_total : finite_lengths request -> exists n, forall p, templates n st p <> None.
  Proof.
    intros [n Hn]. exists (S n). intros p E. destruct (in_dec path_dec p L) as [Hp|Hp].
    - destruct (all_messages_message request mss Hsorted p Hp) as [m Hm]. destruct (none_long n p m Hm E) as (way & kind & Ho & Hlen).
      specialize (Hn p way kind Ho). lia.
    - cbn [templates] in E. rewrite (unregistered request mss Hsorted st Hruns) in E; [discriminate|]. intros [m Hm]. apply Hp. eapply message_listed; eassumption.
  Qed.

  Hypothesis Hmatch : Forall (fun d => match_all (concat (map all_messages ds))
                            (concat (map (fun f => map (fun e => p_package f ++ [e]) (p_enums f)) request) ++ concat (map all_enums ds)) d = true) ds.
  Lemma some_short : forall n s m ps, message request s m -> templates n st s = Some ps ->
    forall way kind, open_length request s way kind -> (length way <= n)%nat.
  Proof.
    induction n as [|n IH]; intros s m ps Hm E way kind Ho; [discriminate|].
    inversion Ho as [? m' g Hm' Hg Ht Hmax|? m' g Hm' Hg Hrep Hmax Hr|? m' g T w k Hm' Hg Hrep Ht HT Hpre Ho']; subst; try (cbn; lia).
    pose proof (message_unique _ _ _ _ Hlegal Hm Hm'). subst m'. cbn [length]. apply le_n_S.
    destruct (Hrefs s m g T Hm Hg) as [H1 _]. destruct (H1 Ht) as [mT HmT].
    assert (Hr : ~ refers g s) by (intros [H|H]; congruence).
    assert (Hn : needs_in s st (factory s g) = true).
    { apply (via_needs request st s m g ((p_name m, pf_name g) :: w, kind) Hm).
      - intros T' _ Ho''. eapply (open_contains request st mss); eassumption.
      - split; [exact Hr|]. split; [exact Hrep|]. split; [intros T' HT' Hp'; apply Hpre; congruence|]. right. right. eauto 6. }
    cbn [templates] in E. rewrite (reg_of request st mss Hlegal Hsorted Hruns s m Hm) in E. cbn [registered] in E.
    destruct (sequence _) as [pss|] eqn:Es; [|discriminate]. apply sequence_map in Es.
    assert (Hf : In (factory s g) (filter (needs_in s st) (msg_fields s m))) by (apply filter_In; split; [eapply field_in; eassumption|exact Hn]).
    destruct (Forall2_In_l _ _ _ _ Es Hf) as (qs & _ & Eq). rewrite (factory_plain _ _ Hr) in Eq.
    assert (Et : exists rs, templates n st T = Some rs).
    { unfold single_factory in Eq. rewrite Ht in Eq. destruct (pf_repeated g); cbn [class_params] in Eq; destruct (templates n st T); try discriminate; eauto. }
    destruct Et as [rs Et]. eapply IH; eassumption.
  Qed.
End All.

Lemma accepted_finite limit request hs : legal request -> references request -> generate limit request = Some hs -> finite_lengths request.
Proof.
  intros Hl Hrefs Hgen. destruct (generate_written _ _ _ Hgen) as (mss & st & Hs & (Hru & Hma) & Hw). exists limit. intros s way kind Ho.
  assert (Hm : exists m, message request s m) by (inversion Ho; eauto). destruct Hm as [m Hm].
  destruct (message_generated _ _ _ _ _ Hw Hm) as (c & _ & Hc). destruct Hc as (Et & _). eapply some_short; eassumption.
Qed.

Lemma generate_accepts_all request : legal request -> imports_first request -> references request -> Forall clear_names request ->
  ((exists limit hs, generate limit request = Some hs) <->
   Forall orderable request /\ Forall no_deep request /\ finite_lengths request
   /\ forall s m g T, message request s m -> In g (m_fields m) -> pf_type g = PEnum T -> ~ templated_scope request s T).
Proof.
  intros Hl Himp Hrefs Hclear. split.
  - intros (limit & hs & Hgen). split; [|split; [|split]].
    + apply Forall_forall. intros f Hf. eapply accepted_orderable; eassumption.
    + apply Forall_forall. intros f Hf s m g T a b r Hm Hg Hr HT E. pose proof (deep_rejected limit request f s m g T a b r Hl Himp Hf Hm Hg Hr E HT). congruence.
    + eapply accepted_finite; eassumption.
    + intros s m g T Hm Hg Et. eapply accepted_scopes; eassumption.
  - intros (Hord & Hdeep & Hfin & Hsc). apply accepted; try assumption. intros mss st Hs Hru. eapply finite_total; eassumption.
Qed.
