(** * GenParams: the template parameters of a class are the lengths left open in its message. *)
From Coq Require Import String.
From Verif Require Import Base Schema Printf Generator SpecGenerator SpecParams GenOrder GenSort GenReg GenRender GenTypes GenOnce GenInstance GenProps.
From Coq Require Import List ZifyBool ZifyNat Lia.

Notation opening := (list (text * text) * text)%type.
Definition oname (r : opening) : text := parameter_name (fst r) (snd r).

Lemma parameter_name_cons m f way kind : parameter_name ((m, f) :: way) kind = (m ++ chars "_" ++ f ++ chars "_") ++ parameter_name way kind.
Proof. unfold parameter_name. cbn [map concat]. now rewrite <- app_assoc. Qed.

Lemma open_length_way request s way kind : open_length request s way kind -> way <> [].
Proof. intros H. destruct H; discriminate. Qed.

Lemma field_by_name request s m g g' : legal request -> message request s m -> In g (m_fields m) -> In g' (m_fields m) -> pf_name g = pf_name g' -> g = g'.
Proof.
  intros Hl Hm. apply NoDup_names_eq. pose proof (legal_message _ _ _ Hl Hm) as H. destruct m. cbn in *. tauto.
Qed.

Section Params.
  Variables (request : list pfile) (st : regs) (mss : list (list pmsg)).
  Let ds := concat (map (fun '(f, ms) => map (define (p_package f)) ms) (combine request mss)).
  Hypothesis Hlegal : legal request.
  Hypothesis Hsorted : Forall2 sorted_file request mss.
  Hypothesis Hruns : runs ds no_regs st.
  Hypothesis Hmatch : Forall (fun d => match_all (concat (map all_messages ds))
                            (concat (map (fun f => map (fun e => p_package f ++ [e]) (p_enums f)) request) ++ concat (map all_enums ds)) d = true) ds.

  Let reg s m : message request s m -> let fs := filter (needs_in s st) (msg_fields s m) in
    st s = {| all_registered := true; contains_templates := some fs; registered := fs |}
    := reg_of request st mss Hlegal Hsorted Hruns s m.

  Lemma message_same s m m' : message request s m -> message request s m' -> m = m'.
  Proof. apply (message_unique _ _ _ _ Hlegal). Qed.

  (** The openings that come from one field. *)
  Definition via_single (m : pmsg) (g : pfield) (r : opening) : Prop :=
    (r = ([(p_name m, pf_name g)], chars "LENGTH") /\ (pf_type g = PString \/ pf_type g = PBytes) /\ pf_max g = 0)
    \/ exists T way kind, r = ((p_name m, pf_name g) :: way, kind) /\ pf_type g = PMessage T /\ open_length request T way kind.
  Definition via (s : path) (m : pmsg) (g : pfield) (r : opening) : Prop :=
    ~ refers g s /\ (pf_repeated g = true -> pf_max g = 0) /\ (forall T, pf_type g = PMessage T -> prefix T s -> pf_repeated g = true)
    /\ ((pf_repeated g = true /\ r = ([(p_name m, pf_name g)], chars "REP_LENGTH")) \/ via_single m g r).

  Lemma open_via s m r : message request s m ->
    (open_length request s (fst r) (snd r) <-> exists g, In g (m_fields m) /\ via s m g r).
  Proof.
    intros Hm. destruct r as [way kind]. cbn [fst snd]. split.
    - intros H. inversion H as [? m' g Hm' Hg Ht Hmax|? m' g Hm' Hg Hrep Hmax Hr|? m' g T w k Hm' Hg Hrep Ht HT Hpre Ho]; subst;
        pose proof (message_same _ _ _ Hm Hm'); subst m'; exists g; (split; [exact Hg|]).
      + split; [intros [H0|H0]; destruct Ht as [Ht|Ht]; congruence|]. split; [auto|]. split; [intros T HT; destruct Ht; congruence|]. right. left. auto.
      + split; [exact Hr|]. split; [auto|]. split; [auto|]. left. auto.
      + split; [intros [H0|H0]; congruence|]. split; [exact Hrep|].
        split; [intros T' HT'; rewrite Ht in HT'; injection HT' as <-; exact Hpre|]. right. right. eauto 6.
    - intros (g & Hg & Hr & Hrep & Hpre & [[Hre E]|[(E & Ht & Hmax)|(T & w & k & E & Ht & Ho)]]); injection E as -> ->.
      + apply ol_list; auto.
      + now apply ol_string.
      + eapply ol_inside; eauto. intros ->. apply Hr. left. exact Ht.
  Qed.

  Lemma via_needs s m g r : message request s m -> (forall T, pf_type g = PMessage T -> open_length request T (tl (fst r)) (snd r) -> contains_templates (st T) = true) ->
    via s m g r -> needs_in s st (factory s g) = true.
  Proof.
    intros Hm HT (Hr & Hrep & Hpre & H). unfold needs_in, needs. rewrite (factory_plain _ _ Hr). destruct (pf_repeated g); [rewrite Hrep by reflexivity; reflexivity|].
    destruct H as [[H _]|[(E & Ht & Hmax)|(T & w & k & E & Ht & Ho)]]; [discriminate| |]; unfold single_factory.
    - destruct Ht as [->| ->]; rewrite Hmax; reflexivity.
    - rewrite Ht. rewrite HT; [|exact Ht|now rewrite E]. destruct (around T s) eqn:Ea; [|reflexivity].
      apply around_spec in Ea. specialize (Hpre T Ht Ea). discriminate.
  Qed.

  Lemma open_contains s way kind : open_length request s way kind -> contains_templates (st s) = true.
  Proof.
    intros H. induction H as [s m g Hm Hg Ht Hmax|s m g Hm Hg Hrep Hmax Hr|s m g T w k Hm Hg Hrep Ht HT Hpre Ho IH]; rewrite (reg s m Hm); cbn [contains_templates].
    all: assert (Hin : In (factory s g) (filter (needs_in s st) (msg_fields s m))); [|destruct (filter (needs_in s st) (msg_fields s m)); [destruct Hin|reflexivity]].
    all: apply filter_In; (split; [eapply field_in; eassumption|]).
    - apply (via_needs s m g ([(p_name m, pf_name g)], chars "LENGTH") Hm).
      + intros T HT. destruct Ht; congruence.
      + split; [intros [H0|H0]; destruct Ht; congruence|]. split; [auto|]. split; [intros T HT; destruct Ht; congruence|]. right. left. auto.
    - apply (via_needs s m g ([(p_name m, pf_name g)], chars "REP_LENGTH") Hm).
      + intros T _ Ho. apply open_length_way in Ho. now destruct Ho.
      + split; [exact Hr|]. split; [auto|]. split; auto.
    - apply (via_needs s m g ((p_name m, pf_name g) :: w, k) Hm).
      + intros T' HT' _. congruence.
      + split; [intros [H0|H0]; congruence|]. split; [exact Hrep|].
        split; [intros T' HT'; rewrite Ht in HT'; injection HT' as <-; exact Hpre|]. right. right. eauto 6.
  Qed.

  Lemma single_openings l s m g qs : message request s m -> In (factory s g) (msg_fields s m) -> ~ refers g s ->
    (forall T m' ps, message request T m' -> templates l st T = Some ps ->
       exists rs, NoDup rs /\ ps = map oname rs /\ forall r, In r rs <-> open_length request T (fst r) (snd r)) ->
    class_params (templates l st) (factory s g) (single_factory g) = Some qs ->
    exists rs, NoDup rs /\ qs = map oname rs /\ (pf_max g = 0 \/ pf_repeated g = false -> forall r, In r rs <-> via_single m g r).
  Proof.
    intros Hm Hf Hr IH E. pose proof (matched_message request mss Hsorted Hmatch s m (factory s g)) as Hmm. specialize (fun ref => Hmm ref Hm Hf).
    rewrite (factory_plain _ _ Hr) in Hmm. unfold single_factory in *.
    assert (Ep : param_prefix (factory s g) = p_name m ++ chars "_" ++ pf_name g ++ chars "_").
    { unfold param_prefix. cbn [f_parent f_name factory]. rewrite <- (message_scope _ _ _ Hm) at 1. now rewrite last_last. }
    destruct (pf_type g) as [sc| | |ref|ref] eqn:Et; cbn [class_params] in E.
    - injection E as <-. exists []. split; [constructor|]. split; [reflexivity|]. intros _ r. split; [intros []|].
      intros [(_ & [H|H] & _)|(T & w & k & _ & H & _)]; congruence.
    - injection E as <-. rewrite Ep. destruct (Z.eqb_spec (pf_max g) 0) as [E0|E0].
      + exists [([(p_name m, pf_name g)], chars "LENGTH")]. split; [constructor; [intros []|constructor]|].
        split; [cbn [map]; unfold oname; cbn [fst snd]; rewrite parameter_name_cons; reflexivity|]. intros _ r. split.
        * intros [<-|[]]. left. auto.
        * intros [(-> & _)|(T & w & k & _ & H & _)]; [left; reflexivity|congruence].
      + exists []. split; [constructor|]. split; [reflexivity|]. intros _ r. split; [intros []|].
        intros [(_ & _ & H)|(T & w & k & _ & H & _)]; [lia|congruence].
    - injection E as <-. rewrite Ep. destruct (Z.eqb_spec (pf_max g) 0) as [E0|E0].
      + exists [([(p_name m, pf_name g)], chars "LENGTH")]. split; [constructor; [intros []|constructor]|].
        split; [cbn [map]; unfold oname; cbn [fst snd]; rewrite parameter_name_cons; reflexivity|]. intros _ r. split.
        * intros [<-|[]]. left. auto.
        * intros [(-> & _)|(T & w & k & _ & H & _)]; [left; reflexivity|congruence].
      + exists []. split; [constructor|]. split; [reflexivity|]. intros _ r. split; [intros []|].
        intros [(_ & _ & H)|(T & w & k & _ & H & _)]; [lia|congruence].
    - injection E as <-. exists []. split; [constructor|]. split; [reflexivity|]. intros _ r. split; [intros []|].
      intros [(_ & [H|H] & _)|(T & w & k & _ & H & _)]; congruence.
    - destruct (Hmm ref) as [m' Hm']; [destruct (pf_repeated g); [right; eexists; reflexivity|left; reflexivity]|].
      destruct (templates l st ref) as [ps|] eqn:El; [|discriminate]. cbn [option_map] in E. injection E as <-.
      destruct (IH ref m' ps Hm' El) as (rs & Hnd & -> & Hrs). exists (map (fun r => ((p_name m, pf_name g) :: fst r, snd r)) rs). split; [|split].
      + clear - Hnd. induction Hnd as [|[w k] rs Hx Hnd IHn]; cbn [map]; constructor; [|exact IHn]. intros H. apply Hx.
        apply in_map_iff in H. destruct H as ([w' k'] & E & Hin). cbn in E. injection E as -> ->. exact Hin.
      + rewrite !map_map. apply map_ext. intros [w k]. unfold oname. cbn [fst snd]. rewrite parameter_name_cons, Ep. reflexivity.
      + intros _ r. rewrite in_map_iff. split.
        * intros ([w k] & <- & Hin). right. exists ref, w, k. split; [reflexivity|]. split; [exact Et|]. apply Hrs in Hin. exact Hin.
        * intros [(_ & [H|H] & _)|(T & w & k & -> & H & Ho)]; [congruence|congruence|]. rewrite Et in H. injection H as <-.
          exists (w, k). split; [reflexivity|]. now apply Hrs.
  Qed.

  Lemma field_openings l s m g qs : message request s m -> In (factory s g) (msg_fields s m) -> needs_in s st (factory s g) = true ->
    (forall T m' ps, message request T m' -> templates l st T = Some ps ->
       exists rs, NoDup rs /\ ps = map oname rs /\ forall r, In r rs <-> open_length request T (fst r) (snd r)) ->
    class_params (templates l st) (factory s g) (f_class (factory s g)) = Some qs ->
    exists rs, NoDup rs /\ qs = map oname rs /\ forall r, In r rs <-> via s m g r.
  Proof.
    intros Hm Hf Hn IH E.
    assert (Hr : ~ refers g s) by (intros H; unfold needs_in, needs in Hn; rewrite (factory_recursive _ _ H) in Hn; discriminate).
    rewrite (factory_plain _ _ Hr) in E. unfold needs_in, needs in Hn. rewrite (factory_plain _ _ Hr) in Hn.
    destruct (pf_repeated g) eqn:Erep.
    - apply Z.eqb_eq in Hn. cbn [class_params] in E. destruct (class_params _ _ _) as [ps|] eqn:Es; [|discriminate]. cbn [option_map] in E.
      destruct (single_openings l s m g ps Hm Hf Hr IH Es) as (rs & Hnd & -> & Hrs). rewrite Hn in E. cbn [Z.eqb] in E. injection E as <-.
      specialize (Hrs (or_introl Hn)).
      assert (Ep : param_prefix (factory s g) = p_name m ++ chars "_" ++ pf_name g ++ chars "_").
      { unfold param_prefix. cbn [f_parent f_name factory]. rewrite <- (message_scope _ _ _ Hm) at 1. now rewrite last_last. }
      exists (([(p_name m, pf_name g)], chars "REP_LENGTH") :: rs). split; [|split].
      + constructor; [|exact Hnd]. intros H. apply Hrs in H. destruct H as [(H & _)|(T & w & k & H & _ & Ho)]; [discriminate|].
        injection H as <- <-. apply open_length_way in Ho. congruence.
      + cbn [map app]. f_equal. unfold oname. cbn [fst snd]. rewrite parameter_name_cons, Ep. reflexivity.
      + intros r. cbn [In]. rewrite Hrs. unfold via. rewrite Erep. split.
        * intros [<-|H]; (split; [exact Hr|]; split; [auto|]; split; [auto|]); auto.
        * intros (_ & _ & _ & [[_ ->]|H]); auto.
    - destruct (single_openings l s m g qs Hm Hf Hr IH E) as (rs & Hnd & -> & Hrs). exists rs. split; [exact Hnd|]. split; [reflexivity|].
      intros r. rewrite (Hrs (or_intror Erep)). unfold via. rewrite Erep. split.
      + intros H. split; [exact Hr|]. split; [discriminate|]. split; [|auto]. intros T HT Hp. exfalso. unfold single_factory in Hn. rewrite HT in Hn.
        apply around_spec in Hp. rewrite Hp in Hn. discriminate.
      + intros (_ & _ & _ & [[H _]|H]); [discriminate|exact H].
  Qed.

  Lemma via_head s m g r : via s m g r -> hd ([], []) (fst r) = (p_name m, pf_name g).
  Proof. intros (_ & _ & _ & [[_ ->]|[(-> & _)|(T & w & k & -> & _)]]); reflexivity. Qed.

  Lemma openings l : forall s m ps, message request s m -> templates l st s = Some ps ->
    exists rs, NoDup rs /\ ps = map oname rs /\ forall r, In r rs <-> open_length request s (fst r) (snd r).
  Proof.
    induction l as [|l IH]; intros s m ps Hm E; [discriminate|]. cbn [templates] in E. rewrite (reg s m Hm) in E. cbn [registered] in E.
    destruct (sequence _) as [pss|] eqn:Es; [|discriminate]. cbn [option_map] in E. injection E as <-. apply sequence_map in Es.
    assert (Hall : forall f, In f (filter (needs_in s st) (msg_fields s m)) -> needs_in s st f = true /\ exists g, In g (m_fields m) /\ f = factory s g /\ In f (msg_fields s m)).
    { intros f Hf. apply filter_In in Hf as [Hf Hn]. split; [exact Hn|]. destruct (in_field _ _ _ _ Hm Hf) as (g & Hg & ->). eauto. }
    assert (Hback : forall g r, In g (m_fields m) -> via s m g r -> In (factory s g) (filter (needs_in s st) (msg_fields s m))).
    { intros g r Hg Hv. apply filter_In. split; [eapply field_in; eassumption|]. eapply via_needs; [exact Hm| |exact Hv].
      intros T _ Ho. eapply open_contains; exact Ho. }
    assert (Hnames : NoDup (map f_name (filter (needs_in s st) (msg_fields s m)))) by (apply NoDup_filter_names; eapply msg_fields_names; eassumption).
    assert (Hrs : exists rs, NoDup rs /\ concat pss = map oname rs
      /\ forall r, In r rs <-> exists g, In g (m_fields m) /\ In (factory s g) (filter (needs_in s st) (msg_fields s m)) /\ via s m g r).
    { clear Hback. induction Es as [|f qs fs pss Hq Es IHs].
      - exists []. split; [constructor|]. split; [reflexivity|]. intros r. split; [intros []|intros (g & _ & [] & _)].
      - destruct (Hall f (or_introl eq_refl)) as (Hn & g & Hg & -> & Hf). inversion Hnames as [|? ? Hx Hnames']; subst.
        destruct IHs as (rs & Hnd & Ers & Hin); [intros f Hf'; apply Hall; right; exact Hf'|exact Hnames'|].
        destruct (field_openings l s m g qs Hm Hf Hn IH Hq) as (rg & Hndg & -> & Hing).
        exists (rg ++ rs). split; [|split].
        + apply NoDup_app; [exact Hndg|exact Hnd|]. intros r H1 H2. apply Hing in H1. apply Hin in H2. destruct H2 as (g' & _ & Hg' & H2).
          apply via_head in H1, H2. rewrite H1 in H2. injection H2 as E. apply Hx. change (f_name (factory s g)) with (pf_name g). rewrite E.
          change (pf_name g') with (f_name (factory s g')). now apply in_map.
        + cbn [concat]. now rewrite map_app, Ers.
        + intros r. rewrite in_app_iff, Hing, Hin. split.
          * intros [H|(g' & Hg1 & Hg' & H)]; [exists g; split; [exact Hg|]; split; [left; reflexivity|exact H]|exists g'; split; [exact Hg1|]; split; [right; exact Hg'|exact H]].
          * intros (g' & Hg1 & [E|Hg'] & H); [left|right; eauto]. assert (g = g'); [|congruence].
            apply (field_by_name _ _ _ _ _ Hlegal Hm Hg Hg1). apply (f_equal f_name) in E. exact E. }
    destruct Hrs as (rs & Hnd & Ers & Hin). exists rs. split; [exact Hnd|]. split; [exact Ers|]. intros r. rewrite Hin, (open_via s m r Hm). split.
    - intros (g & Hg & _ & Hv). eauto.
    - intros (g & Hg & Hv). exists g. split; [exact Hg|]. split; [eapply Hback; eassumption|exact Hv].
  Qed.
End Params.

Lemma generated_openings limit request hs s c :
  legal request -> generate limit request = Some hs -> generated hs s c ->
  exists rs, NoDup rs /\ c_params c = map oname rs /\ forall r, In r rs <-> open_length request s (fst r) (snd r).
Proof.
  intros Hl Hgen Hg. destruct (generate_written _ _ _ Hgen) as (mss & st & Hs & (Hr & Hm) & Hw).
  destruct (generated_message _ _ _ _ _ Hw Hg) as (m & Hmsg & Hc). destruct Hc as (Et & _).
  exact (openings request st mss Hl Hs Hr Hm limit s m _ Hmsg Et).
Qed.

Lemma generated_parameters limit request hs s c :
  legal request -> generate limit request = Some hs -> generated hs s c ->
  exists l, NoDup l /\ (forall way kind, In (way, kind) l <-> open_length request s way kind)
    /\ c_params c = map (fun '(way, kind) => parameter_name way kind) l.
Proof.
  intros Hl Hgen Hg. destruct (generated_openings _ _ _ _ _ Hl Hgen Hg) as (rs & Hn & -> & Hrs). exists rs. split; [exact Hn|].
  split; [intros w k; apply (Hrs (w, k))|].
  apply map_ext. intros [w k]. reflexivity.
Qed.

Lemma NoDup_map_iff {A B} (f : A -> B) l : NoDup l -> (NoDup (map f l) <-> forall x y, In x l -> In y l -> f x = f y -> x = y).
Proof.
  intros Hn. induction Hn as [|a l Ha Hn IH]; cbn [map].
  - split; [intros _ x y []|constructor].
  - split.
    + intros H x y. inversion H as [|? ? Hx Hl]; subst. intros [<-|H1] [<-|H2] E; [reflexivity| | |].
      * destruct Hx. rewrite E. now apply in_map.
      * destruct Hx. rewrite <- E. now apply in_map.
      * apply (proj1 IH Hl); auto.
    + intros H. constructor.
      * intros Hi. apply in_map_iff in Hi. destruct Hi as (y & E & Hy). apply Ha.
        rewrite (H a y); [exact Hy|left; reflexivity|right; exact Hy|now symmetry].
      * apply IH. intros x y Hx Hy. apply H; right; assumption.
Qed.

Lemma generated_distinct limit request hs s c :
  legal request -> generate limit request = Some hs -> generated hs s c ->
  (NoDup (c_params c) <-> forall way kind way' kind', open_length request s way kind -> open_length request s way' kind' ->
     parameter_name way kind = parameter_name way' kind' -> way = way' /\ kind = kind').
Proof.
  intros Hl Hgen Hg. destruct (generated_openings _ _ _ _ _ Hl Hgen Hg) as (rs & Hn & -> & Hrs). rewrite (NoDup_map_iff _ _ Hn). split.
  - intros H w k w' k' H1 H2 E. specialize (H (w, k) (w', k') (proj2 (Hrs (w, k)) H1) (proj2 (Hrs (w', k')) H2) E). now injection H.
  - intros H [w k] [w' k'] H1 H2 E. apply Hrs in H1, H2. destruct (H w k w' k' H1 H2 E). congruence.
Qed.

Lemma generated_twice limit request hs s c way kind way' kind' :
  legal request -> generate limit request = Some hs -> generated hs s c ->
  open_length request s way kind -> open_length request s way' kind' -> parameter_name way kind = parameter_name way' kind' ->
  (way, kind) <> (way', kind') -> ~ NoDup (c_params c).
Proof.
  intros Hl Hgen Hg H1 H2 E Hne Hn. destruct (proj1 (generated_distinct _ _ _ _ _ Hl Hgen Hg) Hn _ _ _ _ H1 H2 E) as [-> ->]. now apply Hne.
Qed.
