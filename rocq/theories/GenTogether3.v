(** * GenTogether3: fewer files can be given to the generator. *)
From Coq Require Import String.
From Verif Require Import Base Schema Printf Generator SpecGenerator SpecTogether GenOrder GenSort GenReg GenRender GenTypes GenNames GenAccept GenProps GenTogether GenTogether2.
From Coq Require Import List Permutation ZifyBool ZifyNat Lia.

Lemma some_incl {A} (l l' : list A) : some_of l l' -> incl l l'.
Proof.
  induction 1 as [|x l l' H IH|x l l' H IH]; intros y Hy; [exact Hy| |right; apply IH; exact Hy].
  destruct Hy as [->|Hy]; [left; reflexivity|right; apply IH; exact Hy].
Qed.
Lemma some_thin {A B} (g : A -> list B) l l' : some_of l l' -> thin (concat (map g l')) (concat (map g l)).
Proof.
  induction 1 as [|x l l' H IH|x l l' H IH]; cbn [map concat]; [apply thin_refl|apply thin_app; [apply thin_refl|exact IH]|].
  eapply thin_trans; [apply thin_drop|exact IH].
Qed.
Lemma some_legal l l' : some_of l l' -> legal l' -> legal l.
Proof.
  intros H (H1 & H2 & H3). pose proof (some_incl _ _ H) as Hi. split; [|split].
  - rewrite Forall_forall in *. intros f Hf. apply H1, Hi, Hf.
  - apply (some_thin file_type_names _ _ H). exact H2.
  - intros f p Hf Hp. apply H3; [apply Hi, Hf|]. apply (some_thin file_type_names _ _ H). exact Hp.
Qed.

(** ** Sorting *)

Lemma sorted_files request fl : sequence (map sort_file request) = Some fl -> exists mss,
  Forall2 sorted_file request mss /\ fl = map (fun '(f, ms) => map (define (p_package f)) ms) (combine request mss).
Proof.
  intros E. apply sequence_map in E. induction E as [|f ds fs dss H Hl IH]; [exists []; split; [constructor|reflexivity]|].
  destruct IH as (mss & H1 & ->). apply sort_file_sorted in H. destruct H as (order0 & Ht & ->).
  eexists (_ :: mss). split; [constructor; [|exact H1]|cbn; reflexivity]. exists order0. split; [exact Ht|reflexivity].
Qed.
Lemma sort_fewer files request fl : some_of files request -> sequence (map sort_file request) = Some fl ->
  exists fl', sequence (map sort_file files) = Some fl'.
Proof.
  intros H E. apply sequence_map in E. apply sequence_total. intros f Hf Hn. destruct (Forall2_In_l _ _ _ f E (some_incl _ _ H f Hf)) as (ds & _ & Hd). congruence.
Qed.

(** ** Matching *)

Lemma all_enums_inv d : forall ref, In ref (all_enums d) -> exists e x, In e (all_defs d) /\ In x (d_enums e) /\ ref = d_scope e ++ [x].
Proof.
  induction d as [scope nested enums fields oneofs IH] using mdef_induction. intros ref H. cbn [all_enums] in H. rewrite Forall_forall in IH.
  apply in_app_or in H. destruct H as [H|H].
  - apply in_map_iff in H. destruct H as (x & <- & Hx). exists (MDef scope nested enums fields oneofs), x. split; [apply all_defs_self|]. split; [exact Hx|reflexivity].
  - apply in_concat in H. destruct H as (l & Hl & H). apply in_map_iff in Hl. destruct Hl as (a & <- & Ha).
    destruct (IH a Ha ref H) as (e & x & He & Hx & ->). exists e, x. split; [|split; [exact Hx|reflexivity]].
    cbn [all_defs]. apply in_or_app. left. apply in_concat. eexists. split; [apply in_map; exact Ha|exact He].
Qed.
Lemma all_enums_names f ms m ref : sorted_file f ms -> In m ms -> In ref (all_enums (define (p_package f) m)) -> In ref (file_type_names f).
Proof.
  intros Hs Hm H. apply all_enums_inv in H. destruct H as (e & x & He & Hx & ->). apply all_defs_define in He. destruct He as (s & m' & Hi & ->).
  destruct (sorted_file_inside _ _ _ _ _ Hs Hm Hi) as (m0 & order & Hm0 & ->). rewrite (inside_d_scope _ _ _ _ Hi).
  eapply file_type_in; [exact Hm0|]. right. exists x. split; [|reflexivity]. destruct m0. exact Hx.
Qed.

Lemma match_fewer files r mss mss' d : legal r -> some_of files r -> self_contained files ->
  Forall2 sorted_file r mss -> Forall2 sorted_file files mss' -> In d (defs_of files mss') ->
  match_all (concat (map all_messages (defs_of r mss)))
    (concat (map (fun f => map (fun e => p_package f ++ [e]) (p_enums f)) r) ++ concat (map all_enums (defs_of r mss))) d = true ->
  match_all (concat (map all_messages (defs_of files mss')))
    (concat (map (fun f => map (fun e => p_package f ++ [e]) (p_enums f)) files) ++ concat (map all_enums (defs_of files mss'))) d = true.
Proof.
  intros Hl Hso Hc Hs Hs' Hd H. pose proof (some_incl _ _ Hso) as Hi. apply matched. intros e f He Hf.
  pose proof (In_def_of _ _ _ Hs' Hd) as Hdef. destruct (def_of_message _ _ _ Hdef He) as (s & m & Hm & _ & Hfs).
  destruct (Hfs f Hf) as (g & Hg & ->). pose proof (match_all_defs _ _ d H e He _ Hf) as HM.
  assert (Hrefs : forall T, In T (refs_of (f_class (factory s g))) -> exists f1, In f1 files /\ In T (file_type_names f1)).
  { intros T HT. apply factory_refs in HT. pose proof (Hc s m g T Hm Hg HT) as HT'. apply in_concat in HT'. destruct HT' as (l & Hl0 & HT').
    apply in_map_iff in Hl0. destruct Hl0 as (f1 & <- & Hf1). exists f1. split; assumption. }
  revert HM Hrefs. induction (f_class (factory s g)) as [sc|max|max|ref|ref|max c IH|]; cbn [matches refs_of]; intros HM Hrefs; try reflexivity.
  - apply existsb_exists in HM. destruct HM as (p & Hp & Ep). apply path_eqb_eq in Ep. subst p.
    destruct (Hrefs ref (or_introl eq_refl)) as (f1 & Hf1 & HT). apply existsb_exists. exists ref. split; [|apply path_eqb_eq; reflexivity].
    assert (Same : forall f2, In f2 r -> In ref (file_type_names f2) -> f2 = f1).
    { intros f2 Hf2 H2. eapply (NoDup_concat_eq file_type_names); [apply legal_nodup; exact Hl|exact Hf2|apply Hi; exact Hf1|exact H2|exact HT]. }
    apply in_or_app. apply in_app_or in Hp. destruct Hp as [Hp|Hp].
    + left. apply in_concat in Hp. destruct Hp as (l & Hl0 & Hp). apply in_map_iff in Hl0. destruct Hl0 as (f2 & <- & Hf2).
      assert (f2 = f1) by (apply Same; [exact Hf2|]; apply in_or_app; left; exact Hp). subst f2.
      apply in_concat. eexists. split; [apply in_map_iff; exists f1; split; [reflexivity|exact Hf1]|exact Hp].
    + right. apply in_concat in Hp. destruct Hp as (l & Hl0 & Hp). apply in_map_iff in Hl0. destruct Hl0 as (d2 & <- & Hd2).
      destruct (In_def_of _ _ _ Hs Hd2) as (f2 & ms & top & Hf2 & Hsf & Ht & ->).
      assert (f2 = f1) by (apply Same; [exact Hf2|]; eapply all_enums_names; eassumption). subst f2.
      apply in_concat. eexists. split; [apply in_map; eapply (def_of_In files files mss'); [apply incl_refl|exact Hs'|exists f1, ms, top; auto]|exact Hp].
  - apply existsb_exists in HM. destruct HM as (p & Hp & Ep). apply path_eqb_eq in Ep. subst p.
    destruct (Hrefs ref (or_introl eq_refl)) as (f1 & Hf1 & HT). apply existsb_exists. exists ref. split; [|apply path_eqb_eq; reflexivity].
    apply (defs_message _ _ _ Hs) in Hp. destruct Hp as [m0 Hm0].
    destruct (around_type r f1 ref ref m0 Hl (Hi f1 Hf1) HT (prefix_refl _) Hm0) as [m1 Hm1].
    destruct (combine_In _ _ _ f1 Hs' Hf1) as (ms & _ & Hsf). destruct (file_message_def files f1 ref m1 ms Hf1 Hsf Hm1) as (d1 & Hd1 & Hr1).
    apply in_concat. eexists. split; [apply in_map; eapply def_of_In; [apply incl_refl|exact Hs'|exact Hd1]|exact Hr1].
  - apply IH; assumption.
Qed.

(** ** Registration *)

Lemma runs_app_inv ds1 ds2 st st' : runs (ds1 ++ ds2) st st' -> exists s, runs ds1 st s /\ runs ds2 s st'.
Proof.
  revert st. induction ds1 as [|a ds1 IH]; cbn [app]; intros st H; [exists st; split; [constructor|exact H]|].
  inversion H as [|? ? ? s1 s1' ? H1 E H2]; subst. destruct (IH _ H2) as (s & A & B). exists s. split; [econstructor; eassumption|exact B].
Qed.
Lemma register_file_agree Q ds s s1 : runs ds s s1 ->
  (forall d e, In d ds -> In e (all_defs d) -> Q (d_scope e) /\ fields_in Q (d_fields e)) ->
  forall t, agree Q s t -> exists t1, register_file ds true t = (true, t1) /\ agree Q s1 t1.
Proof.
  induction 1 as [st|d ds st st1 st1' st' H1 E H IH]; intros HQ t Ht; [exists t; split; [reflexivity|exact Ht]|].
  cbn [register_file]. destruct (register_same Q d (fun e => HQ d e (or_introl eq_refl)) st t Ht) as [Ef Es]. rewrite H1 in Ef, Es.
  destruct (register d t) as [b t1]. cbn [fst snd] in Ef, Es. subst b. apply IH; [intros d' e Hd'; apply HQ; right; exact Hd'|].
  intros p Hp. rewrite E. apply Es. exact Hp.
Qed.
Lemma defs_of_cons f ms files mss : defs_of (f :: files) (ms :: mss) = map (define (p_package f)) ms ++ defs_of files mss.
Proof. reflexivity. Qed.
Lemma register_fewer Q files r : some_of files r -> forall mss mss' s st t,
  Forall2 sorted_file r mss -> Forall2 sorted_file files mss' -> runs (defs_of r mss) s st ->
  NoDup (concat (map all_messages (defs_of r mss))) ->
  (forall d e, In d (defs_of files mss') -> In e (all_defs d) -> Q (d_scope e) /\ fields_in Q (d_fields e)) ->
  (forall p, Q p -> In p (concat (map all_messages (defs_of r mss))) -> In p (concat (map all_messages (defs_of files mss')))) ->
  agree Q s t -> exists t', register_files (map (fun '(f, ms) => map (define (p_package f)) ms) (combine files mss')) true t = (true, t') /\ agree Q st t'.
Proof.
  intros Hso. induction Hso as [|f l l' H IH|f l l' H IH]; intros mss mss' s st t Hs Hs' Hr Hn HQ Hin Ha.
  - inversion Hs; inversion Hs'; subst. inversion Hr; subst. exists t. split; [reflexivity|exact Ha].
  - inversion Hs as [|? ms ? mss0 Hf Hs0]; inversion Hs' as [|? ms' ? mss0' Hf' Hs0']; subst.
    rewrite <- (sorted_file_fun _ _ _ Hf Hf') in *. rewrite !defs_of_cons in *. rewrite !map_app, !concat_app in *.
    apply runs_app_inv in Hr. destruct Hr as (s1 & R1 & R2).
    destruct (register_file_agree Q _ _ _ R1 (fun d e Hd => HQ d e (in_or_app _ _ _ (or_introl Hd))) t Ha) as (t1 & E1 & A1).
    cbn [combine map register_files]. rewrite E1. cbn [andb].
    eapply (IH mss0 mss0'); [exact Hs0|exact Hs0'|exact R2|apply NoDup_app_remove_l in Hn; exact Hn| | |exact A1].
    + intros d e Hd. apply HQ. apply in_or_app. right. exact Hd.
    + intros p Hp Hp'. specialize (Hin p Hp (in_or_app _ _ _ (or_intror Hp'))). apply in_app_or in Hin. destruct Hin as [Hin|Hin]; [|exact Hin].
      exfalso. exact (NoDup_disjoint _ _ p Hn Hin Hp').
  - inversion Hs as [|? ms ? mss0 Hf Hs0]; subst. rewrite !defs_of_cons in *. rewrite !map_app, !concat_app in *.
    apply runs_app_inv in Hr. destruct Hr as (s1 & R1 & R2).
    assert (Hsub : forall p, In p (concat (map all_messages (defs_of l mss'))) -> In p (concat (map all_messages (defs_of l' mss0)))).
    { intros p Hp. apply in_concat in Hp. destruct Hp as (x & Hx & Hp). apply in_map_iff in Hx. destruct Hx as (d & <- & Hd).
      apply in_concat. eexists. split; [apply in_map; eapply (def_of_In l l'); [apply some_incl; exact H|exact Hs0|eapply In_def_of; [exact Hs'|exact Hd]]|exact Hp]. }
    eapply (IH mss0 mss'); [exact Hs0|exact Hs'|exact R2|apply NoDup_app_remove_l in Hn; exact Hn|exact HQ| |].
    + intros p Hp Hp'. apply Hin; [exact Hp|]. apply in_or_app. right. exact Hp'.
    + intros p Hp. rewrite <- (Ha p Hp). apply (runs_frame _ _ _ R1). intros Hi.
      apply (NoDup_disjoint _ _ p Hn Hi). apply Hsub. apply Hin; [exact Hp|]. apply in_or_app. left. exact Hi.
Qed.

(** ** The headers *)

Lemma generate_fewer limit files r hs : legal r -> some_of files r -> self_contained files -> generate limit r = Some hs ->
  exists hs', generate limit files = Some hs' /\ some_of (combine files hs') (combine r hs).
Proof.
  intros Hl Hso Hc Hg. pose proof (some_legal _ _ Hso Hl) as Hlf. pose proof (some_incl _ _ Hso) as Hi.
  unfold generate in Hg. destruct (sequence (map sort_file r)) as [fl|] eqn:E1; [|discriminate].
  destruct (sort_fewer _ _ _ Hso E1) as [fl' E1'].
  destruct (sorted_files _ _ E1) as (mss & Hs & Efl). destruct (sorted_files _ _ E1') as (mss' & Hs' & Efl').
  assert (Ed : concat fl = defs_of r mss) by (rewrite Efl; reflexivity). assert (Ed' : concat fl' = defs_of files mss') by (rewrite Efl'; reflexivity).
  cbv zeta in Hg. rewrite Ed in Hg. destruct (forallb _ _) eqn:E2; [|discriminate].
  destruct (register_passes 3 fl true no_regs) as [all st] eqn:E3. destruct all; [|discriminate].
  destruct (sequence (map (fun ds => _) fl)) as [css|] eqn:E4; [|discriminate]. injection Hg as <-.
  assert (Hr : runs (defs_of r mss) no_regs st).
  { apply register_passes_runs in E3. destruct E3 as [[E3 _]|E3]; [discriminate|]. rewrite Ed in E3. exact E3. }
  assert (Hn : NoDup (concat (map all_messages (defs_of r mss)))) by (apply (request_messages _ _ Hs); apply legal_nodup; exact Hl).
  unfold generate. rewrite E1'. cbv zeta. rewrite Ed'.
  assert (E2' : forallb (match_all (concat (map all_messages (defs_of files mss')))
    (concat (map (fun f => map (fun e => p_package f ++ [e]) (p_enums f)) files) ++ concat (map all_enums (defs_of files mss')))) (defs_of files mss') = true).
  { apply forallb_forall. intros d Hd. rewrite forallb_forall in E2. apply (match_fewer files r mss mss' d Hl Hso Hc Hs Hs' Hd).
    apply E2. eapply def_of_In; [exact Hi|exact Hs|]. eapply In_def_of; eassumption. }
  rewrite E2'. clear E2'.
  set (Q := within files r files mss mss').
  assert (HQ : forall p, Q p -> In p (concat (map all_messages (defs_of r mss))) -> In p (concat (map all_messages (defs_of files mss')))).
  { intros p [(d & Hd & Hp)|[H _]] Hp'; [|contradiction]. apply in_concat. eexists. split; [apply in_map; eapply (def_of_In files files); [apply incl_refl|exact Hs'|exact Hd]|exact Hp]. }
  assert (Hdw : forall d e, def_of files d -> In e (all_defs d) -> Q (d_scope e) /\ forall f, In f (d_fields e) -> refs_in Q (f_class f)).
  { intros d e Hd He. apply (def_within files r files mss mss' Hl Hlf Hi (incl_refl _) Hc Hs Hs' d e Hd He). }
  destruct (register_fewer Q files r Hso mss mss' no_regs st no_regs Hs Hs' Hr Hn) as (st' & E3' & Ha).
  { intros d e Hd He. destruct (Hdw d e (In_def_of _ _ _ Hs' Hd) He) as [H1 H2]. split; [exact H1|]. intros f ref Hf Hcl. apply (H2 f Hf ref ref); [|apply prefix_refl].
    rewrite Hcl. left. reflexivity. }
  { exact HQ. }
  { intros p _. reflexivity. }
  rewrite <- Efl' in E3'. cbn [register_passes]. rewrite E3'.
  assert (Heq : forall d, def_of files d -> render (templates limit st) d = render (templates limit st') d).
  { intros d Hd. apply (within_render files r files mss mss' st st' Hl Hlf Hi (incl_refl _) Hc Hs Hs' Hr); [|exact Hd].
    rewrite <- Ed'. eapply register_files_runs. exact E3'. }
  apply sequence_map in E4.
  assert (Hfin : forall l l', some_of l l' -> forall ms1 ms2 cs1, incl l files -> Forall2 sorted_file l ms1 -> Forall2 sorted_file l' ms2 ->
    Forall2 (fun ds cs => sequence (map (render (templates limit st)) ds) = Some cs) (map (fun '(f, ms) => map (define (p_package f)) ms) (combine l' ms2)) cs1 ->
    exists cs2, sequence (map (fun ds => sequence (map (render (templates limit st')) ds)) (map (fun '(f, ms) => map (define (p_package f)) ms) (combine l ms1))) = Some cs2
      /\ some_of (combine l (map (fun '(f, cs) => {| h_package := p_package f; h_enums := p_enums f; h_classes := cs |}) (combine l cs2)))
                 (combine l' (map (fun '(f, cs) => {| h_package := p_package f; h_enums := p_enums f; h_classes := cs |}) (combine l' cs1)))).
  { clear - Heq. induction 1 as [|f l l' H IH|f l l' H IH]; intros ms1 ms2 cs1 Hincl F1 F2 Hc.
    - inversion F1; inversion F2; subst. inversion Hc; subst. exists []. split; [reflexivity|constructor].
    - inversion F1 as [|? m1 ? ms1' S1 F1']; inversion F2 as [|? m2 ? ms2' S2 F2']; subst. rewrite <- (sorted_file_fun _ _ _ S1 S2) in *.
      cbn [combine map] in Hc. inversion Hc as [|? c ? cs Hc1 Hc2]; subst.
      destruct (IH ms1' ms2' cs (fun x Hx => Hincl x (or_intror Hx)) F1' F2' Hc2) as (cs2 & E & Hso). exists (c :: cs2).
      cbn [combine map sequence]. rewrite E.
      assert (Em : map (render (templates limit st')) (map (define (p_package f)) m1) = map (render (templates limit st)) (map (define (p_package f)) m1)).
      { apply map_ext_in. intros d Hd. symmetry. apply Heq. apply in_map_iff in Hd. destruct Hd as (m & <- & Hm). exists f, m1, m.
        split; [apply Hincl; left; reflexivity|]. auto. }
      rewrite Em, Hc1. split; [reflexivity|]. apply some_keep. exact Hso.
    - inversion F2 as [|? m2 ? ms2' S2 F2']; subst. cbn [combine map] in Hc. inversion Hc as [|? c ? cs Hc1 Hc2]; subst.
      destruct (IH ms1 ms2' cs Hincl F1 F2' Hc2) as (cs2 & E & Hso). exists cs2. split; [exact E|]. cbn [combine map]. apply some_skip. exact Hso. }
  rewrite Efl in E4. destruct (Hfin files r Hso mss' mss css (incl_refl _) Hs' Hs E4) as (cs2 & E & Hfs). rewrite <- Efl' in E. rewrite E.
  eexists. split; [reflexivity|exact Hfs].
Qed.
