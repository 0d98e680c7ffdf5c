(** * GenTogether2: the headers of two requests. *)
From Coq Require Import String.
From Verif Require Import Base Schema Printf Generator SpecGenerator SpecTogether GenOrder GenSort GenReg GenRender GenTypes GenNames GenAccept GenProps GenTogether.
From Coq Require Import List Permutation ZifyBool ZifyNat Lia.

(** ** Classes with the same template parameters *)

Fixpoint refs_of (c : fclass) : list path :=
  match c with FieldEnum r | FieldMessage r => [r] | FieldRepeated _ c' => refs_of c' | _ => [] end.
Lemma factory_refs s g T : In T (refs_of (f_class (factory s g))) -> refers g T.
Proof.
  unfold factory, single_factory, refers. cbn [f_class]. destruct (refers_to g s); [intros []|].
  destruct (pf_repeated g), (pf_type g) as [sc| | |r|r]; cbn; try (intros []; fail); intros [->|[]]; auto.
Qed.

Definition equal_on (P : path -> Prop) (t t' : path -> option (list text)) : Prop := forall p, P p -> t p = t' p.
Definition refs_in (P : path -> Prop) (c : fclass) : Prop := forall T q, In T (refs_of c) -> prefix q T -> P q.

Lemma class_params_equal P t t' f c : equal_on P t t' -> refs_in P c -> class_params t f c = class_params t' f c.
Proof.
  intros H. induction c as [sc|max|max|ref|ref|max c IH|]; intros Hr; try reflexivity.
  - cbn [class_params]. rewrite (H ref); [reflexivity|]. apply (Hr ref ref); [left; reflexivity|apply prefix_refl].
  - cbn [class_params]. rewrite IH; [reflexivity|exact Hr].
Qed.
Lemma forallb_equal {A} (g g' : A -> bool) l : (forall a, In a l -> g a = g' a) -> forallb g l = forallb g' l.
Proof.
  induction l as [|a l IH]; intros H; [reflexivity|]. cbn. rewrite (H a) by (left; reflexivity). f_equal. apply IH.
  intros b Hb. apply H. right. exact Hb.
Qed.
Lemma class_type_equal P t t' scope f c : equal_on P t t' -> refs_in P c -> class_type t scope f c = class_type t' scope f c.
Proof.
  intros H. induction c as [sc|max|max|ref|ref|max c IH|]; intros Hr; try reflexivity.
  - cbn [class_type]. assert (E : enum_scopes_ok t ref scope = enum_scopes_ok t' ref scope); [|rewrite E; reflexivity].
    apply forallb_equal. intros n _. rewrite (H (firstn n ref)); [reflexivity|]. apply (Hr ref); [left; reflexivity|]. apply firstn_prefix.
  - cbn [class_type]. rewrite (class_params_equal P t t' f (FieldMessage ref) H Hr). reflexivity.
  - cbn [class_type]. rewrite IH; [reflexivity|exact Hr].
Qed.
Lemma member_equal P t t' scope f : equal_on P t t' -> refs_in P (f_class f) -> member t scope f = member t' scope f.
Proof.
  intros H Hr. pose proof (class_type_equal P t t' scope f (f_class f) H Hr) as E. unfold member.
  destruct (f_class f); try reflexivity; rewrite E; reflexivity.
Qed.
Lemma render_equal P t t' d : equal_on P t t' ->
  (forall e, In e (all_defs d) -> P (d_scope e) /\ forall f, In f (d_fields e) -> refs_in P (f_class f)) -> render t d = render t' d.
Proof.
  intros H. induction d as [scope nested enums fields oneofs IH] using mdef_induction. intros Hd. cbn [render].
  destruct (Hd (MDef scope nested enums fields oneofs) (all_defs_self _)) as [Hs Hf]. cbn [d_scope d_fields] in Hs, Hf.
  rewrite (H scope Hs). rewrite Forall_forall in IH.
  rewrite (map_ext_in (render t) (render t') nested).
  - rewrite (map_ext_in (member t scope) (member t' scope) (all_fields fields oneofs)); [reflexivity|].
    intros f Hif. apply (member_equal P); [exact H|apply Hf; exact Hif].
  - intros a Ha. apply (IH a Ha). intros e He. apply Hd. cbn [all_defs]. apply in_or_app. left. apply in_concat.
    eexists. split; [apply in_map; exact Ha|exact He].
Qed.
Lemma templates_equal P st st' : agree P st st' -> (forall p f, P p -> In f (registered (st p)) -> refs_in P (f_class f)) ->
  forall limit, equal_on P (templates limit st) (templates limit st').
Proof.
  intros H Hr. induction limit as [|limit IH]; intros p Hp; [reflexivity|]. cbn [templates]. rewrite <- (H p Hp). f_equal. f_equal.
  apply map_ext_in. intros f Hf. apply (class_params_equal P); [exact IH|]. apply (Hr p f Hp Hf).
Qed.

(** ** The definitions of some files of a request *)

Definition defs_of (files : list pfile) (mss : list (list pmsg)) : list mdef :=
  concat (map (fun '(f, ms) => map (define (p_package f)) ms) (combine files mss)).
Definition def_of (files : list pfile) (d : mdef) : Prop := exists f ms m,
  In f files /\ sorted_file f ms /\ In m ms /\ d = define (p_package f) m.

Lemma sorted_file_fun f ms ms' : sorted_file f ms -> sorted_file f ms' -> ms = ms'.
Proof. intros (o & H & ->) (o' & H' & ->). rewrite H in H'. injection H' as ->. reflexivity. Qed.
Lemma combine_In {A B} (P : A -> B -> Prop) l l' a : Forall2 P l l' -> In a l -> exists b, In (a, b) (combine l l') /\ P a b.
Proof.
  induction 1 as [|x y l l' Hp Hl IH]; [intros []|]. intros [->|Hi]; [exists y; split; [left; reflexivity|exact Hp]|].
  destruct (IH Hi) as (b & Hb & Hp'). exists b. split; [right; exact Hb|exact Hp'].
Qed.
Lemma In_combine {A B} (P : A -> B -> Prop) l l' a b : Forall2 P l l' -> In (a, b) (combine l l') -> P a b.
Proof. induction 1 as [|x y l l' Hp Hl IH]; [intros []|]. intros [E|Hi]; [injection E as -> ->; exact Hp|auto]. Qed.
Lemma def_of_In files request mss d : incl files request -> Forall2 sorted_file request mss -> def_of files d -> In d (defs_of request mss).
Proof.
  intros Hi Hs (f & ms & m & Hf & Hsf & Hm & ->). destruct (combine_In _ _ _ f Hs (Hi f Hf)) as (ms' & Hc & Hs').
  rewrite (sorted_file_fun _ _ _ Hsf Hs') in Hm. unfold defs_of. apply in_concat. eexists. split; [apply in_map_iff; exists (f, ms'); split; [reflexivity|exact Hc]|].
  apply in_map. exact Hm.
Qed.
Lemma In_def_of files mss d : Forall2 sorted_file files mss -> In d (defs_of files mss) -> def_of files d.
Proof.
  intros Hs Hd. unfold defs_of in Hd. apply in_concat in Hd. destruct Hd as (l & Hl & Hd). apply in_map_iff in Hl. destruct Hl as ([f ms] & <- & Hc).
  apply in_map_iff in Hd. destruct Hd as (m & <- & Hm). exists f, ms, m.
  split; [apply in_combine_l in Hc; exact Hc|]. split; [apply (In_combine _ _ _ _ _ Hs Hc)|]. split; [exact Hm|reflexivity].
Qed.
(** The fields of these definitions are those of messages. *)
Lemma def_of_message files d e : def_of files d -> In e (all_defs d) -> exists s m,
  message files s m /\ d_scope e = s /\ forall f, In f (d_fields e) -> exists g, In g (m_fields m) /\ f = factory s g.
Proof.
  intros (f & ms & top & Hf & Hs & Ht & ->) He. apply all_defs_define in He. destruct He as (s & m' & Hi & ->).
  destruct (sorted_file_inside _ _ _ _ _ Hs Ht Hi) as (m & order & Hm & ->). exists s, m.
  split; [exists f; split; assumption|]. split; [eapply inside_d_scope; exact Hi|]. intros x Hx.
  apply d_fields_sub in Hx. rewrite sort_pmsg_name, sort_pmsg_fields in Hx.
  pose proof (message_scope files s m (ex_intro _ f (conj Hf Hm))) as Es. rewrite Es in Hx. exact Hx.
Qed.
Lemma def_of_proper files d e : def_of files d -> In e (all_defs d) -> proper (d_scope e) (d_fields e).
Proof.
  intros Hd He f Hf Hc. destruct (def_of_message _ _ _ Hd He) as (s & m & _ & Es & Hfs). destruct (Hfs f Hf) as (g & _ & ->).
  rewrite Es in Hc. apply factory_message in Hc. tauto.
Qed.
Lemma file_message_def files f s m ms : In f files -> sorted_file f ms -> file_message f s m -> exists d, def_of files d /\ In s (all_messages d).
Proof.
  intros Hf Hs Hm. destruct (sorted_file_message _ _ _ _ Hs Hm) as (top & order & Ht & Hi). exists (define (p_package f) top).
  split; [exists f, ms, top; auto|]. rewrite all_messages_defs. apply in_map_iff. eexists. split; [eapply inside_d_scope; exact Hi|].
  apply all_defs_define. eexists _, _. split; [exact Hi|reflexivity].
Qed.
Lemma defs_message request mss p : Forall2 sorted_file request mss -> In p (concat (map all_messages (defs_of request mss))) -> exists m, message request p m.
Proof.
  intros Hs Hp. apply in_concat in Hp. destruct Hp as (l & Hl & Hp). apply in_map_iff in Hl. destruct Hl as (d & <- & Hd).
  rewrite all_messages_defs in Hp. apply in_map_iff in Hp. destruct Hp as (e & <- & He).
  destruct (def_of_message request d e (In_def_of _ _ _ Hs Hd) He) as (s & m & Hm & -> & _). exists m. exact Hm.
Qed.

(** A message of the request around a type of a file is in that file. *)
Lemma around_type request f T q m : legal request -> In f request -> In T (file_type_names f) -> prefix q T -> message request q m ->
  exists m', file_message f q m'.
Proof.
  intros Hl Hf HT Hq (f2 & Hf2 & Hm).
  assert (Hnot : ~ prefix q (p_package f)).
  { apply (proj2 (proj2 Hl) f q Hf). apply in_concat. exists (file_type_names f2). split; [apply in_map; exact Hf2|]. eapply file_message_name. exact Hm. }
  assert (Hself : q = T -> exists m', file_message f q m').
  { intros ->. assert (f = f2); [|subst; exists m; exact Hm].
    eapply (NoDup_concat_eq file_type_names); [apply legal_nodup; exact Hl|exact Hf|exact Hf2|exact HT|]. eapply file_message_name. exact Hm. }
  apply file_type_names_inv in HT. destruct HT as [(e & He & ->)|(X & mX & (top & Ht & Hi) & HT)].
  - apply prefix_app_inv in Hq. destruct Hq as [Hq|(q' & -> & Hne & Hq)]; [contradiction|]. apply Hself. f_equal.
    destruct Hq as [r E]. destruct q' as [|x q']; [contradiction|]. injection E as <- E. symmetry in E. apply app_eq_nil in E. destruct E as [-> _]. reflexivity.
  - assert (HX : prefix q X -> exists m', file_message f q m').
    { intros Hp. destruct (inside_prefixes _ _ _ _ Hi q Hp) as [Hc|[mx Hx]]; [contradiction|]. exists mx, top. split; assumption. }
    destruct HT as [->|(e & He & ->)]; [apply HX; exact Hq|].
    apply prefix_app_inv in Hq. destruct Hq as [Hq|(q' & -> & Hne & Hq)]; [apply HX; exact Hq|]. apply Hself. f_equal.
    destruct Hq as [r E]. destruct q' as [|x q']; [contradiction|]. injection E as <- E. symmetry in E. apply app_eq_nil in E. destruct E as [-> _]. reflexivity.
Qed.

(** ** Two requests with the same files *)

Section Two.
  Variables (files r r' : list pfile) (mss mss' : list (list pmsg)) (st st' : regs).
  Hypothesis Hl : legal r.
  Hypothesis Hl' : legal r'.
  Hypothesis Hi : incl files r.
  Hypothesis Hi' : incl files r'.
  Hypothesis Hc : self_contained files.
  Hypothesis Hs : Forall2 sorted_file r mss.
  Hypothesis Hs' : Forall2 sorted_file r' mss'.
  Hypothesis Hr : runs (defs_of r mss) no_regs st.
  Hypothesis Hr' : runs (defs_of r' mss') no_regs st'.

  Definition within (p : path) : Prop := (exists d, def_of files d /\ In p (all_messages d))
    \/ (~ In p (concat (map all_messages (defs_of r mss))) /\ ~ In p (concat (map all_messages (defs_of r' mss')))).

  Lemma type_within T q : In T (concat (map file_type_names files)) -> prefix q T -> within q.
  Proof.
    intros HT Hq. apply in_concat in HT. destruct HT as (l & Hl0 & HT). apply in_map_iff in Hl0. destruct Hl0 as (f & <- & Hf).
    assert (Hin : forall m', file_message f q m' -> within q).
    { intros m' Hm'. left. destruct (combine_In _ _ _ f Hs (Hi f Hf)) as (ms & _ & Hsf). eapply file_message_def; eassumption. }
    destruct (in_dec path_dec q (concat (map all_messages (defs_of r mss)))) as [H1|H1].
    { apply (defs_message _ _ _ Hs) in H1. destruct H1 as [m Hm].
      destruct (around_type r f T q m Hl (Hi f Hf) HT Hq Hm) as [m' Hm']. eapply Hin. exact Hm'. }
    destruct (in_dec path_dec q (concat (map all_messages (defs_of r' mss')))) as [H2|H2]; [|right; split; assumption].
    apply (defs_message _ _ _ Hs') in H2. destruct H2 as [m Hm].
    destruct (around_type r' f T q m Hl' (Hi' f Hf) HT Hq Hm) as [m' Hm']. eapply Hin. exact Hm'.
  Qed.
  Lemma def_within d e : def_of files d -> In e (all_defs d) ->
    within (d_scope e) /\ forall f, In f (d_fields e) -> refs_in within (f_class f).
  Proof.
    intros Hd He. split; [left; exists d; split; [exact Hd|rewrite all_messages_defs; apply in_map; exact He]|].
    intros f Hf T q HT Hq. destruct (def_of_message _ _ _ Hd He) as (s & m & Hm & _ & Hfs). destruct (Hfs f Hf) as (g & Hg & ->).
    apply factory_refs in HT. apply (type_within T q); [eapply Hc; eassumption|exact Hq].
  Qed.
  Lemma defs_nodup : NoDup (concat (map all_messages (defs_of r mss))).
  Proof. apply (request_messages _ _ Hs). apply legal_nodup. exact Hl. Qed.
  Lemma defs_nodup' : NoDup (concat (map all_messages (defs_of r' mss'))).
  Proof. apply (request_messages _ _ Hs'). apply legal_nodup. exact Hl'. Qed.

  Lemma within_agree : agree within st st'.
  Proof.
    intros p [(d & Hd & Hp)|[H1 H2]].
    - refine (runs_agree (defs_of r mss) (defs_of r' mss') st st' (def_of files) Hr Hr' defs_nodup defs_nodup' _ _ _ d Hd p Hp).
      + intros d0 Hd0. split; eapply def_of_In; eassumption.
      + intros d0 e Hd0 He. eapply def_of_proper; eassumption.
      + intros d0 e f ref Hd0 He Hf Hcl Hin. destruct (def_within d0 e Hd0 He) as [_ Hw].
        destruct (Hw f Hf ref ref) as [Hx|[Hx _]]; [rewrite Hcl; left; reflexivity|apply prefix_refl|exact Hx|contradiction].
    - rewrite (runs_frame _ _ _ Hr p H1), (runs_frame _ _ _ Hr' p H2). reflexivity.
  Qed.
  Lemma within_registered p f : within p -> In f (registered (st p)) -> refs_in within (f_class f).
  Proof.
    intros Hp Hf. destruct (runs_only _ _ _ Hr p f Hf) as [[]|(d & e & Hd & He & Es & Hfe)].
    destruct Hp as [(d0 & Hd0 & Hp)|[H1 _]].
    - assert (d = d0).
      { eapply (NoDup_concat_eq all_messages); [exact defs_nodup|exact Hd|eapply def_of_In; [exact Hi|exact Hs|exact Hd0]| |exact Hp].
        rewrite all_messages_defs, <- Es. apply in_map. exact He. }
      subst d0. apply (def_within d e Hd0 He). exact Hfe.
    - exfalso. apply H1. apply in_concat. eexists. split; [apply in_map; exact Hd|]. rewrite all_messages_defs, <- Es. apply in_map. exact He.
  Qed.
  Lemma within_templates limit : equal_on within (templates limit st) (templates limit st').
  Proof. apply templates_equal; [exact within_agree|exact within_registered]. Qed.
  Lemma within_render limit d : def_of files d -> render (templates limit st) d = render (templates limit st') d.
  Proof.
    intros Hd. apply (render_equal within); [apply within_templates|]. intros e He. apply def_within with (d := d); assumption.
  Qed.
End Two.

Lemma header_same limit limit' files r r' hs hs' f h h' : legal r -> legal r' -> incl files r -> incl files r' -> self_contained files ->
  In f files -> generate limit r = Some hs -> generate limit' r' = Some hs' -> In (f, h) (combine r hs) -> In (f, h') (combine r' hs') -> h = h'.
Proof.
  intros Hl Hl' Hi Hi' Hc Hf Hg Hg' Hh Hh'.
  apply (generate_limit limit (Nat.max limit limit')) in Hg; [|lia]. apply (generate_limit limit' (Nat.max limit limit')) in Hg'; [|lia].
  remember (Nat.max limit limit') as n eqn:En. clear En limit limit'.
  destruct (generate_written _ _ _ Hg) as (mss & st & Hs & [Hr _] & Hw). destruct (generate_written _ _ _ Hg') as (mss' & st' & Hs' & [Hr' _] & Hw').
  apply (In_combine _ _ _ _ _ Hw) in Hh. apply (In_combine _ _ _ _ _ Hw') in Hh'.
  destruct Hh as (E1 & E2 & ms & Hms & Hcs). destruct Hh' as (E1' & E2' & ms' & Hms' & Hcs').
  rewrite <- (sorted_file_fun _ _ _ Hms Hms') in Hcs'. destruct h as [p es cs], h' as [p' es' cs']. cbn in *. subst. f_equal.
  assert (Heq : forall m, In m ms -> render (templates n st) (define (p_package f) m) = render (templates n st') (define (p_package f) m)).
  { intros m Hm. eapply (within_render files r r' mss mss' st st'); try eassumption. exists f, ms, m. auto. }
  clear - Hcs Hcs' Heq. revert cs' Hcs' Heq. induction Hcs as [|m c ms cs H1 H2 IH]; intros cs' H Heq; inversion H as [|? c' ? cs0 H1' H2']; subst; [reflexivity|].
  f_equal; [rewrite (Heq m) in H1 by (left; reflexivity); congruence|]. apply IH; [exact H2'|]. intros m' Hm'. apply Heq. right. exact Hm'.
Qed.
