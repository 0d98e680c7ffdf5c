(** * LongerSamples: sample requests with names that continue other names. *)
From Coq Require Import String.
From Verif Require Import Base Schema Printf Generator SpecGenerator SpecLonger GenOrder GenSort GenNames GenSamples.
From Coq Require Import List Lia.

Definition plain_namesb (f : pfile) : bool :=
  let used := file_type_names f ++ file_refs f in
  (match p_package f with [] => forallb (fun m => forallb (fun T => negb (text_eqb (concat T) (p_name m)) || path_eqb T [p_name m]) used) (p_msgs f) | _ => true end)
  && forallb (nodupb text_eqb) used
  && forallb (fun '(_, m) => negb (text_eqb (p_name m) (chars "FieldErrorRecursive"))) (file_messages f).
Lemma plain_namesb_spec f : plain_namesb f = true -> plain_names f.
Proof.
  unfold plain_namesb, plain_names. intros H. repeat (apply andb_true_iff in H; let H' := fresh in destruct H as [H H']).
  assert (Hu : forall T, In T (file_type_names f) \/ file_ref f T -> In T (file_type_names f ++ file_refs f)).
  { intros T [HT|HT]; apply in_or_app; [left; exact HT|right; apply file_refs_spec; exact HT]. }
  rewrite forallb_forall in H0, H1. split; [|split].
  - intros Ep m T Hm HT E. rewrite Ep in H. rewrite forallb_forall in H. specialize (H m Hm). rewrite forallb_forall in H. specialize (H T (Hu T HT)).
    rewrite E in H. rewrite (proj2 (text_eqb_eq _ _) eq_refl) in H. cbn in H. apply path_eqb_eq. exact H.
  - intros T HT. eapply nodupb_spec; [apply text_eqb_eq|]. apply H1, Hu, HT.
  - intros s m Hm E. apply file_messages_spec in Hm. specialize (H0 _ Hm). cbn in H0. rewrite E in H0. discriminate.
Qed.

Definition starts_alikeb (f : pfile) (M : pmsg) : bool :=
  let a := p_package f ++ [p_name M] in
  forallb (fun '(s, m) => forallb (fun g => forallb (fun T => negb (inb T (file_type_names f)) ||
     (starts_with (dotted a) (dotted T) && (negb (path_eqb s a) || path_eqb T a || path_eqb (removelast T) a && Nat.leb 1 (List.length T)))) (ref_of g)) (m_fields m))
    (messages_in (p_package f) M).
Lemma starts_alikeb_spec f M : starts_alikeb f M = true -> starts_alike f M.
Proof.
  unfold starts_alikeb, starts_alike. intros H s m g T Hi Hg Hr HT. rewrite forallb_forall in H. apply messages_in_spec in Hi.
  specialize (H _ Hi). cbv beta iota in H. rewrite forallb_forall in H. specialize (H _ Hg). rewrite forallb_forall in H.
  apply ref_of_spec in Hr. specialize (H _ Hr). rewrite (proj2 (inb_spec _ _) HT) in H. cbn [negb orb] in H. apply andb_true_iff in H. destruct H as [H1 H2].
  split; [apply starts_with_spec; exact H1|]. intros E. rewrite (proj2 (path_eqb_eq _ _) E) in H2. cbn [negb orb] in H2. apply orb_true_iff in H2.
  destruct H2 as [H2|H2]; [left; apply path_eqb_eq; exact H2|right]. apply andb_true_iff in H2. destruct H2 as [H2 H3]. apply path_eqb_eq in H2.
  rewrite <- H2. exists (last T []). apply app_removelast_last. intros ->. discriminate.
Qed.

(** package app; message LogEntry { string text = 1; } message Log { message Page { LogEntry entries = 1; Page next = 2; } Page first = 1; sint32 count = 2; }
    and with "repeated LogEntry". *)
Definition logs rep : list pfile :=
  [{| p_package := pa ["app"]; p_enums := [];
      p_msgs := [msg "LogEntry" [] [fld "text" PString false 0];
                 msg "Log" [msg "Page" [] [fld "entries" (PMessage (pa ["app"; "LogEntry"])) rep 0; fld "next" (PMessage (pa ["app"; "Log"; "Page"])) false 0]]
                   [fld "first" (PMessage (pa ["app"; "Log"; "Page"])) false 0; fld "count" (PScalar SInt32) false 0]] |}]%string.
Lemma logs_unclear : ~ Forall clear_names (logs true).
Proof.
  intros H. inversion H as [|f l (H1 & _) _ E]; subst. clear H.
  destruct (H1 (pa ["app"; "Log"]%string) (msg "Log" [msg "Page" [] [fld "entries" (PMessage (pa ["app"; "LogEntry"])) true 0; fld "next" (PMessage (pa ["app"; "Log"; "Page"])) false 0]]
                   [fld "first" (PMessage (pa ["app"; "Log"; "Page"])) false 0; fld "count" (PScalar SInt32) false 0])%string (pa ["app"; "LogEntry"]%string)) as [r E].
  - apply file_messages_spec. right. left. reflexivity.
  - left. apply inb_spec. vm_compute. reflexivity.
  - exists (chars "Entry"). vm_compute. reflexivity.
  - destruct r; discriminate.
Qed.
