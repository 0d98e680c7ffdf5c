(** A conversation of two objects, used beside the theorems of C88. *)
From Verif Require Import Base Buffers Wire Schema Fields Message Spec SpecVersions SpecMerge Contracts Api SpecApi SpecHistory Samples CleanProofs SpecTalk.

(** Object 0 is filled and sent to object 1, which has p set, adds to its list, and sends twice; the second time the list of
    object 0 is too short for it. Object 1 receives a byte from elsewhere. Both are cleared, object 1 gets a value and
    is copied to object 0. *)
Definition sample_steps : list step :=
  [Call 0 (OpField 0 (OpScalarSet 300)); Call 0 (OpField 1 (OpCStr (Some [104; 105; 0]))); Call 0 (OpField 2 (OpRepAdd (VS 7)));
   Call 1 (OpOneof 0 7 (OpScalarSet 1)); Send 0 1; Call 1 (OpField 2 (OpRepAdd (VS 8))); Send 1 0].
Definition sample_steps' : list step :=
  [Send 1 0; Send 1 0; Call 1 (OpDeserialize [37]); Call 0 OpClear; Call 1 OpClear; Call 1 (OpField 0 (OpScalarSet 5)); Copy 1 0].

Definition outer_shows (u : Z) (s : list Z) (r : list Z) (o : Z * sval) : sval :=
  SvM [SvZ u; SvB s; SvR (map SvZ r); SvR []; SvNone; SvM [SvZ 0; SvNone; SvB []] []] [o].

Definition sample_known : list (option sval) :=
  [Some (outer_shows 300 [104; 105] [7; 7; 8] (7, SvSome (SvZ 1))); Some (outer_shows 300 [104; 105] [7; 8] (7, SvSome (SvZ 1)))].

Ltac ok_call := cbn; unfold is_byte, is_u32, legal_index; repeat split; try (vm_compute; congruence); try lia; repeat (constructor; try lia).
Ltac t_call := eapply talk_call; [reflexivity|ok_call|apply no_copying_keeps; exact I|vm_compute; reflexivity|cbn [upd]].
Ltac t_send := eapply talk_send; [reflexivity|reflexivity|vm_compute; reflexivity|vm_compute; reflexivity|vm_compute merge; cbn [upd]].

Lemma sample_talk : talk Outer (repeat (Some (sdefault Outer)) 2) sample_steps (repeat (Some NoErrors) 7) sample_known.
Proof. unfold sample_steps. cbn [repeat]. t_call. t_call. t_call. t_call. t_send. t_call. t_send. constructor. Qed.

Lemma sample_talk' : talk Outer sample_known sample_steps' [Some ArrayFull; None; None; Some NoErrors; Some NoErrors; Some NoErrors; Some NoErrors]
  (let x := Some (outer_shows 5 [] [] (0, SvNone)) in [x; x]).
Proof.
  unfold sample_steps', sample_known. eapply talk_send_full; [reflexivity|reflexivity|vm_compute; reflexivity|vm_compute; reflexivity|cbn [upd]].
  eapply talk_send_unknown; [reflexivity|reflexivity|vm_compute; reflexivity|]. apply talk_noise; [cbn; lia|ok_call|cbn [upd]].
  apply talk_clear; [cbn; lia|cbn [upd]]. apply talk_clear; [cbn; lia|cbn [upd]]. t_call.
  eapply talk_copy; [discriminate|reflexivity|reflexivity| |cbn [upd]; constructor].
  change (sdefault Outer) with (view Outer (default_value Outer)).
  match goal with |- no_shorter _ _ ?x => replace x with (view Outer (VM [0] [VS 5; VB 0 [0; 0; 0; 0; 0; 0; 0; 0]; VR 0 [VS 0; VS 0; VS 0; VS 0]; VR 0 [default_value Inner; default_value Inner; default_value Inner]; VS 0; default_value Inner] [(0, VIndet)])) by (vm_compute; reflexivity) end.
  change (view Outer (default_value Outer)) with (sdefault Outer). apply no_shorter_default; [exact Outer_ok|ok_call].
Qed.

Lemma talk_app t st steps known st1 : talk t st steps known st1 -> forall steps' known' st2, talk t st1 steps' known' st2 -> talk t st (steps ++ steps') (known ++ known') st2.
Proof.
  induction 1; intros; cbn [app]; auto.
  - eapply talk_call; eauto.
  - now apply talk_clear; auto.
  - now apply talk_noise; auto.
  - eapply talk_copy; eauto.
  - eapply talk_send; eauto.
  - eapply talk_send_full; eauto.
  - eapply talk_send_unknown; eauto.
Qed.
