(** * Property C88: objects that are changed by calls and send each other messages.

    Specification: SpecTalk.v. [talk]: what the calls are to answer and what the objects are to show in the end, told from
    the calls ([effect]) and from what is merged into what ([merge], SpecMerge.v); [does]: what the code does. *)
From Verif Require Import Base Buffers Wire Schema Fields Message Spec SpecVersions SpecMerge Contracts Api SpecApi SpecHistory Samples SpecTalk TalkProofs TalkSamples.

(** C88: whatever new objects of a class go through, in whatever order, the answers and the final contents are those the
    specification says, wherever it says any. *)
Theorem C88_conversation : forall fs os n steps known st, let t := EMsg fs os in desc_ok t -> talk t (repeat (Some (sdefault t)) n) steps known st ->
  forall answers vs, does t (repeat (default_value t) n) steps answers vs -> right (fun e => e) known answers /\ right (view t) st vs.
Proof. exact conversation. Qed.
Print Assumptions C88_conversation.

(** And it does happen, if no bytes come from elsewhere (those may keep deserialize() busy for ever: C28). *)
Theorem C88_goes_on : forall fs os n steps known st, let t := EMsg fs os in desc_ok t -> talk t (repeat (Some (sdefault t)) n) steps known st -> Forall no_noise steps ->
  exists answers vs, does t (repeat (default_value t) n) steps answers vs.
Proof. exact conversation_goes_on. Qed.
Print Assumptions C88_goes_on.

Example C88_applies : desc_ok Outer /\ talk Outer (repeat (Some (sdefault Outer)) 2) sample_steps (repeat (Some NoErrors) 7) sample_known /\ Forall no_noise sample_steps.
Proof. split; [exact Outer_ok|]. split; [exact sample_talk|]. repeat constructor; cbn; tauto. Qed.

(** With a message that is too long, bytes from elsewhere, and clear(). *)
Example C88_recovers_applies : talk Outer (repeat (Some (sdefault Outer)) 2) (sample_steps ++ sample_steps')
  (repeat (Some NoErrors) 7 ++ [Some ArrayFull; None; None; Some NoErrors; Some NoErrors; Some NoErrors; Some NoErrors])
  (let x := Some (outer_shows 5 [] [] (0, SvNone)) in [x; x]).
Proof. exact (talk_app _ _ _ _ _ sample_talk _ _ _ sample_talk'). Qed.
