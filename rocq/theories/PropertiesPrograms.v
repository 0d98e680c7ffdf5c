(** * Property C93: programs with different versions of the .proto files that keep each other up to date.

    Specification: SpecPrograms.v. [happens] runs the generated code of every object's own class; [expected] says, from the calls
    and from the fields of the .proto files that the messages have in common, what deserialize() is to return and what the getters are to show. *)
From Coq Require Import String.
From Verif Require Import Base Buffers Schema Api Spec SpecRetype SpecVersions SpecApi SpecHistory Contracts Printf Generator SpecGenerator SpecInstance GenMembers SpecMembers
  GenBody SpecBody SpecEvolve SpecUpdate SpecTalk SpecPrograms ProgramsProofs ProgramsSamples.
From Coq Require Import List.

(** C93: whatever new objects of these classes go through, deserialize() returns what is expected and the getters show what is expected, wherever
    something is. *)
Theorem C93_programs : forall cs events known st, Forall made_ok cs -> expected cs (fresh_contents cs) events known st ->
  forall answers obs, happens cs (fresh_objects cs) events answers obs -> right (fun e => e) known answers /\ all_show cs st obs.
Proof. exact programs_agree. Qed.
Print Assumptions C93_programs.

(** And it does happen. *)
Theorem C93_go_on : forall cs events known st, Forall made_ok cs -> expected cs (fresh_contents cs) events known st ->
  exists answers obs, happens cs (fresh_objects cs) events answers obs.
Proof. exact programs_go_on. Qed.
Print Assumptions C93_go_on.

Example C93_applies : Forall made_ok three /\ expected three (fresh_contents three) exchange [Some NoErrors; Some NoErrors; Some ArrayFull; None; Some NoErrors]
  [Some screen_in_the_end; Some window_in_the_end; Some screen_in_the_end].
Proof. split; [exact three_ok|exact exchange_expected]. Qed.
