(** * Property C91: the header of a file does not depend on what else the generator is given.

    protoc passes, with the files to generate, all files they import, and the generator writes a header for every file of
    the request. [In (f, h) (combine request hs)]: [h] is the header written for the file [f]. [self_contained files]:
    the files contain all types that they use. See SpecTogether.v and SpecGenerator.v. *)
From Coq Require Import String.
From Verif Require Import Base Schema Printf Generator SpecGenerator SpecTogether GenSamples GenTogether2 GenTogether3 TogetherSamples.
From Coq Require Import List.

(** The header of a file that is in two requests with all it uses is the same, whatever else is in the requests and in
    whatever order. *)
Theorem C91_header : forall limit limit' files request request' hs hs' f h h', legal request -> legal request' ->
  incl files request -> incl files request' -> self_contained files -> In f files ->
  generate limit request = Some hs -> generate limit' request' = Some hs' ->
  In (f, h) (combine request hs) -> In (f, h') (combine request' hs') -> h = h'.
Proof. exact header_same. Qed.
Print Assumptions C91_header.

(** The four files of [with_more] and the two of [good]; the header has classes with template parameters. *)
Example C91_header_applies : exists hs hs' f h h', legal good /\ legal with_more /\ incl good good /\ incl good with_more
  /\ self_contained good /\ In f good /\ generate 10 good = Some hs /\ generate 20 with_more = Some hs'
  /\ In (f, h) (combine good hs) /\ In (f, h') (combine with_more hs')
  /\ length hs = 2%nat /\ length hs' = 4%nat /\ exists c, In c (h_classes h) /\ length (c_params c) = 5%nat.
Proof.
  exists (headers_of good), (headers_of with_more), (nth 1 good other_proto).
  eexists (nth 1 (headers_of good) {| h_package := []; h_enums := []; h_classes := [] |}),
          (nth 2 (headers_of with_more) {| h_package := []; h_enums := []; h_classes := [] |}).
  split; [exact good_legal|]. split; [apply legalb_spec; vm_compute; reflexivity|]. split; [apply incl_refl|].
  split; [intros x Hx; right; apply in_or_app; left; exact Hx|]. split; [apply self_containedb_spec; vm_compute; reflexivity|].
  split; [right; left; reflexivity|]. split; [vm_compute; reflexivity|]. split; [vm_compute; reflexivity|].
  split; [vm_compute; right; left; reflexivity|]. split; [vm_compute; right; right; left; reflexivity|].
  split; [vm_compute; reflexivity|]. split; [vm_compute; reflexivity|].
  eexists. vm_compute. split; [right; left; reflexivity|reflexivity].
Qed.

(** What can be generated as part of a larger request can be generated without the rest, with the same headers: leaving
    out files that the others do not use is never an error. *)
Theorem C91_fewer : forall limit files request hs, legal request -> some_of files request -> self_contained files ->
  generate limit request = Some hs ->
  exists hs', generate limit files = Some hs' /\ some_of (combine files hs') (combine request hs).
Proof. exact generate_fewer. Qed.
Print Assumptions C91_fewer.

Example C91_fewer_applies : legal with_more /\ some_of good with_more /\ self_contained good
  /\ exists hs hs', generate 10 with_more = Some hs /\ generate 10 good = Some hs' /\ hs <> hs'.
Proof.
  split; [apply legalb_spec; vm_compute; reflexivity|].
  split; [apply some_skip; apply some_keep; apply some_keep; apply some_skip; apply some_none|].
  split; [apply self_containedb_spec; vm_compute; reflexivity|]. eexists _, _. split; [vm_compute; reflexivity|]. split; [vm_compute; reflexivity|].
  discriminate.
Qed.
