(** * Property C68: the headers do not depend on the order of the messages in the .proto files.

    [generate limit request]: the headers the generator writes for the files [request]; None: an error.
    [file_reordered f f']: f' has the messages of f, at the top and inside messages, in another order.
    [legal]: what protoc guarantees of the names. *)
From Coq Require Import String.
From Verif Require Import Base Schema Printf Generator SpecGenerator GenSamples SpecReorder ReorderProofs.
From Coq Require Import List Permutation.
Local Open Scope string_scope.

Theorem C68_reordered : forall limit request request',
  legal request -> Forall2 file_reordered request request' ->
  generate limit request' = generate limit request.
Proof. exact generate_reordered. Qed.
Print Assumptions C68_reordered.

(** Messages that use each other in both directions of the order, and messages inside a message. *)
Definition here : list pfile :=
  file [msg "B" [] [fld "a" (PMessage (pa ["A"])) false 0];
        msg "A" [msg "Y" [] [fld "x" (PMessage (pa ["A"; "X"])) false 0]; msg "X" [] [fld "s" PString false 0]; msg "W" [] []]
          [fld "y" (PMessage (pa ["A"; "Y"])) false 0];
        msg "D" [] []; msg "C" [] []].
Definition there : list pfile :=
  file [msg "C" [] []; msg "D" [] [];
        msg "A" [msg "W" [] []; msg "X" [] [fld "s" PString false 0]; msg "Y" [] [fld "x" (PMessage (pa ["A"; "X"])) false 0]]
          [fld "y" (PMessage (pa ["A"; "Y"])) false 0];
        msg "B" [] [fld "a" (PMessage (pa ["A"])) false 0]].
Example C68_reordered_applies :
  legal here /\ Forall2 file_reordered here there /\ here <> there
  /\ exists h, generate 10 there = Some [h]
     /\ map (fun '(Class _ n _ nested _) => (n, map (fun '(Class _ n' _ _ _) => n') nested)) (h_classes h)
        = [(chars "A", [chars "W"; chars "X"; chars "Y"]); (chars "C", []); (chars "D", []); (chars "B", [])]%list.
Proof.
  split; [apply legalb_spec; vm_compute; reflexivity|]. split; [|split; [discriminate|]].
  - assert (Hs : forall n fields, reordered (msg n [] fields) (msg n [] fields)).
    { intros n fields. eapply Reordered; constructor. }
    constructor; [|constructor]. split; [reflexivity|]. split; [reflexivity|]. eexists. split.
    + constructor; [apply Hs|]. constructor; [|constructor; [apply Hs|constructor; [apply Hs|constructor]]].
      eapply Reordered; [constructor; [apply Hs|constructor; [apply Hs|constructor; [apply Hs|constructor]]]|].
      eapply Permutation_trans; [apply Permutation_rev|]. apply Permutation_refl.
    + eapply Permutation_trans; [apply Permutation_rev|]. apply Permutation_refl.
  - eexists. split; vm_compute; reflexivity.
Qed.

(** Nor does it matter in which order Python enumerates the dictionary and the sets of dependencies. *)
Theorem C68_runs : forall data data',
  same_dictionary data data' -> toposort_flatten data = toposort_flatten data'.
Proof. exact toposort_same. Qed.
Print Assumptions C68_runs.

Example C68_runs_applies :
  let data := [(chars "c", [chars "b"; chars "a"]); (chars "b", [chars "x"])]%list in
  let data' := [(chars "b", [chars "x"]); (chars "c", [chars "a"; chars "b"; chars "a"])]%list in
  same_dictionary data data' /\ toposort_flatten data = Some [chars "a"; chars "x"; chars "b"; chars "c"]%list.
Proof.
  cbv zeta. split; [|vm_compute; reflexivity]. eexists. split; [|apply perm_swap].
  constructor; [split; [reflexivity|]|constructor; [split; [reflexivity|]|constructor]]; intros x; cbn; tauto.
Qed.
