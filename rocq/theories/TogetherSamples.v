(** * TogetherSamples: requests with the same files for PropertiesTogether.v. *)
From Coq Require Import String.
From Verif Require Import Base Schema Printf Generator SpecGenerator SpecTogether GenSamples.
From Coq Require Import List.

Definition self_containedb (files : list pfile) : bool :=
  forallb (fun '(_, _, _, T) => inb T (concat (map file_type_names files))) (request_uses files).
Lemma self_containedb_spec files : self_containedb files = true -> self_contained files.
Proof.
  intros H s m g T Hm Hg Hr. unfold self_containedb in H. rewrite forallb_forall in H.
  specialize (H _ (request_uses_spec _ _ _ _ _ Hm Hg Hr)). cbn in H. apply inb_spec. exact H.
Qed.

Local Open Scope string_scope.
(** package lib.more; message Note { lib.Name author; string text; }: uses a file of [good]. *)
Definition more_proto : pfile :=
  {| p_package := pa ["lib"; "more"]; p_enums := [];
     p_msgs := [msg "Note" [] [fld "author" (PMessage (pa ["lib"; "Name"])) false 0; fld "text" PString false 0]] |}.
(** message Other { bytes data = 1; } *)
Definition other_proto : pfile := {| p_package := []; p_enums := [chars "Kind"]; p_msgs := [msg "Other" [] [fld "data" PBytes false 0]] |}.
Definition with_more : list pfile := other_proto :: good ++ [more_proto].
