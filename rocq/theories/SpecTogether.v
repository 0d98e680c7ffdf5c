(** * SpecTogether: files of a request that use no types of other files. *)
From Verif Require Import Base Schema Printf Generator SpecGenerator.
From Coq Require Import List.

(** The types of the fields in these files are in these files: they contain, with a file, all that it imports. *)
Definition self_contained (files : list pfile) : Prop := forall s m g T,
  message files s m -> In g (m_fields m) -> refers g T -> In T (concat (map file_type_names files)).

(** Some of the files of a request, in the order of the request. *)
Inductive some_of {A} : list A -> list A -> Prop :=
| some_none : some_of [] []
| some_keep x l l' : some_of l l' -> some_of (x :: l) (x :: l')
| some_skip x l l' : some_of l l' -> some_of l (x :: l').
