(** * SpecParams: the lengths that the user of a generated class has to give. *)
From Coq Require Import String.
From Verif Require Import Base Schema Printf Generator SpecGenerator.
From Coq Require Import List.

(** A length that is left open in message [s]: the fields on the way to it, each with the name of its
    message, and the kind of length: of a string, or of a list. A single field with the type of a message around its own
    message does not count. *)
Inductive open_length (request : list pfile) : path -> list (text * text) -> text -> Prop :=
| ol_string s m g : message request s m -> In g (m_fields m) -> pf_type g = PString \/ pf_type g = PBytes -> pf_max g = 0 ->
    open_length request s [(p_name m, pf_name g)] (chars "LENGTH")
| ol_list s m g : message request s m -> In g (m_fields m) -> pf_repeated g = true -> pf_max g = 0 -> ~ refers g s ->
    open_length request s [(p_name m, pf_name g)] (chars "REP_LENGTH")
| ol_inside s m g T way kind : message request s m -> In g (m_fields m) -> (pf_repeated g = true -> pf_max g = 0) ->
    pf_type g = PMessage T -> T <> s -> (prefix T s -> pf_repeated g = true) -> open_length request T way kind ->
    open_length request s ((p_name m, pf_name g) :: way) kind.

(** The name of the parameter for it: all these names, separated by underscores. *)
Definition parameter_name (way : list (text * text)) (kind : text) : text :=
  concat (map (fun '(m, f) => m ++ chars "_" ++ f ++ chars "_") way) ++ kind.

(** The user has to give finitely many lengths: no message comes back to a list of itself, again and again. *)
Definition finite_lengths (request : list pfile) : Prop :=
  exists n, forall s way kind, open_length request s way kind -> (length way <= n)%nat.
