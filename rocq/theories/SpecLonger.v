(** * SpecLonger: messages whose name continues the name of another message (properties C57 and C59). *)
From Coq Require Import String.
From Verif Require Import Base Schema Printf Generator SpecGenerator.
From Coq Require Import List.

(** As clear_names, but the name of a message may be the beginning of other names: without a package, no type has a
    name whose parts, written together, are the name of another message of the file; no name is used twice in a full
    name; and no message has a certain name. *)
Definition plain_names (f : pfile) : Prop :=
  let used T := In T (file_type_names f) \/ file_ref f T in
  (p_package f = [] -> forall m T, In m (p_msgs f) -> used T -> concat T = p_name m -> T = [p_name m])
  /\ (forall T, used T -> NoDup T)
  /\ (forall s m, file_message f s m -> p_name m <> chars "FieldErrorRecursive").

(** Message [M], with the name .a, of the file uses no other types of the file than those whose names start with .a,
    such as .a.b or .ab; its own fields have no other types of the file than [M] and the types in it. *)
Definition starts_alike (f : pfile) (M : pmsg) : Prop :=
  let a := p_package f ++ [p_name M] in
  forall s m g T, inside (p_package f) M s m -> In g (m_fields m) -> refers g T -> In T (file_type_names f) ->
    (exists r, full_name T = full_name a ++ r) /\ (s = a -> T = a \/ exists x, T = a ++ [x]).
