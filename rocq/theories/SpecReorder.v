(** * SpecReorder: the same definitions, written in another order. *)
From Verif Require Import Base Schema Generator.
From Coq Require Import List Permutation.

(** The messages inside are in another order; also the messages inside those may be. *)
Inductive reordered : pmsg -> pmsg -> Prop :=
| Reordered n enums fields oneofs nested mid nested' :
    Forall2 reordered nested mid -> Permutation mid nested' ->
    reordered (PMsg n nested enums fields oneofs) (PMsg n nested' enums fields oneofs).

(** The messages of a file are in another order. *)
Definition file_reordered (f f' : pfile) : Prop :=
  p_package f' = p_package f /\ p_enums f' = p_enums f
  /\ exists mid, Forall2 reordered (p_msgs f) mid /\ Permutation mid (p_msgs f').

(** Two dictionaries with the same keys, each with the same set, whatever the order in which they are enumerated. *)
Definition same_set (a b : list text) : Prop := forall x, In x a <-> In x b.
Definition same_dictionary (a b : list (text * list text)) : Prop :=
  exists mid, Forall2 (fun x y => fst x = fst y /\ same_set (snd x) (snd y)) a mid /\ Permutation mid b.
