(** * SpecFieldOrder: the records of a message in another order. *)
From Verif Require Import Base Schema Spec.
From Coq Require Import Permutation.

(** [r] is one record of the message type with field number [n]: a tag, and a body that the merge of
    Spec.v ([rdec]) accepts for some value. *)
Definition one_record (fs : list fdesc) (os : list odesc) '((n, r) : Z * list Z) : Prop :=
  (exists tg w rest, r = tg ++ rest /\ varint32 tg (n * 8 + wt_code w)) /\ exists old new, rdec fs os old r new.

(** A record with number [n'] concerns the field with number [n]: it is the same field, or both are members of
    one oneof. *)
Definition concerns (os : list odesc) (n n' : Z) : bool :=
  (n =? n') || existsb (fun ms => existsb (fun m => fst m =? n) ms && existsb (fun m => fst m =? n') ms) os.

(** The records [rs'] are the records [rs] in another order, but those that concern the same field are in
    the same order. *)
Definition other_order (os : list odesc) (rs rs' : list (Z * list Z)) : Prop :=
  Permutation rs rs'
  /\ forall n, filter (fun r => concerns os n (fst r)) rs = filter (fun r => concerns os n (fst r)) rs'.

Definition message_field (fs : list fdesc) (os : list odesc) (n : Z) (fs' : list fdesc) (os' : list odesc) : Prop :=
  (exists k, In (n, k, EMsg fs' os') fs) \/ exists ms, In ms os /\ In (n, EMsg fs' os') ms.

(** [reordered fs os bs bs']: the same records in another order, at any depth. *)
Inductive reordered : list fdesc -> list odesc -> list Z -> list Z -> Prop :=
| reordered_records fs os rs rs1 rs' : Forall (one_record fs os) rs -> inside fs os rs rs1 -> other_order os rs1 rs' ->
    reordered fs os (concat (map snd rs)) (concat (map snd rs'))
with inside : list fdesc -> list odesc -> list (Z * list Z) -> list (Z * list Z) -> Prop :=
| inside_none fs os : inside fs os [] []
| inside_same fs os r rs rs' : inside fs os rs rs' -> inside fs os (r :: rs) (r :: rs')
| inside_nested fs os n fs' os' tg len p p' rs rs' : message_field fs os n fs' os' ->
    varint32 tg (n * 8 + wt_code LENDEL) -> varint32 len (zlen p) -> reordered fs' os' p p' -> inside fs os rs rs' ->
    inside fs os ((n, tg ++ len ++ p) :: rs) ((n, tg ++ len ++ p') :: rs').
