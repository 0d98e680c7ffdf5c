(** * Receiving a message twice

    Specification of C85. *)
From Verif Require Import Base Schema Spec.

(** No repeated field in the type, at any depth. *)
Fixpoint list_free (t : ety) : Prop :=
  match t with
  | EMsg fs os => all (fun '(_, k, t) => match k with KRep _ => False | _ => list_free t end) fs /\ all (all (fun '(_, t) => list_free t)) os
  | _ => True
  end.

(** Repeated fields only at the top: what the elements of a repeated field contain does not matter. *)
Definition lists_on_top (fs : list fdesc) (os : list odesc) : Prop :=
  all (fun '(_, k, t) => match k with KRep _ => True | _ => list_free t end) fs /\ all (all (fun '(_, t) => list_free t)) os.

(** [x] is the content of a field before the first reception, [y] after it and [z] after the second one: a
    repeated field gets the same elements a second time, every other field stays as it is. *)
Definition field_twice (k : fkind) (x y z : sval) : Prop :=
  match k with
  | KRep _ => exists l d, x = SvR l /\ y = SvR (l ++ d) /\ z = SvR (l ++ d ++ d)
  | _ => z = y
  end.

Fixpoint fields_twice (fs : list fdesc) (xs ys zs : list sval) : Prop :=
  match fs, xs, ys, zs with
  | [], [], [], [] => True
  | (_, k, _) :: fs', x :: xs', y :: ys', z :: zs' => field_twice k x y z /\ fields_twice fs' xs' ys' zs'
  | _, _, _, _ => False
  end.

Definition message_twice (fs : list fdesc) (first second third : sval) : Prop :=
  exists xs ys zs oxs oys, first = SvM xs oxs /\ second = SvM ys oys /\ third = SvM zs oys /\ fields_twice fs xs ys zs.

(** The elements that a reception has added fit into the repeated fields a second time. *)
Definition room_again (fs : list fdesc) (first second : sval) : Prop :=
  forall i num max t xs oxs ys oys l l', first = SvM xs oxs -> second = SvM ys oys ->
  nth_error fs i = Some (num, KRep max, t) -> nth_error xs i = Some (SvR l) -> nth_error ys i = Some (SvR l') ->
  zlen l' + (zlen l' - zlen l) <= max.
