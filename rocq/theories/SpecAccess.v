(** * SpecAccess: lists that grow when an element behind their end is written. *)
From Verif Require Import Base Schema Spec Api.

(** Writing element [i] of a list of at most [max] elements; an index that is too large means the last one.
    Behind the end the list grows and the elements in between are [d]. *)
Definition put_padded {A} (d : A) (max : Z) (l : list A) (i : Z) (x : A) : list A :=
  let k := Z.min i (max - 1) in
  if k <? zlen l then firstn (Z.to_nat k) l ++ x :: skipn (S (Z.to_nat k)) l
  else l ++ repeat d (Z.to_nat (k - zlen l)) ++ [x].

(** Calls that do not shorten the content, other than clear(). *)
Definition grows (o : op) : Prop :=
  match o with OpBytesPut _ _ | OpRepSet _ _ | OpRepAdd _ | OpClear => True | _ => False end.

(** What they do with a string or bytes field, and with a list of elements of type [t]. *)
Definition bytes_step (max : Z) (l : list Z) (o : op) : list Z :=
  match o with OpBytesPut i b => put_padded 0 max l i b | _ => [] end.

Definition list_step (t : ety) (max : Z) (l : list sval) (o : op) : list sval :=
  match o with
  | OpRepSet i x => put_padded (sdefault t) max l i (view t x)
  | OpRepAdd x => if zlen l <? max then l ++ [view t x] else l
  | _ => []
  end.
