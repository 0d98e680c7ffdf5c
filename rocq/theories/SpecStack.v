(** * How deeply a message type is nested. *)
From Verif Require Import Base Schema Spec.

Fixpoint highest (l : list nat) : nat := match l with [] => O | n :: l' => Nat.max n (highest l') end.

(** A message without nested messages has depth 1. A field whose type contains the message itself has no code
    (C41) and does not count. *)
Fixpoint depth (t : ety) : nat :=
  match t with
  | EMsg fs os => S (Nat.max (highest (map (fun '(_, k, t) => match k with KRecursive => O | _ => depth t end) fs))
                             (highest (map (fun ms => highest (map (fun '(_, t) => depth t) ms)) os)))
  | _ => O
  end.

(** The object shows messages nested [n] deep: itself, the message in a plain field, in an optional field that is present,
    in an element of a list, or in the member of a oneof that is set. *)
Inductive holds_levels : ety -> sval -> nat -> Prop :=
| hl_self fs os sv : holds_levels (EMsg fs os) sv 1
| hl_plain fs os vs ovs i num t x n : nth_error fs i = Some (num, KPlain, t) -> nth_error vs i = Some x ->
    holds_levels t x n -> holds_levels (EMsg fs os) (SvM vs ovs) (S n)
| hl_optional fs os vs ovs i num t x n : nth_error fs i = Some (num, KOpt, t) -> nth_error vs i = Some (SvSome x) ->
    holds_levels t x n -> holds_levels (EMsg fs os) (SvM vs ovs) (S n)
| hl_element fs os vs ovs i num max t l x n : nth_error fs i = Some (num, KRep max, t) -> nth_error vs i = Some (SvR l) -> In x l ->
    holds_levels t x n -> holds_levels (EMsg fs os) (SvM vs ovs) (S n)
| hl_member fs os vs ovs j ms num t x n : nth_error os j = Some ms -> nth_error ovs j = Some (num, SvSome x) -> lookup ms num = Some t ->
    holds_levels t x n -> holds_levels (EMsg fs os) (SvM vs ovs) (S n).
