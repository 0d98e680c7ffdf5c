(** * SpecWider: a class whose strings, byte arrays and lists have room for more.

    Type [t'] differs from [t] in the lengths that the user chooses for strings, bytes and repeated fields only, and
    none of them is smaller. *)
From Verif Require Import Base Buffers Schema Spec.

Definition wider_kind (k k' : fkind) : Prop :=
  match k, k' with
  | KPlain, KPlain | KOpt, KOpt | KRecursive, KRecursive => True
  | KRep max, KRep max' => max <= max'
  | _, _ => False
  end.

Fixpoint wider (t t' : ety) : Prop :=
  match t, t' with
  | EScalar sc, EScalar sc' => sc = sc'
  | EBytes st max, EBytes st' max' => st = st' /\ max <= max'
  | EMsg fs os, EMsg fs' os' =>
      all2 (fun '(num, k, t) '(num', k', t') => num = num' /\ wider_kind k k' /\ wider t t') fs fs'
      /\ all2 (all2 (fun '(num, t) '(num', t') => num = num' /\ wider t t')) os os'
  | _, _ => False
  end.

(** A write buffer that is given an array and a length takes no notice of what is behind that length. *)
Definition takes_only {S} (W : wops S) : Prop :=
  forall s a b n, 0 <= n -> n <= zlen a -> n <= zlen b -> firstn (Z.to_nat n) a = firstn (Z.to_nat n) b ->
  w_pushn W s a n = w_pushn W s b n.
