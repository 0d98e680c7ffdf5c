(** * SpecCalls: calls on different parts of an object. *)
From Verif Require Import Base Schema Spec Api SpecApi SpecMentions.

(** The part of a message that a call is about: one of its fields or one of its oneofs. *)
Inductive part := PField (pos : nat) | POneof (pos : nat).
Definition part_of (o : op) : option part :=
  match o with
  | OpField pos _ | OpClearField pos => Some (PField pos)
  | OpOneof pos _ _ | OpOneofClear pos _ => Some (POneof pos)
  | _ => None
  end.

(** The parts that a call on a message of the class [EMsg fs os] can have to do with: the one it is about; for
    deserialize() those whose tags are somewhere in the bytes ([mentions], SpecMentions.v); for other calls on the whole
    message all of them. *)
Definition touches (fs : list fdesc) (os : list odesc) (o : op) (p : part) : Prop :=
  match o with
  | OpField _ _ | OpClearField _ | OpOneof _ _ _ | OpOneofClear _ _ => part_of o = Some p
  | OpDeserialize bytes =>
      match p with
      | PField i => exists num k t, nth_error fs i = Some (num, k, t) /\ mentions bytes num
      | POneof j => exists ms num t, nth_error os j = Some ms /\ lookup ms num = Some t /\ mentions bytes num
      end
  | _ => True
  end.

(** The element of a list that a call is about. *)
Definition element_of (o : op) : option Z :=
  match o with OpRepAt i _ | OpRepSet i _ => Some i | _ => None end.

(** Two calls on an object of class [ty] that are about different parts of it: different fields or oneofs, different
    elements of a list, different bytes of a string or bytes field, or, at any depth, different parts of the same field,
    member or element. A message that is received is about the fields and oneofs whose tags are in it. *)
Inductive independent : oty -> op -> op -> Prop :=
| ind_parts fs os o1 o2 : (forall p, touches fs os o1 p -> touches fs os o2 p -> False) ->
    independent (OElem (EMsg fs os)) o1 o2
| ind_elements max t o1 o2 i1 i2 : element_of o1 = Some i1 -> element_of o2 = Some i2 ->
    0 <= i1 < max -> 0 <= i2 < max -> i1 <> i2 -> independent (ORep max t) o1 o2
| ind_bytes st max i1 b1 i2 b2 : 0 <= i1 < max -> 0 <= i2 < max -> i1 <> i2 ->
    independent (OElem (EBytes st max)) (OpBytesPut i1 b1) (OpBytesPut i2 b2)
| ind_in_field fs os pos num k t o1 o2 : nth_error fs pos = Some (num, k, t) -> independent (oty_of k t) o1 o2 ->
    independent (OElem (EMsg fs os)) (OpField pos o1) (OpField pos o2)
| ind_in_member fs os pos ms id t o1 o2 : nth_error os pos = Some ms -> lookup ms id = Some t -> independent (OElem t) o1 o2 ->
    independent (OElem (EMsg fs os)) (OpOneof pos id o1) (OpOneof pos id o2)
| ind_in_element max t i o1 o2 : independent (OElem t) o1 o2 ->
    independent (ORep max t) (OpRepAt i o1) (OpRepAt i o2).

(** [makes fuel ty v l v']: the calls of [l], one after the other, on an object in state [v]; each is listed with the
    error it returns; [v'] is the state afterwards. *)
Inductive makes (fuel : nat) (ty : oty) : value -> list (op * err) -> value -> Prop :=
| makes_nil v : makes fuel ty v [] v
| makes_cons v o e v1 l v2 : run_op fuel o ty v = Done (e, v1) -> makes fuel ty v1 l v2 -> makes fuel ty v ((o, e) :: l) v2.

(** The same calls with the same answers, in another order: neighbours that are about different parts trade places, any
    number of times. *)
Inductive rearranged (ty : oty) : list (op * err) -> list (op * err) -> Prop :=
| rearranged_same l : rearranged ty l l
| rearranged_swap l1 o1 e1 o2 e2 l2 : independent ty o1 o2 ->
    rearranged ty (l1 ++ (o1, e1) :: (o2, e2) :: l2) (l1 ++ (o2, e2) :: (o1, e1) :: l2)
| rearranged_trans l l' l'' : rearranged ty l l' -> rearranged ty l' l'' -> rearranged ty l l''.

(** The calls of a list that are about the part [p]. *)
Definition part_eqb (p q : part) : bool :=
  match p, q with PField i, PField j | POneof i, POneof j => Nat.eqb i j | _, _ => false end.
Definition about (p : part) (l : list (op * err)) : list (op * err) :=
  filter (fun oe => match part_of (fst oe) with Some q => part_eqb p q | None => false end) l.
