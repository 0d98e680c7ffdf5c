(** * Property C66: arguments that refer into the object that is changed.

    [alias_call ty p c q v] (Alias.v): on the object [v] of class [ty], the call [c] on the part at place [p],
    with a reference to the part at place [q] as argument, as in `msg.set_b(msg.get_a())` or
    `msg.mutable_l().add(msg.get_l()[0])`. [nest p (with_copy c x)] (SpecAlias.v): the same call with a copy [x]
    of that part. [rivals]: the two places are in different members of the same oneof. *)
From Verif Require Import Base Buffers Wire Schema Fields Message Api Spec SpecApi Alias SpecAlias AliasProofs AliasSamples.

(** C66: false for oneofs. Setting one member from another one of the same oneof reads an object that no longer
    exists, for every object in which the argument could be read before. With a copy the call is fine. *)
Theorem C66_oneof_refuted : forall ty ops fuel v p q c x tty sty,
  oty_ok ty -> Forall (op_ok ty) ops -> run_ops fuel ops ty (construct ty) = Done v ->
  type_at ty p = Some tty -> type_at ty q = Some sty -> suits c tty sty -> read_at ty q v = Done x -> rivals ty p q ->
  alias_call ty p c q v = UB /\ exists e v', run_op fuel (nest p (with_copy c x)) ty v = Done (e, v').
Proof. exact rival_reach. Qed.
Print Assumptions C66_oneof_refuted.

(** set_b(get_a()) for scalars, and for messages inside an element of a list *)
Example C66_oneof_refuted_applies :
  oty_ok (OElem Choice) /\ Forall (op_ok (OElem Choice)) choice_ops
  /\ exists v, run_ops 0 choice_ops (OElem Choice) (construct (OElem Choice)) = Done v
  /\ read_at (OElem Choice) [SMember 0 1] v = Done (VS 42)
  /\ rivals (OElem Choice) [SMember 0 2] [SMember 0 1]
  /\ alias_call (OElem Choice) [SMember 0 2] CAssign [SMember 0 1] v = UB
  /\ read_at (OElem Choice) [SField 0; SAt 1; SMember 0 3] v = Done (inner_of 5)
  /\ rivals (OElem Choice) [SField 0; SAt 1; SMember 0 4] [SField 0; SAt 1; SMember 0 3]
  /\ alias_call (OElem Choice) [SField 0; SAt 1; SMember 0 4] CAssign [SField 0; SAt 1; SMember 0 3] v = UB.
Proof. exact choice_rivals. Qed.

(** Everything else behaves as if the argument were a copy: assigning an object to itself, fields from other
    fields, strings to themselves, elements of a list to the same list. Missing: members of one oneof. *)
Theorem C66_copy_partial : forall ty ops fuel v p q c x tty sty,
  oty_ok ty -> Forall (op_ok ty) ops -> run_ops fuel ops ty (construct ty) = Done v ->
  type_at ty p = Some tty -> type_at ty q = Some sty -> suits c tty sty -> read_at ty q v = Done x -> ~ rivals ty p q ->
  exists e v', alias_call ty p c q v = Done (e, v') /\ owt ty v'
    /\ run_op fuel (nest p (with_copy c x)) ty v = Done (e, v')
    /\ acall ty (oview ty v) (nest p (with_copy c x)) e (oview ty v').
Proof. exact alias_reach. Qed.
Print Assumptions C66_copy_partial.

(** msg = msg; msg.set_b(msg.get_b()); l.add(l[1]); l[0].set_c(l[1].get_c()) *)
Example C66_copy_applies :
  oty_ok (OElem Choice) /\ Forall (op_ok (OElem Choice)) choice_ops
  /\ exists v v1, run_ops 0 choice_ops (OElem Choice) (construct (OElem Choice)) = Done v
  /\ alias_call (OElem Choice) [] CAssign [] v = Done (NoErrors, v)
  /\ alias_call (OElem Choice) [SMember 0 1] CAssign [SMember 0 1] v = Done (NoErrors, v)
  /\ alias_call (OElem Choice) [SField 0] CAdd [SField 0; SAt 1] v = Done (NoErrors, v1)
  /\ read_at (OElem Choice) [SField 0; SAt 2; SMember 0 3] v1 = Done (inner_of 5)
  /\ read_at (OElem Choice) [SField 0; SAt 2; SMember 0 3] v = UB
  /\ ~ rivals (OElem Choice) [SField 0; SAt 0; SMember 0 4] [SField 0; SAt 1; SMember 0 3]
  /\ (exists v2, alias_call (OElem Choice) [SField 0; SAt 0; SMember 0 4] CAssign [SField 0; SAt 1; SMember 0 3] v = Done (NoErrors, v2)
        /\ read_at (OElem Choice) [SField 0; SAt 0; SMember 0 4] v2 = Done (inner_of 5)).
Proof. exact choice_copies. Qed.

(** set_data() with a pointer into the list itself: the list then shows the elements that were there. *)
Theorem C66_set_data : forall max t ops fuel len data offset n, let ty := ORep max t in
  oty_ok ty -> Forall (op_ok ty) ops -> run_ops fuel ops ty (construct ty) = Done (VR len data) ->
  0 <= offset -> 0 <= n -> offset + n <= max ->
  exists v', set_own_data t (VR len data) offset n = Done (NoErrors, v') /\ owt ty v'
    /\ oview ty v' = SvR (map (view t) (firstn (Z.to_nat n) (skipn (Z.to_nat offset) data))).
Proof. exact own_data_reach. Qed.
Print Assumptions C66_set_data.

Example C66_set_data_applies : let ty := ORep 4 (EScalar UInt32) in
  oty_ok ty /\ Forall (op_ok ty) [OpRepSetData [VS 1; VS 2; VS 3; VS 4] 4]
  /\ run_ops 0 [OpRepSetData [VS 1; VS 2; VS 3; VS 4] 4] ty (construct ty) = Done (VR 4 [VS 1; VS 2; VS 3; VS 4])
  /\ set_own_data (EScalar UInt32) (VR 4 [VS 1; VS 2; VS 3; VS 4]) 1 3 = Done (NoErrors, VR 3 [VS 2; VS 3; VS 4; VS 4]).
Proof. exact own_data_sample. Qed.

(** An object is never inside another object of the same class: argument and target of a call are the same
    object or have nothing in common (this is what the model of [alias_call] relies on). *)
Theorem C66_separate : forall ty p q r t t', type_at ty p = Some t -> type_at ty q = Some t ->
  type_at ty (p ++ r) = Some t' -> same_place ty (p ++ r) q = true -> r = [].
Proof. exact no_overlap. Qed.
Print Assumptions C66_separate.

Example C66_separate_applies : type_at (OElem Choice) [SField 0; SAt 9] = type_at (OElem Choice) [SField 0; SAt 2]
  /\ type_at (OElem Choice) [SField 0; SAt 2] = Some (OElem Entry)
  /\ same_place (OElem Choice) ([SField 0; SAt 9] ++ []) [SField 0; SAt 2] = true.
Proof. vm_compute. auto. Qed.
