(** * Property C89: an object is updated by a program that was compiled from another version of the .proto file.

    [compatible t t'] (SpecUpdate.v): the numbers that both have stand for fields of the same type. [updated t t' x y]
    (SpecUpdate.v): what an object of the receiver's type [t'] that shows [x] shows after it got the value [y] of the sender's type
    [t]: the sender's fields arrive one after the other. [norm] (Spec.v) makes a negative zero in a plain float or double field
    zero, which is not sent (C21). *)
From Verif Require Import Base Buffers Wire Schema Fields Message Spec SpecRetype SpecVersions SpecMerge SpecUpdate Contracts BufferProofs Samples UpdateProofs UpdateSamples.

(** C89: what the sender wrote updates the receiver's object, whatever it has. If a string or a list becomes too long for it,
    the receiver is told so: ArrayFull. *)
Theorem C89_update : forall fs os fs' os' v v0, let t := EMsg fs os in let t' := EMsg fs' os' in
  desc_ok t -> desc_ok t' -> compatible t t' -> wt t v -> zlen (enc t (view t v)) < 2 ^ 32 -> wt t' v0 -> clean t' v0 ->
  forall cap b c n b', wfix_rel cap b c (Some n) -> serialize t v _ (wfix_ops cap) b = Done (NoErrors, b') ->
  exists bytes, wfix_content b' = wfix_content b ++ bytes /\
  forall S (R : rops S) rel, reader_ok R rel -> forall s, rel s bytes -> forall fuel, (length bytes < fuel)%nat ->
  match updated t t' (view t' v0) (norm t (view t v)) with
  | Some w => exists v' s', deserialize fuel t' S R v0 s = Done (NoErrors, v', s') /\ view t' v' = w
  | None => exists v' s', deserialize fuel t' S R v0 s = Done (ArrayFull, v', s') /\ wt t' v'
  end.
Proof. exact version_update. Qed.
Print Assumptions C89_update.

(** A new object shows what C65 says, and with one class the result is the one of C86. *)
Theorem C89_agrees : (forall t t', version t t' -> compatible t t') /\ (forall t, desc_ok t -> compatible t t)
  /\ (forall fs os fs' os' v, let t := EMsg fs os in let t' := EMsg fs' os' in
       desc_ok t -> desc_ok t' -> version t t' -> wt t v -> zlen (enc t (view t v)) < 2 ^ 32 ->
       let w := carry t t' (norm t (view t v)) in updated t t' (sdefault t') (norm t (view t v)) = if fits t' w then Some w else None)
  /\ (forall fs os v v0, let t := EMsg fs os in
       desc_ok t -> wt t v -> zlen (enc t (view t v)) < 2 ^ 32 -> wt t v0 -> clean t v0 ->
       let w := merge t (view t v0) (view t v) in updated t t (view t v0) (norm t (view t v)) = if fits t w then Some w else None).
Proof. exact update_spec. Qed.
Print Assumptions C89_agrees.

(** x and q have been put into a oneof by the receiver. The receiver has q.a = 5 and q.b = 9, the sender sends x = 300 and
    then q with a = 4: first x takes the place of q, then a new q the place of x, and 9 is gone. *)
Example C89_applies : let v := old_v 300 1 7 0 (inner_v 4 0) in let v0 := new_v 1 2 3 (8, inner_v 5 9) in
  desc_ok Old /\ desc_ok New /\ compatible Old New /\ wt Old v /\ wt New v0 /\ clean New v0
  /\ exists b v' s', serialize Old v _ (wfix_ops 60) (wfix_init 60) = Done (NoErrors, b)
     /\ deserialize 40 New _ (rfix_ops (zlen (wfix_content b))) v0 (rfix_of (wfix_content b)) = Done (NoErrors, v', s')
     /\ updated Old New (view New v0) (norm Old (view Old v)) = Some (view New v')
     /\ view New v' = SvM [SvSome (SvZ 1065353216); SvR [SvZ 1; SvZ 2; SvZ 3; SvZ 7]] [(8, SvSome (view Inner (inner_v 4 0)))].
Proof.
  split; [exact Old_ok|]. split; [exact New_ok|]. split; [exact Old_New|]. split; [exact (proj1 old_wt)|]. split; [exact (proj1 new_wt)|]. split; [exact (proj2 new_wt)|].
  do 3 eexists. split; [vm_compute; reflexivity|]. split; [vm_compute; reflexivity|]. split; vm_compute; reflexivity.
Qed.
(** Without q, x stays. Two more elements are too many for r. *)
Example C89_switch_applies : let v0 := new_v 1 2 3 (8, inner_v 5 9) in
  updated Old New (view New v0) (norm Old (view Old (old_v 300 1 7 0 (default_value Inner))))
    = Some (SvM [SvSome (SvZ 1065353216); SvR [SvZ 1; SvZ 2; SvZ 3; SvZ 7]] [(1, SvSome (SvZ 300))])
  /\ updated Old New (view New v0) (norm Old (view Old (old_v 0 2 7 8 (default_value Inner)))) = None.
Proof. split; vm_compute; reflexivity. Qed.
