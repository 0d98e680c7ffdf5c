(** * Properties C86 and C87: an object is updated by what another one sends.

    [merge t x y] (SpecMerge.v): the value [y] merged into [x]; [fits t w] (SpecVersions.v): no list of [w] is longer than the
    class allows; [sends] and [receives] (SpecMerge.v): serialize() and deserialize() with these results. *)
From Verif Require Import Base Buffers Wire Schema Fields Message Spec SpecVersions SpecMerge Contracts BufferProofs Samples MergeProofs MergeLaws MergeSamples.

(** C86: what an object serializes, another object of its class, in any state, merges into what it has. If a list
    becomes too long for that, the receiver is told so: ArrayFull. *)
Theorem C86_merge : forall fs os v v0, let t := EMsg fs os in
  desc_ok t -> wt t v -> zlen (enc t (view t v)) < 2 ^ 32 -> wt t v0 -> clean t v0 ->
  let w := merge t (view t v0) (view t v) in
  forall cap b c n b', wfix_rel cap b c (Some n) -> serialize t v _ (wfix_ops cap) b = Done (NoErrors, b') ->
  exists bytes, wfix_content b' = wfix_content b ++ bytes /\
  forall S (R : rops S) rel, reader_ok R rel -> forall s, rel s bytes -> forall fuel, (length bytes < fuel)%nat ->
  (fits t w = true -> exists v' s', deserialize fuel t S R v0 s = Done (NoErrors, v', s') /\ view t v' = w)
  /\ (fits t w = false -> exists v' s', deserialize fuel t S R v0 s = Done (ArrayFull, v', s') /\ wt t v').
Proof. exact update. Qed.
Print Assumptions C86_merge.

(** Merging a message with nothing in it changes nothing, and merging into a new object gives the sender's value, with a
    negative zero in a plain field made zero (C20, C21). *)
Theorem C86_ends : forall fs os, let t := EMsg fs os in
  (forall v, wt t v -> merge t (view t v) (sdefault t) = view t v) /\ (forall v, wt t v -> merge t (sdefault t) (view t v) = norm t (view t v)).
Proof. exact merge_spec. Qed.
Print Assumptions C86_ends.

Example C86_applies : desc_ok Outer /\ wt Outer outer_update /\ wt Outer outer_v /\ clean Outer outer_v
  /\ fits Outer (merge Outer (view Outer outer_v) (view Outer outer_update)) = true
  /\ exists b v' s', serialize Outer outer_update _ (wfix_ops 60) (wfix_init 60) = Done (NoErrors, b)
     /\ deserialize 30 Outer _ (rfix_ops 20) outer_v (rfix_of (wfix_content b)) = Done (NoErrors, v', s')
     /\ view Outer v' = merge Outer (view Outer outer_v) (view Outer outer_update)
     /\ view Outer v' = SvM [SvZ 300; SvB [97; 98; 99]; SvR [SvZ 1; SvZ 0; SvZ 200; SvZ 9];
          SvR [view Inner (inner_v 5 (-3)); view Inner (default_value Inner); view Inner (inner_v 6 0)]; SvSome (SvZ 2147483648);
          view Inner (inner_v 4 7)] [(7, SvSome (SvZ 1))].
Proof.
  split; [exact Outer_ok|]. split; [exact outer_update_wt|]. split; [exact outer_v_wt|]. split; [exact outer_v_clean|]. split; [vm_compute; reflexivity|].
  do 3 eexists. split; [vm_compute; reflexivity|]. split; [vm_compute; reflexivity|]. split; vm_compute; reflexivity.
Qed.

(** An object's own message is too much for its lists. *)
Example C86_too_much_applies : fits Outer (merge Outer (view Outer outer_v) (view Outer outer_v)) = false.
Proof. vm_compute. reflexivity. Qed.

(** C87: two updates, [v1] and then [v2], are sent to [v0]; or [v1] receives the second update itself and is sent then.
    Both ways come to the same, provided no oneof has a message as a member. *)
Theorem C87_collected : forall fs os v0 v1 v2 v12 va b1 b2 b12, let t := EMsg fs os in
  desc_ok t -> simple_oneofs t -> wt t v0 -> clean t v0 -> wt t v1 -> clean t v1 -> wt t v2 ->
  zlen (enc t (view t v1)) < 2 ^ 32 -> zlen (enc t (view t v2)) < 2 ^ 32 -> zlen (enc t (view t v12)) < 2 ^ 32 ->
  sends t v1 b1 -> sends t v2 b2 -> receives t v1 b2 NoErrors v12 -> sends t v12 b12 -> receives t v0 b1 NoErrors va ->
  forall e vb e' vc, receives t va b2 e vb -> receives t v0 b12 e' vc -> e' = e /\ (e = NoErrors -> view t vc = view t vb).
Proof. exact collected. Qed.
Print Assumptions C87_collected.

(** With a message in a oneof the two ways may differ. *)
Theorem C87_members : exists fs os v0 v1 v2 v12 va vb vc b1 b2 b12, let t := EMsg fs os in
  desc_ok t /\ wt t v0 /\ clean t v0 /\ wt t v1 /\ clean t v1 /\ wt t v2
  /\ sends t v1 b1 /\ sends t v2 b2 /\ receives t v1 b2 NoErrors v12 /\ sends t v12 b12 /\ receives t v0 b1 NoErrors va
  /\ receives t va b2 NoErrors vb /\ receives t v0 b12 NoErrors vc /\ view t vc <> view t vb.
Proof. exact members_differ. Qed.
Print Assumptions C87_members.

Example C87_applies : exists v12 va vb vc b1 b2 b12, let v0 := cfg_v 0 3 0 1 (8, VS 5) in let v1 := cfg_v 1 0 7 2 (7, VS 1) in let v2 := cfg_v 1 9 0 3 (8, VS 6) in
  desc_ok Cfg /\ simple_oneofs Cfg /\ wt Cfg v0 /\ clean Cfg v0 /\ wt Cfg v1 /\ clean Cfg v1 /\ wt Cfg v2
  /\ zlen (enc Cfg (view Cfg v1)) < 2 ^ 32 /\ zlen (enc Cfg (view Cfg v2)) < 2 ^ 32 /\ zlen (enc Cfg (view Cfg v12)) < 2 ^ 32
  /\ sends Cfg v1 b1 /\ sends Cfg v2 b2 /\ receives Cfg v1 b2 NoErrors v12 /\ sends Cfg v12 b12 /\ receives Cfg v0 b1 NoErrors va
  /\ receives Cfg va b2 NoErrors vb /\ receives Cfg v0 b12 NoErrors vc
  /\ view Cfg vc = SvM [SvZ 9; SvSome (SvM [SvZ 7; SvNone; SvB []] []); SvR [SvZ 1; SvZ 2; SvZ 3]] [(8, SvSome (SvZ 6))].
Proof. exact cfg_collected. Qed.
