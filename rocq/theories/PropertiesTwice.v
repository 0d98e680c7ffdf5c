(** * Property C85: receiving a message twice.

    [mdec] (Spec.v): what the bytes say. [list_free], [lists_on_top], [message_twice] and [room_again]: SpecTwice.v. The
    two receptions may use buffers of different kinds. *)
From Verif Require Import Base Buffers Wire Schema Fields Message Spec SpecTwice Contracts BufferProofs Samples DecodeSamples TwiceProofs TwiceParts TwiceSamples.

(** C85: a well-formed message of a class without repeated fields, received a second time into the object that has
    received it, changes nothing. What the object contained before does not matter. *)
Theorem C85_twice : forall fs os v bs new, let m := EMsg fs os in
  desc_ok m -> list_free m -> wt m v -> clean m v -> mdec fs os (view m v) bs new ->
  forall S (R : rops S) rel, reader_ok R rel -> forall s, rel s bs ->
  forall S' (R' : rops S') rel', reader_ok R' rel' -> forall s', rel' s' bs ->
  forall fuel, (length bs < fuel)%nat ->
  exists v1 s1 v2 s2, deserialize fuel m S R v s = Done (NoErrors, v1, s1) /\ view m v1 = new
  /\ deserialize fuel m S' R' v1 s' = Done (NoErrors, v2, s2) /\ view m v2 = new.
Proof. exact twice. Qed.
Print Assumptions C85_twice.

(** With repeated fields at the top: the elements that the first reception has added are added a second time, in order,
    and all other fields, presence included, stay as they are. *)
Theorem C85_lists : forall fs os v bs new, let m := EMsg fs os in
  desc_ok m -> lists_on_top fs os -> wt m v -> clean m v -> mdec fs os (view m v) bs new -> room_again fs (view m v) new ->
  forall S (R : rops S) rel, reader_ok R rel -> forall s, rel s bs ->
  forall S' (R' : rops S') rel', reader_ok R' rel' -> forall s', rel' s' bs ->
  forall fuel, (length bs < fuel)%nat ->
  exists v1 s1 v2 s2, deserialize fuel m S R v s = Done (NoErrors, v1, s1) /\ view m v1 = new
  /\ deserialize fuel m S' R' v1 s' = Done (NoErrors, v2, s2) /\ message_twice fs (view m v) (view m v1) (view m v2).
Proof. exact twice_lists. Qed.
Print Assumptions C85_lists.

(** Any class, lists inside messages included, when the second reception is well-formed too: every field and every
    oneof without a list inside it stays as the first reception left it, and every repeated field of the class gets
    the same elements a second time. *)
Theorem C85_parts : forall fs os v bs new new2, let m := EMsg fs os in
  desc_ok m -> wt m v -> clean m v -> mdec fs os (view m v) bs new -> mdec fs os new bs new2 ->
  forall S (R : rops S) rel, reader_ok R rel -> forall s, rel s bs ->
  forall S' (R' : rops S') rel', reader_ok R' rel' -> forall s', rel' s' bs ->
  forall fuel, (length bs < fuel)%nat ->
  exists v1 s1 v2 s2, deserialize fuel m S R v s = Done (NoErrors, v1, s1) /\ deserialize fuel m S' R' v1 s' = Done (NoErrors, v2, s2)
  /\ exists vs ovs vs1 ovs1 vs2 ovs2, view m v = SvM vs ovs /\ view m v1 = SvM vs1 ovs1 /\ view m v2 = SvM vs2 ovs2
  /\ (forall i num k t, nth_error fs i = Some (num, k, t) -> (forall max, k <> KRep max) -> list_free t -> nth_error vs2 i = nth_error vs1 i)
  /\ (forall i num max t, nth_error fs i = Some (num, KRep max, t) ->
        exists l d, nth_error vs i = Some (SvR l) /\ nth_error vs1 i = Some (SvR (l ++ d)) /\ nth_error vs2 i = Some (SvR (l ++ d ++ d)))
  /\ (forall j ms, nth_error os j = Some ms -> (forall num t, lookup ms num = Some t -> list_free t) -> nth_error ovs2 j = nth_error ovs1 j).
Proof. exact twice_parts. Qed.
Print Assumptions C85_parts.

(** message Status { uint32 u = 1; optional Inner n = 6; oneof o { bool p = 7; Inner q = 8; } } *)
Definition status_fields : list fdesc := [(1, KPlain, EScalar UInt32); (6, KOpt, Inner)].
Definition Status : ety := EMsg status_fields outer_oneofs.
Definition status_s (u : Z) (n : sval) (o : Z * sval) : sval := SvM [SvZ u; n] [o].
(** Two records for [n], the first sets [n.a] to 9, the second [n.a] to 3; then both members of the oneof. *)
Definition status_bytes : list Z := r_u ++ [50; 2; 8; 9] ++ [50; 2; 8; 3] ++ r_p ++ r_q.

Example C85_applies : desc_ok Status /\ list_free Status /\ wt Status (default_value Status) /\ clean Status (default_value Status)
  /\ mdec status_fields outer_oneofs (view Status (default_value Status)) status_bytes (status_s 300 (SvSome (inner_s 3 [])) (8, SvSome (inner_s 5 [])))
  /\ (forall cap, reader_ok (rfix_ops cap) (rfix_rel cap)).
Proof.
  split; [ok_tac; repeat constructor; cbn; intuition lia|]. split; [cbn; tauto|]. split; [ok_tac|]. split; [ok_tac|]. split; [|exact rfix_ok].
  change (view Status (default_value Status)) with (status_s 0 SvNone (0, SvNone)). unfold status_bytes.
  refine (mdec_cons _ _ _ r_u (status_s 300 SvNone (0, SvNone)) _ _ _ _).
  { change (rdec status_fields outer_oneofs (status_s 0 SvNone (0, SvNone)) ([136; 0] ++ [172; 2]) (SvM (upd 0%nat (SvZ 300) [SvZ 0; SvNone]) [(0, SvNone)])).
    eapply (rdec_plain status_fields outer_oneofs _ _ 0 1 (EScalar UInt32) [136; 0] [172; 2] [172; 2] (SvZ 0) (SvZ 300)); [reflexivity|reflexivity|v32|reflexivity|].
    constructor. split; [wf|reflexivity]. }
  refine (mdec_cons _ _ _ [50; 2; 8; 9] (status_s 300 (SvSome (inner_s 9 [])) (0, SvNone)) _ _ _ _).
  { change (rdec status_fields outer_oneofs (status_s 300 SvNone (0, SvNone)) ([50] ++ [2; 8; 9]) (SvM (upd 1%nat (SvSome (inner_s 9 [])) [SvZ 300; SvNone]) [(0, SvNone)])).
    eapply (rdec_opt_absent status_fields outer_oneofs _ _ 1 6 Inner [50] [8; 9] [2; 8; 9]); [reflexivity|reflexivity|v32| |].
    - exists [2]. split; [v32|reflexivity].
    - constructor. apply (sample_inner 0). lia. }
  refine (mdec_cons _ _ _ [50; 2; 8; 3] (status_s 300 (SvSome (inner_s 3 [])) (0, SvNone)) _ _ _ _).
  { change (rdec status_fields outer_oneofs (status_s 300 (SvSome (inner_s 9 [])) (0, SvNone)) ([50] ++ [2; 8; 3]) (SvM (upd 1%nat (SvSome (inner_s 3 [])) [SvZ 300; SvSome (inner_s 9 [])]) [(0, SvNone)])).
    eapply (rdec_opt_present status_fields outer_oneofs _ _ 1 6 Inner [50] [8; 3] [2; 8; 3]); [reflexivity|reflexivity|v32| |].
    - exists [2]. split; [v32|reflexivity].
    - constructor. apply sample_inner. lia. }
  refine (mdec_cons _ _ _ r_p (status_s 300 (SvSome (inner_s 3 [])) (7, SvSome (SvZ 1))) _ _ _ _).
  { change (rdec status_fields outer_oneofs (status_s 300 (SvSome (inner_s 3 [])) (0, SvNone)) ([56] ++ [1]) (SvM [SvZ 300; SvSome (inner_s 3 [])] (upd 0%nat (7, SvSome (SvZ 1)) [(0, SvNone)]))).
    eapply (rdec_oneof_other status_fields outer_oneofs _ _ 0 7 (EScalar Boolean) _ [56] [1] [1] 0 SvNone (SvZ 1)); [reflexivity|reflexivity|reflexivity|lia|v32|reflexivity|].
    constructor. split; [wf|reflexivity]. }
  refine (mdec_cons _ _ _ r_q _ [] _ _ (mdec_nil _ _ _ _)).
  change (rdec status_fields outer_oneofs (status_s 300 (SvSome (inner_s 3 [])) (7, SvSome (SvZ 1))) ([66] ++ [2; 8; 5])
    (SvM [SvZ 300; SvSome (inner_s 3 [])] (upd 0%nat (8, SvSome (inner_s 5 [])) [(7, SvSome (SvZ 1))]))).
  eapply (rdec_oneof_other status_fields outer_oneofs _ _ 0 8 Inner _ [66] [8; 5] [2; 8; 5] 7 (SvSome (SvZ 1)) (inner_s 5 [])); [reflexivity|reflexivity|reflexivity|lia|v32| |].
  - exists [2]. split; [v32|reflexivity].
  - constructor. apply sample_inner. lia.
Qed.

(** The class with two repeated fields: two values fit a second time into the four places of field 3. *)
Example C85_lists_applies : desc_ok Outer /\ lists_on_top outer_fields outer_oneofs /\ wt Outer (default_value Outer) /\ clean Outer (default_value Outer)
  /\ mdec outer_fields outer_oneofs (view Outer (default_value Outer)) sample_a sample_mid /\ room_again outer_fields (view Outer (default_value Outer)) sample_mid
  /\ exists v1 s1 v2 s2, let receive := fun v => deserialize 20 Outer rfix (rfix_ops (zlen sample_a)) v (rfix_of sample_a) in
     receive (default_value Outer) = Done (NoErrors, v1, s1) /\ receive v1 = Done (NoErrors, v2, s2)
     /\ view Outer v1 = outer_s 300 [1; 300] (inner_s 0 []) (0, SvNone) /\ view Outer v2 = outer_s 300 [1; 300; 1; 300] (inner_s 0 []) (0, SvNone).
Proof.
  split; [exact Outer_ok|]. split; [unfold lists_on_top; cbn; tauto|]. split; [exact outer_default_wt|]. split; [exact outer_default_clean|]. split; [exact sample_a_ok|]. split.
  - intros i num max t xs oxs ys oys l l' Ex Ey Hi Hx Hy. cbv in Ex, Ey. injection Ex as <- _. injection Ey as <- _.
    destruct i as [|[|[|[|[|[|i]]]]]]; cbn in Hi, Hx, Hy; try discriminate.
    + injection Hi as _ <- _. injection Hx as <-. injection Hy as <-. vm_compute. congruence.
    + injection Hi as _ <- _. injection Hx as <-. injection Hy as <-. vm_compute. congruence.
    + destruct i; discriminate.
  - do 4 eexists. cbv zeta. split; [vm_compute; reflexivity|]. split; [vm_compute; reflexivity|]. split; vm_compute; reflexivity.
Qed.

Example C85_parts_applies : desc_ok Box /\ wt Box (default_value Box) /\ clean Box (default_value Box)
  /\ mdec box_fields [] (view Box (default_value Box)) box_bytes (box_s [SvZ 7] [SvZ 9] 5)
  /\ mdec box_fields [] (box_s [SvZ 7] [SvZ 9] 5) box_bytes (box_s [SvZ 7; SvZ 7] [SvZ 9; SvZ 9] 5).
Proof.
  split; [ok_tac; repeat constructor; cbn; intuition lia|]. split; [ok_tac|]. split; [ok_tac|]. split.
  - change (view Box (default_value Box)) with (box_s [] [] 0). apply (box_received [] [] 0); cbn; lia.
  - apply (box_received [SvZ 7] [SvZ 9] 5); cbn; lia.
Qed.
