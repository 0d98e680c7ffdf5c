(** * Property C90: larger lengths for strings, bytes and lists.

    [wider t t'] (SpecWider.v): [t'] differs from [t] in larger lengths only. [mover] (SpecRead.v): the input ends
    inside an unknown length-delimited record, where the outcome depends on the buffer (C54). *)
From Verif Require Import Base Buffers Wire Schema Fields Message Spec SpecRead SpecWider Contracts BufferProofs Samples MalformedSamples WiderProofs WiderSer WiderSamples.

(** C90, decoding: whatever the bytes are. Either there was no room in the smaller class, or the larger class gives the same result,
    reads the same bytes and, on success, shows the same values. *)
Theorem C90_decode : forall fs os fs' os' v v' bs, let t := EMsg fs os in let t' := EMsg fs' os' in
  desc_ok t -> desc_ok t' -> wider t t' -> wt t v -> clean t v -> wt t' v' -> clean t' v' -> view t v = view t' v' ->
  Forall is_byte bs -> ~ mover fs os (view t v) bs ->
  forall S1 (R1 : rops S1) rel1 S2 (R2 : rops S2) rel2, reader_ok R1 rel1 -> reader_ok R2 rel2 ->
  forall s1 s2, rel1 s1 bs -> rel2 s2 bs -> forall fuel1 fuel2, (length bs < fuel1)%nat -> (length bs < fuel2)%nat ->
  exists e w s1', deserialize fuel1 t S1 R1 v s1 = Done (e, w, s1')
    /\ (e = ArrayFull
        \/ exists w' s2' rest, deserialize fuel2 t' S2 R2 v' s2 = Done (e, w', s2') /\ rel1 s1' rest /\ rel2 s2' rest
           /\ (e = NoErrors -> view t w = view t' w')).
Proof. exact wider_fixed. Qed.
Print Assumptions C90_decode.

(** Buffers that know where their bytes end: without exception. *)
Theorem C90_bounded : forall fs os fs' os' v v' bs, let t := EMsg fs os in let t' := EMsg fs' os' in
  desc_ok t -> desc_ok t' -> wider t t' -> wt t v -> clean t v -> wt t' v' -> clean t' v' -> view t v = view t' v' ->
  Forall is_byte bs ->
  forall S1 (R1 : rops S1) rel1 S2 (R2 : rops S2) rel2, reader_ok R1 rel1 -> reader_ok R2 rel2 ->
  reader_bounded R1 rel1 -> reader_bounded R2 rel2 ->
  forall s1 s2, rel1 s1 bs -> rel2 s2 bs -> forall fuel1 fuel2, (length bs < fuel1)%nat -> (length bs < fuel2)%nat ->
  exists e w s1', deserialize fuel1 t S1 R1 v s1 = Done (e, w, s1')
    /\ (e = ArrayFull
        \/ exists w' s2' rest, deserialize fuel2 t' S2 R2 v' s2 = Done (e, w', s2') /\ rel1 s1' rest /\ rel2 s2' rest
           /\ (e = NoErrors -> view t w = view t' w')).
Proof. exact wider_bounded. Qed.
Print Assumptions C90_bounded.

(** C90, encoding: objects of both classes that show the same have the same size and leave the same in any buffer that only takes
    the bytes it is told to take, with the same result, also when there is not enough room. *)
Theorem C90_encode : forall fs os fs' os' v v', let t := EMsg fs os in let t' := EMsg fs' os' in
  desc_ok t -> desc_ok t' -> wider t t' -> wt t v -> wt t' v' -> view t v = view t' v' ->
  serialized_size (serialize t v) = serialized_size (serialize t' v')
  /\ forall S (W : wops S) s, takes_only W -> serialize t v S W s = serialize t' v' S W s.
Proof. exact wider_serialize. Qed.
Print Assumptions C90_encode.

(** The buffers of the library do so. *)
Theorem C90_buffers : takes_only calc_ops /\ forall cap, takes_only (wfix_ops cap).
Proof. exact library_takes. Qed.
Print Assumptions C90_buffers.

(** The larger class has other bytes behind its strings and an unused element. A second line has room in the larger class only, a
    changed name in both. *)
Example C90_applies : let t := Log 3 1 2 in let t' := Log 4 2 3 in
  desc_ok t /\ desc_ok t' /\ wider t t' /\ wt t log_v /\ clean t log_v /\ wt t' log_w /\ clean t' log_w
  /\ view t log_v = view t' log_w /\ log_v <> log_w
  /\ (exists w s1 w' s2, let bs := [10; 3; 99; 100; 101] in
        deserialize 20 t _ (rfix_ops 5) log_v (rfix_of bs) = Done (NoErrors, w, s1)
        /\ deserialize 20 t' _ (rfix_ops 5) log_w (rfix_of bs) = Done (NoErrors, w', s2)
        /\ view t w = view t' w' /\ view t w <> view t log_v)
  /\ (exists w s1 w' s2, let bs := [18; 4; 10; 2; 1; 2] in
        deserialize 20 t _ (rfix_ops 6) log_v (rfix_of bs) = Done (ArrayFull, w, s1)
        /\ deserialize 20 t' _ (rfix_ops 6) log_w (rfix_of bs) = Done (NoErrors, w', s2))
  /\ (exists b, serialize t log_v _ (wfix_ops 20) (wfix_init 20) = Done (NoErrors, b)
        /\ serialize t' log_w _ (wfix_ops 20) (wfix_init 20) = Done (NoErrors, b) /\ wfix_content b <> []).
Proof.
  split; [apply Log_ok; unfold capacity_ok; lia|]. split; [apply Log_ok; unfold capacity_ok; lia|]. split; [apply Log_wider; lia|].
  destruct log_wt as (H1 & H2 & H3 & H4 & H5). do 5 (split; [assumption|]). split; [discriminate|].
  split; [|split].
  - do 4 eexists. cbv zeta. split; [vm_compute; reflexivity|]. split; [vm_compute; reflexivity|]. split; vm_compute; [reflexivity|discriminate].
  - do 4 eexists. cbv zeta. split; vm_compute; reflexivity.
  - eexists. split; [vm_compute; reflexivity|]. split; [vm_compute; reflexivity|]. vm_compute. discriminate.
Qed.

(** The input ends inside a string: EndOfBuffer in both. *)
Definition wide_fields : list fdesc := [(1, KPlain, EScalar Int32); (2, KOpt, EScalar SInt32); (3, KPlain, EBytes true 12)].
Example C90_decode_applies : let t' := EMsg wide_fields [] in
  wider Inner t' /\ view Inner di = view t' (default_value t') /\ Forall is_byte cut_hello /\ ~ mover inner_fields [] (view Inner di) cut_hello
  /\ exists w s1 w' s2, deserialize 10 Inner _ (rfix_ops 4) di (rfix_of cut_hello) = Done (EndOfBuffer, w, s1)
     /\ deserialize 10 t' _ (rfix_ops 4) (default_value t') (rfix_of cut_hello) = Done (EndOfBuffer, w', s2).
Proof.
  cbv zeta. split; [cbn; repeat split; lia|]. split; [reflexivity|]. split; [exact cut_hello_bytes|]. split; [exact hello_mover|].
  do 4 eexists. split; vm_compute; reflexivity.
Qed.
