(** * Theorems about objects after a history of calls: C22, C35.
    Specification: SpecApi.v (legal calls), SpecHistory.v (calls that shorten no list of messages), Spec.v
    ([mdec], [clean]). *)
From Verif Require Import Base Buffers Wire Schema Fields Message Api Spec SpecApi SpecHistory Contracts
  BufferProofs Samples ApiSamples DecodeSamples CleanProofs HistoryProps.
From Coq Require Import Lia.

(** C35: no history of legal calls that shortens no list of messages other than by clearing it leaves
    anything behind: the object is [clean], which is what the decoding theorems (C20, C22-C24, C52, C54) ask
    for. Decoding is among the calls, of any bytes and with any result. *)
Theorem C35_careful_partial : forall t ops fuel v, let ty := OElem t in
  desc_ok t -> Forall (op_ok ty) ops -> careful fuel ty ops -> run_ops fuel ops ty (construct ty) = Done v ->
  wt t v /\ clean t v.
Proof. exact careful_clean. Qed.
Print Assumptions C35_careful_partial.

(** A condition that can be read off the calls: no set_data() and no assignment of a message or a list. *)
Theorem C35_no_copying_partial : forall t ops fuel v, let ty := OElem t in
  desc_ok t -> Forall (op_ok ty) ops -> Forall no_copying ops -> run_ops fuel ops ty (construct ty) = Done v ->
  wt t v /\ clean t v.
Proof. exact no_copying_clean. Qed.
Print Assumptions C35_no_copying_partial.

(** Two assignments of a message with two elements in its list, an element added, a decode that fails, clear(). *)
Definition careful_ops : list op :=
  [OpAssign outer_v; OpAssign outer_v; OpField 3 (OpRepAdd (inner_v 1 2)); OpDeserialize [34; 2; 8; 7]; OpDeserialize [37]].

Example C35_careful_applies : Forall (op_ok (OElem Outer)) careful_ops /\ careful 10 (OElem Outer) careful_ops
  /\ exists v, run_ops 10 careful_ops (OElem Outer) (construct (OElem Outer)) = Done v
       /\ nth_error (fields_of (view Outer v)) 3
          = Some (SvR [view Inner (inner_v 5 (-3)); sdefault Inner; view Inner (inner_v 1 2)]).
Proof.
  split; [|split].
  - repeat constructor; cbn -[Outer]; try exact outer_v_wt; try (cbn; unfold is_byte, is_u32; repeat split; lia).
  - intros before o after v E Hr.
    destruct before as [|a [|b [|c [|d [|f before]]]]]; cbn [app careful_ops] in E; injection E as E1; subst; try (apply no_copying_keeps; exact I).
    3: destruct before; discriminate.
    + injection Hr as <-. cbn [keeps_lists oview]. match goal with |- no_shorter _ ?x _ => replace x with (sdefault Outer) by (vm_compute; reflexivity) end.
      apply no_shorter_default; [exact Outer_ok|exact outer_v_wt].
    + subst. cbn [keeps_lists oview]. assert (Ev : view Outer v = view Outer outer_v).
      { vm_compute in Hr. injection Hr as <-. vm_compute. reflexivity. }
      rewrite Ev. exact (no_shorter_refl Outer outer_v outer_v_wt).
  - eexists. split; [vm_compute; reflexivity|]. vm_compute. reflexivity.
Qed.

Example C35_no_copying_applies :
  let ops := [OpField 3 (OpRepAdd (inner_v 1 2)); OpDeserialize [34; 2; 8; 7]; OpField 3 OpClear; OpDeserialize [34; 0]] in
  Forall (op_ok (OElem Outer)) ops /\ Forall no_copying ops
  /\ exists v, run_ops 10 ops (OElem Outer) (construct (OElem Outer)) = Done v
       /\ nth_error (fields_of (view Outer v)) 3 = Some (SvR [sdefault Inner]).
Proof.
  cbn zeta. split; [|split].
  - repeat constructor; cbn -[Outer]; try exact outer_v_wt; try (cbn; unfold is_byte, is_u32; repeat split; lia).
  - repeat constructor.
  - eexists. split; [vm_compute; reflexivity|]. vm_compute. reflexivity.
Qed.

(** The other way round, for every class with a repeated message field, whatever its other fields are: an
    element is added, the list is set to nothing with set_data(), and the object now looks newly made. Decoding a
    record of that field that is empty gives the old element back; on an object that is new it gives an empty
    element. *)
Theorem C35_leftover_refuted : forall fs os i num max fs' os' x tg, let m := EMsg fs os in let t := EMsg fs' os' in
  desc_ok m -> nth_error fs i = Some (num, KRep max, t) -> wt t x -> varint32 tg (num * 8 + 2) -> Forall is_byte tg ->
  let ops := [OpField i (OpRepAdd x); OpField i (OpRepSetData [] 0)] in
  Forall (op_ok (OElem m)) ops
  /\ (forall fuel, (1 < fuel)%nat -> exists v1 v2 v3, run_ops fuel ops (OElem m) (construct (OElem m)) = Done v1
    /\ view m v1 = sdefault m
    /\ run_op fuel (OpDeserialize (tg ++ [0])) (OElem m) v1 = Done (NoErrors, v2)
    /\ nth_error (fields_of (view m v2)) i = Some (SvR [view t x])
    /\ run_op fuel (OpDeserialize (tg ++ [0])) (OElem m) (construct (OElem m)) = Done (NoErrors, v3)
    /\ nth_error (fields_of (view m v3)) i = Some (SvR [sdefault t])).
Proof. exact shortened_list_remembers. Qed.
Print Assumptions C35_leftover_refuted.

Example C35_leftover_applies : desc_ok Outer /\ nth_error outer_fields 3 = Some (4, KRep 3, Inner)
  /\ wt Inner (inner_v 1 2) /\ varint32 [34] (4 * 8 + 2) /\ Forall is_byte [34]
  /\ view Inner (inner_v 1 2) <> sdefault Inner.
Proof.
  split; [exact Outer_ok|]. split; [reflexivity|].
  split; [cbn; unfold is_byte, is_u32; repeat split; try lia; repeat constructor; lia|].
  split; [split; [exists [], 34; repeat split; try (cbn; lia); constructor|reflexivity]|]. split; [repeat constructor; lia|]. vm_compute. discriminate.
Qed.

(** C22 for every object a program can arrive at with such calls: decoding a message on top of it merges the
    message into it as the specification says, whatever buffer the bytes come from. *)
Theorem C22_careful : forall fs os ops fuel0 v bs new, let m := EMsg fs os in
  desc_ok m -> Forall (op_ok (OElem m)) ops -> careful fuel0 (OElem m) ops ->
  run_ops fuel0 ops (OElem m) (construct (OElem m)) = Done v -> mdec fs os (view m v) bs new ->
  forall S (R : rops S) rel, reader_ok R rel -> forall s, rel s bs -> forall fuel, (length bs < fuel)%nat ->
  exists v' s', deserialize fuel m S R v s = Done (NoErrors, v', s') /\ rel s' [] /\ view m v' = new.
Proof. exact careful_decode. Qed.
Print Assumptions C22_careful.

(** A decoded message and a decode that fails, then the second half of the message. *)
Example C22_careful_applies : let ops := [OpDeserialize sample_a; OpDeserialize [37]] in
  Forall (op_ok (OElem Outer)) ops /\ careful 50 (OElem Outer) ops
  /\ exists v, run_ops 50 ops (OElem Outer) (construct (OElem Outer)) = Done v
       /\ mdec outer_fields outer_oneofs (view Outer v) sample_b sample_new.
Proof.
  cbn zeta. split; [|split].
  - repeat constructor; try (cbn; unfold is_byte; lia).
  - apply no_copying_careful. repeat constructor.
  - eexists. split; [vm_compute; reflexivity|].
    match goal with |- mdec _ _ ?x _ _ => replace x with sample_mid by (vm_compute; reflexivity) end. exact sample_b_ok.
Qed.
