(** Histories and types used by the examples and counterexamples of PropertiesApi.v. *)
From Verif Require Import Base Buffers Wire Schema Fields Message Api Spec SpecApi Samples.
From Coq Require FinFun.

(** A history on the message type Outer: nested setters, add, a oneof switch, failing and succeeding
    decodes, and clears. *)
Definition sample_ops : list op :=
  [OpField 0 (OpScalarSet 7); OpField 4 OpTouch; OpField 1 (OpBytesSet [1; 2; 3] 3);
   OpField 2 (OpRepAdd (VS 5)); OpField 2 (OpRepAt 3 (OpScalarSet 9)); OpField 3 (OpRepAt 1 (OpField 1 (OpScalarSet (-1))));
   OpOneof 0 8 (OpField 0 (OpScalarSet 3)); OpOneof 0 7 (OpScalarSet 1); OpDeserialize [8; 150];
   OpDeserialize [8; 150; 1; 34; 2; 8; 7]; OpClearField 2; OpOneofClear 0 8; OpField 1 (OpCStr (Some [65; 66; 0]))].

Lemma sample_ops_ok : Forall (op_ok (OElem Outer)) sample_ops.
Proof.
  assert (B : forall l, forallb (fun b => (0 <=? b) && (b <? 256)) l = true -> Forall is_byte l).
  { intros l H. apply Forall_forall. intros b Hb. rewrite forallb_forall in H. specialize (H b Hb). unfold is_byte. lia. }
  unfold sample_ops. apply Forall_forall. intros o Ho. cbn [In] in Ho.
  repeat (destruct Ho as [<-|Ho]; [cbn [op_ok nth_error outer_fields outer_oneofs Outer Inner inner_fields oty_of lookup Z.eqb Pos.eqb];
    unfold legal_index; cbn [scalar_range wt];
    repeat split; try (apply B; reflexivity); try (vm_compute; congruence); try (left; cbn; tauto); try (right; reflexivity); try lia; try discriminate|]).
  contradiction.
Qed.

Definition forty : list fdesc := map (fun n => (Z.of_nat n, KOpt, EScalar UInt32)) (seq 1 40).
Lemma forty_ok : desc_ok (EMsg forty []).
Proof.
  split; [|split; [cbn; lia|split; [cbn; tauto|exact I]]].
  change (field_numbers forty []) with (map Z.of_nat (seq 1 40)). apply FinFun.Injective_map_NoDup; [intros a b; apply Nat2Z.inj|apply seq_NoDup].
Qed.

Lemma stale_element : exists fs ops1 ops2 v1 v2, let m := EMsg fs [] in
  desc_ok m /\ Forall (op_ok (OElem m)) ops1 /\ Forall (op_ok (OElem m)) ops2
  /\ run_ops 10 ops1 (OElem m) (construct (OElem m)) = Done v1
  /\ run_ops 10 ops2 (OElem m) (construct (OElem m)) = Done v2
  (* both show the same before the last call, which decodes the same bytes *)
  /\ last ops1 OpTouch = last ops2 OpTouch
  /\ (exists w1 w2, run_ops 10 (removelast ops1) (OElem m) (construct (OElem m)) = Done w1
        /\ run_ops 10 (removelast ops2) (OElem m) (construct (OElem m)) = Done w2 /\ view m w1 = view m w2)
  /\ view m v1 = SvM [SvR [SvM [SvZ 7; SvSome (SvZ 2); SvB [104; 105]] []]] []
  /\ view m v2 = SvM [SvR [SvM [SvZ 7; SvNone; SvB []] []]] [].
Proof.
  exists [(4, KRep 3, Inner)], [OpField 0 (OpRepSetData [inner_v 1 2] 1); OpField 0 (OpRepSetData [] 0); OpDeserialize [34; 2; 8; 7]],
    [OpDeserialize [34; 2; 8; 7]].
  do 2 eexists. cbv zeta. split; [cbn; repeat split; try lia; repeat constructor; cbn; intuition lia|].
  split; [repeat constructor; cbn; unfold is_byte, is_u32; repeat split; try lia; try (vm_compute; congruence)|].
  split; [repeat constructor; cbn; lia|]. split; [vm_compute; reflexivity|]. split; [vm_compute; reflexivity|]. split; [reflexivity|].
  split; [do 2 eexists; split; [vm_compute; reflexivity|]; split; vm_compute; reflexivity|]. split; vm_compute; reflexivity.
Qed.
