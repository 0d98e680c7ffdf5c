(** Lists of calls for the examples beside C96. *)
From Verif Require Import Base Buffers Wire Schema Fields Message Api Spec SpecApi SpecMentions SpecCalls Samples ApiSamples MentionsSamples.

(** The calls of a list with the errors that they return. *)
Fixpoint answers (fuel : nat) (ty : oty) (v : value) (ops : list op) : res (list (op * err) * value) :=
  match ops with
  | [] => Done ([], v)
  | o :: ops' => let* (e, v1) := run_op fuel o ty v in let* (l, v2) := answers fuel ty v1 ops' in Done ((o, e) :: l, v2)
  end.

Lemma answers_makes fuel ty : forall ops v l v', answers fuel ty v ops = Done (l, v') -> makes fuel ty v l v'.
Proof.
  induction ops as [|o ops IH]; intros v l v' H; cbn [answers] in H.
  - injection H as <- <-. constructor.
  - destruct (run_op fuel o ty v) as [[e v1]| |] eqn:E; try discriminate. cbn [bind] in H.
    destruct (answers fuel ty v1 ops) as [[l2 v2]| |] eqn:E2; try discriminate. injection H as <- <-. econstructor; eauto.
Qed.

(** First the history of the other examples, then calls on four parts of the message: the calls on each part stay in
    order, those on different parts are interleaved differently. *)
Definition mixed : list (op * err) :=
  [(OpField 0 (OpScalarSet 1), NoErrors); (OpField 1 (OpBytesSet [1; 2; 3] 3), NoErrors); (OpOneof 0 7 (OpScalarSet 1), NoErrors);
   (OpField 2 (OpRepAdd (VS 5)), NoErrors); (OpOneof 0 8 (OpField 0 (OpScalarSet 3)), NoErrors);
   (OpField 1 (OpBytesSet [7; 7; 7; 7; 7; 7; 7; 7; 7; 7; 7; 7; 7] 13), ArrayFull); (OpClearField 0, NoErrors);
   (OpField 2 (OpRepAt 1 (OpScalarSet 9)), NoErrors); (OpField 4 OpTouch, NoErrors)].
Definition sorted : list (op * err) :=
  [(OpField 4 OpTouch, NoErrors); (OpField 2 (OpRepAdd (VS 5)), NoErrors); (OpField 2 (OpRepAt 1 (OpScalarSet 9)), NoErrors);
   (OpOneof 0 7 (OpScalarSet 1), NoErrors); (OpOneof 0 8 (OpField 0 (OpScalarSet 3)), NoErrors);
   (OpField 0 (OpScalarSet 1), NoErrors); (OpClearField 0, NoErrors);
   (OpField 1 (OpBytesSet [1; 2; 3] 3), NoErrors);
   (OpField 1 (OpBytesSet [7; 7; 7; 7; 7; 7; 7; 7; 7; 7; 7; 7; 7] 13), ArrayFull)].

Lemma mixed_ok : Forall (op_ok (OElem Outer)) (map fst mixed).
Proof.
  assert (B : forall l, forallb (fun b => (0 <=? b) && (b <? 256)) l = true -> Forall is_byte l).
  { intros l H. apply Forall_forall. intros b Hb. rewrite forallb_forall in H. specialize (H b Hb). unfold is_byte. lia. }
  cbn [map fst mixed]. apply Forall_forall. intros o Ho. cbn [In] in Ho.
  repeat (destruct Ho as [<-|Ho]; [cbn [op_ok nth_error outer_fields outer_oneofs Outer Inner inner_fields oty_of lookup Z.eqb Pos.eqb];
    unfold legal_index; cbn [scalar_range wt]; repeat split; try (apply B; reflexivity); try (vm_compute; congruence); try lia; try discriminate|]).
  contradiction.
Qed.

Lemma mixed_parts : forall o e, In (o, e) (mixed ++ sorted) -> exists p, part_of o = Some p.
Proof. intros o e H. cbn [mixed sorted app In] in H. repeat (destruct H as [[= <- <-]|H]; [eexists; reflexivity|]). contradiction. Qed.

Lemma mixed_sorted : forall p, about p mixed = about p sorted.
Proof. intros [[|[|[|[|[|n]]]]]|[|n]]; reflexivity. Qed.

Definition mixed_result : value :=
  VM [1] [VS 0; VB 3 [1; 2; 3; 0; 0; 0; 0; 0]; VR 2 [VS 5; VS 9; VS 0; VS 0];
          VR 0 [default_value Inner; default_value Inner; default_value Inner]; VS 0; default_value Inner]
     [(8, VM [0] [VS 3; VS 0; VB 0 [0; 0; 0; 0; 0; 0; 0; 0]] [])].
Lemma mixed_makes : makes 100 (OElem Outer) (construct (OElem Outer)) mixed mixed_result.
Proof. apply (answers_makes 100 _ (map fst mixed)). vm_compute. reflexivity. Qed.

(** Two calls deep inside the second element of a list: its scalar field, its optional field. *)
Definition at_a : op := OpField 3 (OpRepAt 1 (OpField 0 (OpScalarSet 7))).
Definition at_b : op := OpField 3 (OpRepAt 1 (OpField 1 (OpScalarSet (-2)))).
Lemma at_independent : independent (OElem Outer) at_a at_b.
Proof.
  eapply ind_in_field; [reflexivity|]. apply ind_in_element. apply ind_parts. cbn. congruence.
Qed.
(** Two elements of that list, the later one first. *)
Definition at_2 : op := OpField 3 (OpRepAt 2 (OpField 0 (OpScalarSet 1))).
Lemma at_elements : independent (OElem Outer) at_2 at_a.
Proof. eapply ind_in_field; [reflexivity|]. apply (ind_elements _ _ _ _ 2 1); try reflexivity; lia. Qed.

Lemma deep_ok : Forall (op_ok (OElem Outer)) [at_2; at_a; at_b].
Proof.
  repeat constructor; cbn; unfold legal_index; lia.
Qed.
Lemma at_a_ok : op_ok (OElem Outer) at_a.
Proof. exact (Forall_inv (Forall_inv_tail deep_ok)). Qed.
Lemma at_b_ok : op_ok (OElem Outer) at_b.
Proof. exact (Forall_inv (Forall_inv_tail (Forall_inv_tail deep_ok))). Qed.
Definition deep : list (op * err) := [(at_2, NoErrors); (at_a, NoErrors); (at_b, NoErrors)].
Definition deep_last : list (op * err) := [(at_b, NoErrors); (at_a, NoErrors); (at_2, NoErrors)].
Lemma deep_rearranged : rearranged (OElem Outer) deep deep_last.
Proof.
  assert (I : independent (OElem Outer) at_2 at_b) by (eapply ind_in_field; [reflexivity|]; apply (ind_elements _ _ _ _ 2 1); try reflexivity; lia).
  eapply rearranged_trans; [apply (rearranged_swap _ [] at_2 NoErrors at_a NoErrors [(at_b, NoErrors)] at_elements)|].
  eapply rearranged_trans; [apply (rearranged_swap _ [(at_a, NoErrors)] at_2 NoErrors at_b NoErrors [] I)|].
  apply (rearranged_swap _ [] at_a NoErrors at_b NoErrors [(at_2, NoErrors)] at_independent).
Qed.

(** Two messages: one that fails (the scalar of field 1, a message in field 6, a float in field 5 that is cut off), and one
    with the string of field 2. *)
Definition part_1 : list Z := [8; 6; 50; 1; 136; 45; 1].
Definition part_2 : list Z := [18; 2; 65; 66].
Ltac not_mentioned H := apply mentions_numbers in H; vm_compute in H; repeat (destruct H as [H|H]; [discriminate H|]); exact H.
Lemma messages_independent : independent (OElem Outer) (OpDeserialize part_1) (OpDeserialize part_2).
Proof.
  apply ind_parts. intros [i|j] H1 H2; cbn [touches] in H1, H2.
  - destruct H1 as (num & k & t & En & M1). destruct H2 as (num' & k' & t' & En' & M2). rewrite En in En'. injection En' as <- <- <-.
    destruct i as [|[|[|[|[|[|i]]]]]]; try (destruct i; discriminate En); injection En as <- _ _; first [not_mentioned M1 | not_mentioned M2].
  - destruct H1 as (ms & num & t & Eo & El & M1). destruct j as [|[|j]]; try discriminate. injection Eo as <-.
    apply mentions_numbers in M1. vm_compute in M1. repeat (destruct M1 as [M1|M1]; [subst num; discriminate El|]); exact M1.
Qed.
Lemma receive_independent : independent (OElem Outer) (OpField 2 (OpRepAdd (VS 5))) (OpDeserialize part_1).
Proof.
  apply ind_parts. intros p H1 H2. cbn [touches part_of] in H1. injection H1 as <-. destruct H2 as (num & k & t & [= <- _ _] & M). not_mentioned M.
Qed.
Lemma parts_ok : op_ok (OElem Outer) (OpDeserialize part_1) /\ op_ok (OElem Outer) (OpDeserialize part_2) /\ op_ok (OElem Outer) (OpField 2 (OpRepAdd (VS 5))).
Proof. cbn [op_ok Outer outer_fields nth_error oty_of]. repeat split; try (repeat constructor; unfold is_byte; lia); cbn; lia. Qed.
