(** * Sample encodings used by the examples beside the decoding theorems. *)
From Verif Require Import Base Buffers Schema Message Spec Contracts BufferProofs Samples.

Lemma wf1 k b : (1 <= k)%nat -> 0 <= b < 128 -> varint_wf k [b].
Proof. intros. exists [], b. repeat split; auto; cbn; lia. Qed.
Lemma wf2 k a b : (2 <= k)%nat -> 128 <= a < 256 -> 0 <= b < 128 -> varint_wf k [a; b].
Proof. intros. exists [a], b. repeat split; auto; cbn; try lia; repeat constructor; lia. Qed.
Ltac wf := first [apply wf1; lia | apply wf2; lia].
Ltac v32 := split; [wf|reflexivity].

(** u = 300 with a two-byte tag; packed r = 1, 300; n.a = 1, n.s = "x"; oneof p = true; then oneof
    q.a = 5. *)
Definition r_u : list Z := [136; 0; 172; 2].
Definition r_r : list Z := [26; 3; 1; 172; 2].
Definition r_n : list Z := [50; 5; 8; 1; 26; 1; 120].
Definition r_p : list Z := [56; 1].
Definition r_q : list Z := [66; 2; 8; 5].
(** Unknown field 99 as a varint, unknown field 100 with a three-byte payload. *)
Definition r_unknown : list Z := [152; 6; 42].
Definition r_unknown2 : list Z := [162; 6; 3; 8; 1; 255].

Definition inner_s (a : Z) (s : list Z) : sval := SvM [SvZ a; SvNone; SvB s] [].
Definition outer_s (u : Z) (r : list Z) (n : sval) (o : Z * sval) : sval :=
  SvM [SvZ u; SvB []; SvR (map SvZ r); SvR []; SvNone; n] [o].

Ltac field_record i r new := match goal with |- rdec ?f ?o ?v0 _ _ =>
  let v := eval cbv [outer_s inner_s] in v0 in
  match v with SvM ?vs ?ovs => change (rdec f o (SvM vs ovs) r (SvM (upd i new vs) ovs)) end end.
Ltac oneof_record j r new := match goal with |- rdec ?f ?o ?v0 _ _ =>
  let v := eval cbv [outer_s inner_s] in v0 in
  match v with SvM ?vs ?ovs => change (rdec f o (SvM vs ovs) r (SvM vs (upd j new ovs))) end end.

Notation od := outer_fields.
Notation oo := outer_oneofs.

Lemma sample_u r n o : rdec od oo (outer_s 0 r n o) r_u (outer_s 300 r n o).
Proof.
  field_record 0%nat ([136; 0] ++ [172; 2]) (SvZ 300). eapply (rdec_plain od oo _ _ 0 1 (EScalar UInt32) [136; 0] [172; 2] [172; 2] (SvZ 0) (SvZ 300)); [reflexivity|reflexivity|v32|reflexivity| ].
  constructor. split; [wf|reflexivity].
Qed.

Lemma sample_r n o : rdec od oo (outer_s 300 [] n o) r_r (outer_s 300 [1; 300] n o).
Proof.
  field_record 2%nat ([26] ++ [3] ++ [1; 172; 2]) (SvR ([] ++ map SvZ [1; 300])). eapply (rdec_packed od oo _ _ 2 3 4 UInt32 [26] [1; 172; 2] [3] [1; 300] []); [reflexivity|reflexivity|v32|v32| |cbn; lia].
  apply (packed_cons UInt32 [1] 1 [172; 2] [300]); [split; [wf|reflexivity]|].
  apply (packed_cons UInt32 [172; 2] 300 [] []); [split; [wf|reflexivity]|constructor].
Qed.

Lemma sample_inner old a : 0 < a < 128 -> mdec inner_fields [] (inner_s old []) [8; a] (inner_s a []).
Proof.
  intros H. refine (mdec_cons _ _ _ [8; a] _ [] _ _ (mdec_nil _ _ _ _)).
  field_record 0%nat ([8] ++ [a]) (SvZ a). eapply (rdec_plain inner_fields [] _ _ 0 1 (EScalar Int32) [8] [a] [a] (SvZ old) (SvZ a)); [reflexivity|reflexivity|v32|reflexivity| ].
  constructor. split; [wf|]. cbn [varint_value]. unfold to_signed. rewrite !Z.mod_small by lia.
  replace (a + 128 * 0) with a by lia. destruct (a <? 2 ^ (32 - 1)) eqn:E; lia.
Qed.

Lemma sample_n o : rdec od oo (outer_s 300 [1; 300] (inner_s 0 []) o) r_n (outer_s 300 [1; 300] (inner_s 1 [120]) o).
Proof.
  field_record 5%nat ([50] ++ [5; 8; 1; 26; 1; 120]) (inner_s 1 [120]). eapply (rdec_plain od oo _ _ 5 6 Inner [50] [8; 1; 26; 1; 120] [5; 8; 1; 26; 1; 120] (inner_s 0 []) (inner_s 1 [120])); [reflexivity|reflexivity|v32| | ].
  - exists [5]. split; [v32|reflexivity].
  - constructor. refine (mdec_cons _ _ _ [8; 1] (inner_s 1 []) [26; 1; 120] _ _ _).
    + field_record 0%nat ([8] ++ [1]) (SvZ 1). eapply (rdec_plain inner_fields [] _ _ 0 1 (EScalar Int32) [8] [1] [1] (SvZ 0) (SvZ 1)); [reflexivity|reflexivity|v32|reflexivity| ].
      constructor. split; [wf|reflexivity].
    + refine (mdec_cons _ _ _ [26; 1; 120] _ [] _ _ (mdec_nil _ _ _ _)).
      field_record 2%nat ([26] ++ [1; 120]) (SvB [120]). eapply (rdec_plain inner_fields [] _ _ 2 3 (EBytes true 8) [26] [120] [1; 120] (SvB []) (SvB [120])); [reflexivity|reflexivity|v32| | ].
      * exists [1]. split; [v32|reflexivity].
      * constructor; [cbn; lia|]. repeat constructor; unfold is_byte; lia.
Qed.

Lemma sample_p u r n : rdec od oo (outer_s u r n (0, SvNone)) r_p (outer_s u r n (7, SvSome (SvZ 1))).
Proof.
  oneof_record 0%nat ([56] ++ [1]) (7, SvSome (SvZ 1)). eapply (rdec_oneof_other od oo _ _ 0 7 (EScalar Boolean) _ [56] [1] [1] 0 SvNone (SvZ 1) ); [reflexivity|reflexivity|reflexivity|lia|v32|reflexivity|].
  constructor. split; [wf|reflexivity].
Qed.

Lemma sample_q u r n : rdec od oo (outer_s u r n (7, SvSome (SvZ 1))) r_q (outer_s u r n (8, SvSome (inner_s 5 []))).
Proof.
  oneof_record 0%nat ([66] ++ [2; 8; 5]) (8, SvSome (inner_s 5 [])). eapply (rdec_oneof_other od oo _ _ 0 8 Inner _ [66] [8; 5] [2; 8; 5] 7 (SvSome (SvZ 1)) (inner_s 5 []) ); [reflexivity|reflexivity|reflexivity|lia|v32| |].
  - exists [2]. split; [v32|reflexivity].
  - constructor. apply sample_inner. lia.
Qed.

Lemma sample_unknown : unknown_records od oo (r_unknown ++ r_unknown2).
Proof.
  refine (unknown_cons od oo 99 VARINT [152; 6] [42] r_unknown2 _ _ _ _ _);
    [cbn; intuition lia|lia|v32|constructor; wf|].
  refine (unknown_cons od oo 100 LENDEL [162; 6] [3; 8; 1; 255] [] _ _ _ _ (unknown_nil _ _));
    [cbn; intuition lia|lia|v32|].
  apply (skip_lendel [3] [8; 1; 255]); [v32|]. repeat constructor; unfold is_byte; lia.
Qed.

Definition sample_a : list Z := r_u ++ r_r ++ [].
Definition sample_b : list Z := r_n ++ r_p ++ r_q ++ [].
Definition sample_old : sval := outer_s 0 [] (inner_s 0 []) (0, SvNone).
Definition sample_mid : sval := outer_s 300 [1; 300] (inner_s 0 []) (0, SvNone).
Definition sample_new : sval := outer_s 300 [1; 300] (inner_s 1 [120]) (8, SvSome (inner_s 5 [])).

Lemma sample_a_ok : mdec od oo sample_old sample_a sample_mid.
Proof. eapply mdec_cons; [apply sample_u|]. eapply mdec_cons; [apply sample_r|constructor]. Qed.
Lemma sample_b_ok : mdec od oo sample_mid sample_b sample_new.
Proof.
  eapply mdec_cons; [apply sample_n|]. eapply mdec_cons; [apply sample_p|].
  eapply mdec_cons; [apply sample_q|constructor].
Qed.

Lemma sample_padded : padded od oo sample_old sample_a sample_mid
  ((r_unknown ++ r_unknown2) ++ r_u ++ [] ++ r_r ++ r_unknown ++ r_unknown2).
Proof.
  eapply padded_cons; [apply sample_unknown|apply sample_u|].
  eapply padded_cons; [apply unknown_nil|apply sample_r|]. constructor. apply sample_unknown.
Qed.
