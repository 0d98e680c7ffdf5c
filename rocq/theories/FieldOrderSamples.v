(** * A sample for C79. *)
From Verif Require Import Base Buffers Schema Message Spec SpecFieldOrder Contracts BufferProofs Samples DecodeSamples.
From Coq Require Import Permutation.

(** The same message in another order, also inside the nested message; p and q of the oneof keep their order. *)
Definition sample_ab : list Z := r_u ++ r_r ++ r_n ++ r_p ++ r_q.
Definition r_n' : list Z := [50; 5; 26; 1; 120; 8; 1].
Definition sample_ab' : list Z := r_p ++ r_n' ++ r_r ++ r_q ++ r_u.

Lemma sample_ab_ok : mdec od oo sample_old sample_ab sample_new.
Proof.
  unfold sample_ab. eapply mdec_cons; [apply sample_u|]. eapply mdec_cons; [apply sample_r|]. eapply mdec_cons; [apply sample_n|].
  eapply mdec_cons; [apply sample_p|]. rewrite <- (app_nil_r r_q). eapply mdec_cons; [apply sample_q|constructor].
Qed.

Lemma sample_inner_reordered : reordered inner_fields [] [8; 1; 26; 1; 120] [26; 1; 120; 8; 1].
Proof.
  apply (reordered_records inner_fields [] [(1, [8; 1]); (3, [26; 1; 120])] [(1, [8; 1]); (3, [26; 1; 120])] [(3, [26; 1; 120]); (1, [8; 1])]).
  - constructor; [|constructor; [|constructor]].
    + split; [exists [8], VARINT, [1]; split; [reflexivity|v32]|]. exists (inner_s 0 []), (inner_s 1 []).
      field_record 0%nat ([8] ++ [1]) (SvZ 1). eapply (rdec_plain inner_fields [] _ _ 0 1 (EScalar Int32) [8] [1] [1] (SvZ 0) (SvZ 1)); [reflexivity|reflexivity|v32|reflexivity| ].
      constructor. split; [wf|reflexivity].
    + split; [exists [26], LENDEL, [1; 120]; split; [reflexivity|v32]|]. exists (inner_s 0 []), (inner_s 0 [120]).
      field_record 2%nat ([26] ++ [1; 120]) (SvB [120]). eapply (rdec_plain inner_fields [] _ _ 2 3 (EBytes true 8) [26] [120] [1; 120] (SvB []) (SvB [120])); [reflexivity|reflexivity|v32| | ].
      * exists [1]. split; [v32|reflexivity].
      * constructor; [cbn; lia|]. repeat constructor; unfold is_byte; lia.
  - do 2 apply inside_same. apply inside_none.
  - split; [apply perm_swap|]. intros n. unfold concerns. cbn [filter fst existsb]. rewrite !Bool.orb_false_r.
    destruct (Z.eqb_spec n 1), (Z.eqb_spec n 3); try reflexivity. lia.
Qed.

Lemma sample_reordered : reordered od oo sample_ab sample_ab'.
Proof.
  apply (reordered_records od oo [(1, r_u); (3, r_r); (6, r_n); (7, r_p); (8, r_q)] [(1, r_u); (3, r_r); (6, r_n'); (7, r_p); (8, r_q)]
    [(7, r_p); (6, r_n'); (3, r_r); (8, r_q); (1, r_u)]).
  - repeat (constructor; [split|]); [| | | | | | | | | |constructor].
    + exists [136; 0], VARINT, [172; 2]. split; [reflexivity|v32].
    + do 2 eexists. apply (sample_u [] (inner_s 0 []) (0, SvNone)).
    + exists [26], LENDEL, [3; 1; 172; 2]. split; [reflexivity|v32].
    + do 2 eexists. apply (sample_r (inner_s 0 []) (0, SvNone)).
    + exists [50], LENDEL, [5; 8; 1; 26; 1; 120]. split; [reflexivity|v32].
    + do 2 eexists. apply (sample_n (0, SvNone)).
    + exists [56], VARINT, [1]. split; [reflexivity|v32].
    + do 2 eexists. apply (sample_p 0 [] (inner_s 0 [])).
    + exists [66], LENDEL, [2; 8; 5]. split; [reflexivity|v32].
    + do 2 eexists. apply (sample_q 0 [] (inner_s 0 [])).
  - do 2 apply inside_same. apply (inside_nested od oo 6 inner_fields [] [50] [5] [8; 1; 26; 1; 120] [26; 1; 120; 8; 1]); [|v32|v32|exact sample_inner_reordered|].
    + left. exists KPlain. cbn. auto 10.
    + do 2 apply inside_same. apply inside_none.
  - split.
    + change ([(7, r_p); (6, r_n'); (3, r_r); (8, r_q); (1, r_u)]) with ([(7, r_p); (6, r_n'); (3, r_r); (8, r_q)] ++ [(1, r_u)]).
      apply Permutation_cons_app. rewrite app_nil_r.
      change ([(7, r_p); (6, r_n'); (3, r_r); (8, r_q)]) with ([(7, r_p); (6, r_n')] ++ (3, r_r) :: [(8, r_q)]). apply Permutation_cons_app. cbn [app]. apply perm_swap.
    + intros n. unfold concerns. cbn [filter fst existsb outer_oneofs]. rewrite !Bool.orb_false_r.
      destruct (Z.eqb_spec n 1), (Z.eqb_spec n 3), (Z.eqb_spec n 6), (Z.eqb_spec n 7), (Z.eqb_spec n 8), (Z.eqb_spec 7 n), (Z.eqb_spec 8 n); try lia; subst; reflexivity.
Qed.
