(** Samples used beside the theorems of C85. *)
From Verif Require Import Base Buffers Schema Message Spec Contracts BufferProofs Samples DecodeSamples.

(** message Bag { repeated uint32 l = 1; }  message Box { Bag b = 1; repeated uint32 r = 2; uint32 u = 3; } *)
Definition bag_fields : list fdesc := [(1, KRep 4, EScalar UInt32)].
Definition Bag : ety := EMsg bag_fields [].
Definition box_fields : list fdesc := [(1, KPlain, Bag); (2, KRep 4, EScalar UInt32); (3, KPlain, EScalar UInt32)].
Definition Box : ety := EMsg box_fields [].
Definition bag_s (l : list sval) : sval := SvM [SvR l] [].
Definition box_s (l r : list sval) (u : Z) : sval := SvM [bag_s l; SvR r; SvZ u] [].
(** The list inside [b] gets a 7, the list [r] a 9, [u] becomes 5. *)
Definition box_bytes : list Z := [10; 3; 10; 1; 7] ++ [18; 1; 9] ++ [24; 5].

Lemma box_received l r u : zlen l <= 3 -> zlen r <= 3 -> mdec box_fields [] (box_s l r u) box_bytes (box_s (l ++ [SvZ 7]) (r ++ [SvZ 9]) 5).
Proof.
  intros Hl Hr. refine (mdec_cons _ _ _ [10; 3; 10; 1; 7] (box_s (l ++ [SvZ 7]) r u) _ _ _ _).
  { change (rdec box_fields [] (box_s l r u) ([10] ++ [3; 10; 1; 7]) (SvM (upd 0%nat (bag_s (l ++ [SvZ 7])) [bag_s l; SvR r; SvZ u]) [])).
    eapply (rdec_plain box_fields [] _ _ 0 1 Bag [10] [10; 1; 7] [3; 10; 1; 7]); [reflexivity|reflexivity|v32| |].
    - exists [3]. split; [v32|reflexivity].
    - constructor. refine (mdec_cons _ _ _ [10; 1; 7] _ [] _ _ (mdec_nil _ _ _ _)).
      change (rdec bag_fields [] (bag_s l) ([10] ++ [1] ++ [7]) (SvM (upd 0%nat (SvR (l ++ map SvZ [7])) [SvR l]) [])).
      eapply (rdec_packed bag_fields [] _ _ 0 1 4 UInt32 [10] [7] [1] [7] l); [reflexivity|reflexivity|v32|v32| |change (zlen [7]) with 1; lia].
      apply (packed_cons UInt32 [7] 7 [] []); [split; [wf|reflexivity]|constructor]. }
  refine (mdec_cons _ _ _ [18; 1; 9] (box_s (l ++ [SvZ 7]) (r ++ [SvZ 9]) u) _ _ _ _).
  { change (rdec box_fields [] (box_s (l ++ [SvZ 7]) r u) ([18] ++ [1] ++ [9]) (SvM (upd 1%nat (SvR (r ++ map SvZ [9])) [bag_s (l ++ [SvZ 7]); SvR r; SvZ u]) [])).
    eapply (rdec_packed box_fields [] _ _ 1 2 4 UInt32 [18] [9] [1] [9] r); [reflexivity|reflexivity|v32|v32| |change (zlen [9]) with 1; lia].
    apply (packed_cons UInt32 [9] 9 [] []); [split; [wf|reflexivity]|constructor]. }
  refine (mdec_cons _ _ _ [24; 5] _ [] _ _ (mdec_nil _ _ _ _)).
  change (rdec box_fields [] (box_s (l ++ [SvZ 7]) (r ++ [SvZ 9]) u) ([24] ++ [5]) (SvM (upd 2%nat (SvZ 5) [bag_s (l ++ [SvZ 7]); SvR (r ++ [SvZ 9]); SvZ u]) [])).
  eapply (rdec_plain box_fields [] _ _ 2 3 (EScalar UInt32) [24] [5] [5] (SvZ u) (SvZ 5)); [reflexivity|reflexivity|v32|reflexivity|].
  constructor. split; [wf|reflexivity].
Qed.
