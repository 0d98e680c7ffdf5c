(** Samples used beside the theorems of C90. *)
From Verif Require Import Base Buffers Wire Schema Fields Message Spec SpecRead Contracts BufferProofs ReadTotal MalformedProps SpecWider WiderProofs.
Require Import Lia.

(** message Log { string name = 1 (max 3); repeated Line lines = 2 (max 1); }  message Line { bytes text = 1 (max 2); int32 at = 2; } *)
Definition Line (text : Z) : ety := EMsg [(1, KPlain, EBytes false text); (2, KPlain, EScalar Int32)] [].
Definition log_fields (name lines text : Z) : list fdesc := [(1, KPlain, EBytes true name); (2, KRep lines, Line text)].
Definition Log (name lines text : Z) : ety := EMsg (log_fields name lines text) [].

Lemma Log_ok name lines text : capacity_ok name -> capacity_ok lines -> capacity_ok text -> desc_ok (Log name lines text).
Proof.
  unfold capacity_ok. intros H1 H2 H3. unfold Log, log_fields, Line, desc_ok; cbn; unfold capacity_ok; repeat split; try lia; repeat constructor; cbn; intuition lia.
Qed.
Lemma Log_wider name lines text name' lines' text' : name <= name' -> lines <= lines' -> text <= text' ->
  wider (Log name lines text) (Log name' lines' text').
Proof. intros H1 H2 H3. cbn. repeat split; auto. Qed.

(** name "ab" and one line with text [9] *)
Definition log_v : value := VM [] [VB 2 [97; 98; 0]; VR 1 [VM [] [VB 1 [9; 0]; VS 5] []]] [].
Definition log_w : value := VM [] [VB 2 [97; 98; 77; 78]; VR 1 [VM [] [VB 1 [9; 8; 7]; VS 5] []; VM [] [VB 0 [0; 0; 0]; VS 0] []]] [].
Ltac wt_tac := cbn; unfold is_byte, is_u32; repeat split; try (vm_compute; congruence); try lia.
Lemma log_wt : wt (Log 3 1 2) log_v /\ clean (Log 3 1 2) log_v /\ wt (Log 4 2 3) log_w /\ clean (Log 4 2 3) log_w
  /\ view (Log 3 1 2) log_v = view (Log 4 2 3) log_w.
Proof. split; [wt_tac|]. split; [wt_tac|]. split; [wt_tac|]. split; [wt_tac|]. vm_compute. reflexivity. Qed.
