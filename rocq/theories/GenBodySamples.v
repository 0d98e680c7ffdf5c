(** * GenBodySamples: the class of the message Screen (GenInstanceSamples.v) and a program that uses it. *)
From Coq Require Import String.
From Verif Require Import Base Buffers Schema Fields Message Api Spec SpecApi Contracts BufferProofs Printf ToString Generator SpecGenerator SpecInstance GenMembers SpecMembers GenMembersSamples GenOrder
  GenSamples GenInstanceSamples GenBody SpecBody.
From Coq Require Import List ZifyBool ZifyNat Lia.
Local Open Scope string_scope.

Definition screen_message : pmsg := match p_msgs app_file with m :: _ => m | [] => msg "" [] [] end.
Definition Screen : mdef := define (pa ["app"]) screen_message.
Definition screen_fields : list fdesc := match Screen_type with EMsg fs _ => fs | _ => [] end.
Definition screen_oneofs : list odesc := match Screen_type with EMsg _ os => os | _ => [] end.
(** As name_length, but at least 1 and at most 1000. *)
Definition legal_length (p : text) : Z := Z.max 1 (Z.min 1000 (Z.of_nat (List.length p))).
Lemma legal_lengths : forall p, capacity_ok (legal_length p).
Proof. intros p. unfold capacity_ok, legal_length. lia. Qed.
Lemma screen_declared_legal : declared screens legal_length (pa ["app"; "Screen"]) Screen_type.
Proof.
  assert (H : exists t, declared screens legal_length (pa ["app"; "Screen"]) t /\ t = Screen_type); [|destruct H as (t & H & <-); exact H].
  assert (Hcl : forall s m, In (s, m) (messages screens) -> message screens s m) by (intros; apply messages_spec; assumption).
  eexists. split.
  - repeat first
      [ apply Forall2_nil
      | apply Forall2_cons
      | eapply declared_as; [apply Hcl; vm_compute; repeat (first [left; reflexivity|right])|..]
      | apply declared_recursive; left; reflexivity
      | apply declared_repeated; [intros [?|?]; discriminate|reflexivity|]
      | apply declared_single; [intros [?|?]; discriminate|reflexivity|]
      | apply declared_in_oneof
      | apply declared_scalar; reflexivity
      | apply declared_string; reflexivity
      | apply declared_bytes; reflexivity
      | eapply declared_enum; reflexivity
      | eapply declared_message; [reflexivity|]
      | progress cbn [filter direct m_fields] ].
  - vm_compute. reflexivity.
Qed.
Lemma screen_class : class_for screens legal_length Screen screen_fields screen_oneofs.
Proof.
  exists [], (pa ["app"]), screen_message. split; [reflexivity|]. split; [exact screens_protoc|].
  split; [apply messages_spec; vm_compute; repeat (first [left; reflexivity|right])|].
  split; [apply clear_membersb_spec; vm_compute; reflexivity|]. split; [apply no_recursive_presenceb_spec; vm_compute; reflexivity|].
  exact screen_declared_legal.
Qed.

Definition blue_label : value := VM [] [VM [] [VB 2 ([104; 105] ++ zrepeat 0 38)%list] []; VR 1 (VS 3 :: zrepeat (VS 0) 34)] [].
Definition a_point (z : Z) : value := VM [] [VS z] [].
(** s.set_zoom(7); s.mutable_title() = label; s.add_corner(..); s.add_corner(..); s.set_corner(0, ..); s.mutable_id().set(..);
    s.clear_zoom(); s.mutable_zoom() = 9; s.set_parent(0) *)
Definition screen_program : list user_call :=
  [UCall 1 (chars "set_zoom") (with_value (VS 7)); UThrough (chars "mutable_title") (OpAssign blue_label);
   UCall 1 (chars "add_corner") (with_value (a_point 5)); UCall 1 (chars "add_corner") (with_value (a_point (-5)));
   UCall 2 (chars "set_corner") (with_index 0 (a_point 6)); UThrough (chars "mutable_id") (OpBytesSet [1; 2; 3] 3);
   UCall 0 (chars "clear_zoom") no_frame; UThrough (chars "mutable_zoom") (OpScalarSet 9); UCall 1 (chars "set_parent") (with_value (VS 0))]%Z.
Definition screen_ops : list op :=
  [OpField 1 (OpAssign (VS 7)); OpOneof 0 2 (OpAssign blue_label); OpField 2 (OpRepAdd (a_point 5)); OpField 2 (OpRepAdd (a_point (-5)));
   OpField 2 (OpRepSet 0 (a_point 6)); OpOneof 0 3 (OpBytesSet [1; 2; 3] 3); OpClearField 1; OpField 1 (OpScalarSet 9)]%Z.
Definition field_at (i : nat) : field := nth i (fields_of Screen) (factory [] (field_no "" 0 PString false 0)).
Definition member_at (i : nat) : field := nth i (snd (nth 0 (oneofs_of Screen) (@nil Z, []))) (factory [] (field_no "" 0 PString false 0)).
Lemma screen_stands : Forall2 (stands_for Screen screen_fields screen_oneofs) (firstn 8 screen_program) screen_ops.
Proof.
  unfold screen_program, screen_ops. cbn [firstn]. repeat apply Forall2_cons; try apply Forall2_nil.
  - eapply (for_field Screen screen_fields screen_oneofs 1 (field_at 1)); [reflexivity|reflexivity|]. refine (call_set (field_at 1) 1 KOpt (EScalar DoubleFixed) (VS 7)).
  - eapply (for_mutable_member Screen screen_fields screen_oneofs 0 _ _ 0 (member_at 0)); [reflexivity|reflexivity|reflexivity|reflexivity|]. intros (sc & E). discriminate.
  - eapply (for_field Screen screen_fields screen_oneofs 2 (field_at 2)); [reflexivity|reflexivity|]. eapply (call_add (field_at 2)). reflexivity.
  - eapply (for_field Screen screen_fields screen_oneofs 2 (field_at 2)); [reflexivity|reflexivity|]. eapply (call_add (field_at 2)). reflexivity.
  - eapply (for_field Screen screen_fields screen_oneofs 2 (field_at 2)); [reflexivity|reflexivity|]. eapply (call_set_at (field_at 2)). reflexivity.
  - eapply (for_mutable_member Screen screen_fields screen_oneofs 0 _ _ 1 (member_at 1)); [reflexivity|reflexivity|reflexivity|reflexivity|]. intros (sc & E). discriminate.
  - eapply (for_field Screen screen_fields screen_oneofs 1 (field_at 1)); [reflexivity|reflexivity|]. apply (call_clear (field_at 1)).
  - eapply (for_mutable Screen screen_fields screen_oneofs 1 (field_at 1)); [reflexivity|reflexivity|]. split; [discriminate|]. intros E. discriminate.
Qed.
Lemma label_wt : wt (Label_type 40 35) blue_label.
Proof. vm_compute. repeat split; try discriminate; auto. Qed.
Lemma screen_legal : Forall (op_ok (OElem (EMsg screen_fields screen_oneofs))) screen_ops.
Proof.
  unfold screen_ops. repeat apply Forall_cons; try apply Forall_nil; cbn [op_ok nth_error screen_fields screen_oneofs Screen_type oty_of lookup Z.eqb Pos.eqb].
  - split; vm_compute; congruence.
  - exact label_wt.
  - vm_compute. repeat split; congruence.
  - vm_compute. repeat split; congruence.
  - split; [vm_compute; split; congruence|]. vm_compute. repeat split; congruence.
  - split; [|vm_compute; split; congruence]. repeat apply Forall_cons; try apply Forall_nil; vm_compute; split; congruence.
  - discriminate.
  - vm_compute. split; congruence.
Qed.
Definition screen_object : object :=
  match user_runs 0 Screen screen_fields screen_oneofs screen_program (new_object Screen screen_fields screen_oneofs) with Done ob => ob | _ => nothing end.
Lemma screen_runs : user_runs 0 Screen screen_fields screen_oneofs screen_program (new_object Screen screen_fields screen_oneofs) = Done screen_object
  /\ code_has Screen screen_fields screen_oneofs screen_object (chars "has_zoom") = Done true
  /\ code_get Screen screen_fields screen_oneofs screen_object (chars "get_zoom") = Done (VS 9)
  /\ code_which Screen screen_fields screen_oneofs screen_object (chars "get_which_head") = Done 3%Z
  /\ code_has Screen screen_fields screen_oneofs screen_object (chars "has_title") = Done false
  /\ code_get Screen screen_fields screen_oneofs screen_object (chars "get_corner") = Done (VR 2 [a_point 6; a_point (-5); a_point 0; a_point 0]%Z)
  /\ code_name Screen screen_fields screen_oneofs 5 = Done (chars "corner") /\ code_name Screen screen_fields screen_oneofs 7 = Done (chars "Invalid FieldNumber").
Proof. repeat split; vm_compute; reflexivity. Qed.
Lemma screen_bytes : exists b, code_serialize Screen screen_fields screen_oneofs screen_object _ (wfix_ops 60) (wfix_init 60) = Done (NoErrors, b)
  /\ wfix_content b = [33; 9; 0; 0; 0; 0; 0; 0; 0;  42; 2; 24; 12;  42; 2; 24; 9;  26; 3; 1; 2; 3]%Z.
Proof. eexists. split; vm_compute; reflexivity. Qed.

(** The names of the fields by their numbers, also in nested messages. *)
Definition screen_names (path : list Z) : text :=
  match path with
  | [1] => chars "rows" | [2] => chars "title" | [3] => chars "id" | [4] => chars "zoom" | [5] => chars "corner" | [6] => chars "parent"
  | [5; 3] => chars "x" | _ => chars "other"
  end%Z.
Lemma screen_names_ok : forall f, In f (fields_of Screen ++ concat (map snd (oneofs_of Screen)))%list -> screen_names ([] ++ [f_number f])%list = f_name f.
Proof. intros f Hf. vm_compute in Hf. repeat (destruct Hf as [<-|Hf]; [vm_compute; reflexivity|]). destruct Hf. Qed.
