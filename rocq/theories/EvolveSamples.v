(** * EvolveSamples: the .proto files of GenInstanceSamples.v after an update, and with other names only (C92). *)
From Coq Require Import String.
From Verif Require Import Base Buffers Schema Fields Message Api Spec SpecVersions SpecApi Contracts BufferProofs Printf Generator SpecGenerator SpecInstance GenMembers SpecMembers GenMembersSamples GenOrder
  GenSamples GenInstanceSamples GenBody SpecBody GenBodyObject GenBodySamples SpecEvolve EvolveProofs.
From Coq Require Import List ZifyBool ZifyNat Lia.
Local Open Scope string_scope.

(** package gui;
    message Window {
      message Line { uint32 kind = 1; Caption label = 2; }
      Window above = 6; repeated Point corner = 5 [maxLength = 2]; double scale = 4; repeated Line lines = 1;
      oneof head { Caption title = 2; uint32 count = 7; }
      string id = 3 [maxLength = 8]; }
    message Caption { Name name = 1; }  message Name { string text = 1; }  message Point { sint32 x = 3; sint32 y = 4; } *)
Definition gui_file : pfile :=
  {| p_package := pa ["gui"]; p_enums := [];
     p_msgs :=
       [PMsg (chars "Window")
          [PMsg (chars "Line") [] []
             [field_no "kind" 1 (PScalar UInt32) false 0; field_no "label" 2 (PMessage (pa ["gui"; "Caption"])) false 0] []]
          [] [field_no "above" 6 (PMessage (pa ["gui"; "Window"])) false 0;
              field_no "corner" 5 (PMessage (pa ["gui"; "Point"])) true 2;
              field_no "scale" 4 (PScalar DoubleFixed) false 0;
              field_no "lines" 1 (PMessage (pa ["gui"; "Window"; "Line"])) true 0;
              field_in_oneof "title" 2 (PMessage (pa ["gui"; "Caption"])) false 0 0;
              field_in_oneof "count" 7 (PScalar UInt32) false 0 0;
              field_no "id" 3 PString false 8]
          [chars "head"];
        msg "Caption" [] [field_no "name" 1 (PMessage (pa ["gui"; "Name"])) false 0];
        msg "Name" [] [field_no "text" 1 PString false 0];
        msg "Point" [] [field_no "x" 3 (PScalar SInt32) false 0; field_no "y" 4 (PScalar SInt32) false 0]] |}.
Definition windows : list pfile := [gui_file].
Definition places : list (path * path) :=
  [(pa ["app"; "Screen"], pa ["gui"; "Window"]); (pa ["app"; "Screen"; "Row"], pa ["gui"; "Window"; "Line"]); (pa ["app"; "Label"], pa ["gui"; "Caption"]);
   (pa ["lib"; "Name"], pa ["gui"; "Name"]); (pa ["lib"; "Point"], pa ["gui"; "Point"])].
Definition place (s s' : path) : Prop := In (s, s') places.

Ltac protoc_tac := 
  split; [apply legalb_spec; vm_compute; reflexivity|]; split; [apply imports_firstb_spec; vm_compute; reflexivity|];
  split; [apply referencesb_spec; vm_compute; reflexivity|]; split;
  [ let Hm := fresh "Hm" in intros s m Hm; apply messages_spec in Hm; vm_compute in Hm;
    repeat (destruct Hm as [Hm|Hm]; [injection Hm as <- <-; split; [cbn; repeat constructor; cbn; intuition discriminate|repeat constructor; cbn; lia]|]); destruct Hm
  | let Hm := fresh "Hm" in let Hg := fresh "Hg" in intros s m g Hm Hg; apply messages_spec in Hm; vm_compute in Hm;
    repeat (destruct Hm as [Hm|Hm]; [injection Hm as <- <-; cbn in Hg; repeat (destruct Hg as [<-|Hg]; [cbn; lia|]); destruct Hg|]); destruct Hm ].
Lemma windows_protoc : protoc_ok windows.
Proof. protoc_tac. Qed.

Lemma windows_update : update place screens windows.
Proof.
  intros s s' m m' Hs Hm Hm'. apply messages_spec in Hm, Hm'. vm_compute in Hm, Hm'. unfold place in Hs. 
  repeat (destruct Hs as [Hs|Hs]; [injection Hs as <- <-|]); [..|destruct Hs];
    repeat (destruct Hm as [Hm|Hm]; [try discriminate Hm; injection Hm as <-|]); try (now destruct Hm);
    repeat (destruct Hm' as [Hm'|Hm']; [try discriminate Hm'; injection Hm' as <-|]); try (now destruct Hm').
  all: split; [intros g g' Hg Hg' E|intros g1 g2 g1' g2' Hg1 Hg2 Hg1' Hg2' E1 E2 (i & Hi1 & Hi2)].
  all: cbn [m_fields] in *.
  all: try (repeat (destruct Hg as [<-|Hg]); try (now destruct Hg); repeat (destruct Hg' as [<-|Hg']); try (now destruct Hg'); try discriminate E;
    (split; [reflexivity|split; [vm_compute; auto 8|unfold refers; split; (intros [H|H]; vm_compute in H; first [discriminate H|left; reflexivity])]])).
  all: repeat (destruct Hg1' as [<-|Hg1']); try (now destruct Hg1'); try discriminate Hi1; 
    repeat (destruct Hg2' as [<-|Hg2']); try (now destruct Hg2'); try discriminate Hi2;
    repeat (destruct Hg1 as [<-|Hg1]); try (now destruct Hg1); try discriminate E1; 
    repeat (destruct Hg2 as [<-|Hg2]); try (now destruct Hg2); try discriminate E2; left; reflexivity.
Qed.

Definition window_message : pmsg := match p_msgs gui_file with m :: _ => m | [] => msg "" [] [] end.
Definition Window : mdef := define (pa ["gui"]) window_message.
Definition Caption_type (max : Z) : ety := EMsg [(1, KPlain, EMsg [(1, KPlain, EBytes true max)] [])] [].
Definition window_fields : list fdesc :=
  [(6, KRecursive, EMsg [] []); (5, KRep 2, EMsg [(3, KPlain, EScalar SInt32); (4, KPlain, EScalar SInt32)] []); (4, KPlain, EScalar DoubleFixed);
   (1, KRep 23, EMsg [(1, KPlain, EScalar UInt32); (2, KPlain, Caption_type 53)] []); (3, KPlain, EBytes true 8)].
Definition window_oneofs : list odesc := [[(2, Caption_type 42); (7, EScalar UInt32)]].

Ltac declared_tac request :=
  assert (Hcl : forall s m, In (s, m) (messages request) -> message request s m) by (intros; apply messages_spec; assumption);
  eexists; split;
  [ repeat first
      [ apply Forall2_nil
      | apply Forall2_cons
      | eapply declared_as; [apply Hcl; vm_compute; repeat (first [left; reflexivity|right])|..]
      | apply declared_recursive; left; reflexivity
      | apply declared_repeated; [intros [?|?]; discriminate|reflexivity|]
      | apply declared_single; [intros [?|?]; discriminate|reflexivity|]
      | apply declared_in_oneof
      | apply declared_scalar; reflexivity
      | apply declared_string; reflexivity
      | apply declared_bytes; reflexivity
      | eapply declared_enum; reflexivity
      | eapply declared_message; [reflexivity|]
      | progress cbn [filter direct m_fields] ]
  | vm_compute; reflexivity ].
Lemma window_declared : is_declared windows legal_length (pa ["gui"; "Window"]) (EMsg window_fields window_oneofs).
Proof.
  assert (H : exists t, is_declared windows legal_length (pa ["gui"; "Window"]) t /\ t = EMsg window_fields window_oneofs); [|destruct H as (t & H & <-); exact H].
  declared_tac windows.
Qed.
Lemma window_class : class_at windows legal_length (pa ["gui"; "Window"]) Window window_fields window_oneofs.
Proof.
  exists [], (pa ["gui"]), window_message. split; [reflexivity|]. split; [reflexivity|]. split; [exact windows_protoc|].
  split; [apply messages_spec; vm_compute; repeat (first [left; reflexivity|right])|].
  split; [apply clear_membersb_spec; vm_compute; reflexivity|]. split; [apply no_recursive_presenceb_spec; vm_compute; reflexivity|].
  exact window_declared.
Qed.
Lemma screen_class_at : class_at screens legal_length (pa ["app"; "Screen"]) Screen screen_fields screen_oneofs.
Proof.
  exists [], (pa ["app"]), screen_message. split; [reflexivity|]. split; [reflexivity|]. split; [exact screens_protoc|].
  split; [apply messages_spec; vm_compute; repeat (first [left; reflexivity|right])|].
  split; [apply clear_membersb_spec; vm_compute; reflexivity|]. split; [apply no_recursive_presenceb_spec; vm_compute; reflexivity|].
  exact screen_declared_legal.
Qed.

(** What comes of the Screen that the program of GenBodySamples.v makes. *)
Definition window_object : object :=
  match code_deserialize 23 Window window_fields window_oneofs (rfix_ops 22) (new_object Window window_fields window_oneofs)
          (rfix_of [33; 9; 0; 0; 0; 0; 0; 0; 0;  42; 2; 24; 12;  42; 2; 24; 9;  26; 3; 1; 2; 3]%Z) with
  | Done (_, ob, _) => ob | _ => nothing end.
Lemma window_reads : exists b r, code_serialize Screen screen_fields screen_oneofs screen_object _ (wfix_ops 60) (wfix_init 60) = Done (NoErrors, b)
  /\ code_deserialize 23 Window window_fields window_oneofs (rfix_ops 22) (new_object Window window_fields window_oneofs) (rfix_of (wfix_content b)) = Done (NoErrors, window_object, r)
  /\ code_get Window window_fields window_oneofs window_object (chars "get_scale") = Done (VS 9)
  /\ code_get Window window_fields window_oneofs window_object (chars "get_id") = Done (VB 3 [1; 2; 3; 0; 0; 0; 0; 0]%Z)
  /\ code_get Window window_fields window_oneofs window_object (chars "get_corner") = Done (VR 2 [VM [] [VS 6; VS 0] []; VM [] [VS (-5); VS 0] []]%Z)
  /\ code_which Window window_fields window_oneofs window_object (chars "get_which_head") = Done 0%Z.
Proof. do 2 eexists. repeat (split; [vm_compute; reflexivity|]). vm_compute; reflexivity. Qed.

(** The files of GenInstanceSamples.v with other names: package ui with all messages, Display for Screen, magnify for zoom,
    corners for corner, with another length. *)
Definition ui_file : pfile :=
  {| p_package := pa ["ui"]; p_enums := [chars "Hue"];
     p_msgs :=
       [PMsg (chars "Display")
          [PMsg (chars "Line") [] [chars "Sort"]
             [field_no "sort" 1 (PEnum (pa ["ui"; "Display"; "Line"; "Sort"])) false 0;
              field_no "caption" 2 (PMessage (pa ["ui"; "Caption"])) false 0] []]
          [] [field_no "lines" 1 (PMessage (pa ["ui"; "Display"; "Line"])) true 0;
              field_in_oneof "title" 2 (PMessage (pa ["ui"; "Caption"])) false 0 0;
              field_in_oneof "key" 3 PBytes false 0 16;
              field_in_oneof "magnify" 4 (PScalar DoubleFixed) true 1 0;
              field_no "corners" 5 (PMessage (pa ["ui"; "Dot"])) true 3;
              field_no "above" 6 (PMessage (pa ["ui"; "Display"])) false 0]
          [chars "top"; chars "_magnify"];
        msg "Caption" [] [field_no "name" 1 (PMessage (pa ["ui"; "Words"])) false 0; field_no "hue" 20 (PEnum (pa ["ui"; "Hue"])) true 0];
        msg "Words" [] [field_no "text" 1 PString false 0]; msg "Dot" [] [field_no "x" 3 (PScalar SInt32) false 0]] |}.
Definition displays : list pfile := [ui_file].
Definition new_name (s s' : path) : Prop := In (s, s')
  [(pa ["app"; "Screen"], pa ["ui"; "Display"]); (pa ["app"; "Screen"; "Row"], pa ["ui"; "Display"; "Line"]); (pa ["app"; "Label"], pa ["ui"; "Caption"]);
   (pa ["lib"; "Name"], pa ["ui"; "Words"]); (pa ["lib"; "Point"], pa ["ui"; "Dot"])].
Lemma displays_protoc : protoc_ok displays.
Proof. protoc_tac. Qed.
Lemma displays_renamed : renamed new_name screens displays.
Proof.
  intros s s' m m' Hs Hm Hm'. apply messages_spec in Hm, Hm'. vm_compute in Hm, Hm'. unfold new_name in Hs.
  repeat (destruct Hs as [Hs|Hs]; [injection Hs as <- <-|]); [..|destruct Hs];
    repeat (destruct Hm as [Hm|Hm]; [try discriminate Hm; injection Hm as <-|]); try (now destruct Hm);
    repeat (destruct Hm' as [Hm'|Hm']; [try discriminate Hm'; injection Hm' as <-|]); try (now destruct Hm').
  all: split; [cbn [m_fields]; repeat apply Forall2_cons; try apply Forall2_nil|reflexivity].
  all: do 4 (split; [reflexivity|]); split; [vm_compute; auto 8|unfold refers; split; (intros [H|H]; vm_compute in H; first [discriminate H|left; reflexivity])].
Qed.
Definition display_message : pmsg := match p_msgs ui_file with m :: _ => m | [] => msg "" [] [] end.
Definition Display : mdef := define (pa ["ui"]) display_message.
Definition display_fields : list fdesc :=
  [(1, KRep 24, EMsg [(1, KPlain, EScalar Enumeration); (2, KPlain, Label_type 57 49)] []); (4, KOpt, EScalar DoubleFixed);
   (5, KRep 3, EMsg [(3, KPlain, EScalar SInt32)] []); (6, KRecursive, EMsg [] [])].
Definition display_oneofs : list odesc := [[(2, Label_type 44 36); (3, EBytes false 16)]].
Lemma display_declared : is_declared displays legal_length (pa ["ui"; "Display"]) (EMsg display_fields display_oneofs).
Proof.
  assert (H : exists t, is_declared displays legal_length (pa ["ui"; "Display"]) t /\ t = EMsg display_fields display_oneofs); [|destruct H as (t & H & <-); exact H].
  declared_tac displays.
Qed.
Lemma display_class : class_at displays legal_length (pa ["ui"; "Display"]) Display display_fields display_oneofs.
Proof.
  exists [], (pa ["ui"]), display_message. split; [reflexivity|]. split; [reflexivity|]. split; [exact displays_protoc|].
  split; [apply messages_spec; vm_compute; repeat (first [left; reflexivity|right])|].
  split; [apply clear_membersb_spec; vm_compute; reflexivity|]. split; [apply no_recursive_presenceb_spec; vm_compute; reflexivity|].
  exact display_declared.
Qed.
Definition display_object : object :=
  match code_deserialize 23 Display display_fields display_oneofs (rfix_ops 22) (new_object Display display_fields display_oneofs)
          (rfix_of [33; 9; 0; 0; 0; 0; 0; 0; 0;  42; 2; 24; 12;  42; 2; 24; 9;  26; 3; 1; 2; 3]%Z) with
  | Done (_, ob, _) => ob | _ => nothing end.
Lemma display_bytes : exists b, code_serialize Display display_fields display_oneofs display_object _ (wfix_ops 60) (wfix_init 60) = Done (NoErrors, b)
  /\ wfix_content b = [33; 9; 0; 0; 0; 0; 0; 0; 0;  42; 2; 24; 12;  42; 2; 24; 9;  26; 3; 1; 2; 3]%Z.
Proof. eexists. split; vm_compute; reflexivity. Qed.
Definition display_value : value :=
  match deserialize 23 (EMsg display_fields display_oneofs) _ (rfix_ops 22) (default_value (EMsg display_fields display_oneofs))
          (rfix_of [33; 9; 0; 0; 0; 0; 0; 0; 0;  42; 2; 24; 12;  42; 2; 24; 9;  26; 3; 1; 2; 3]%Z) with
  | Done (_, v, _) => v | _ => VIndet end.
Definition screen_value : value :=
  match run_ops 0 screen_ops (OElem (EMsg screen_fields screen_oneofs)) (construct (OElem (EMsg screen_fields screen_oneofs))) with Done v => v | _ => VIndet end.
(** rows empty, zoom = 9, corner = [6, -5], parent; head: id = {1, 2, 3} *)
Definition what_both_show : sval :=
  SvM [SvR []; SvSome (SvZ 9); SvR [SvM [SvZ 6] []; SvM [SvZ (-5)] []]; SvNone] [(3, SvSome (SvB [1; 2; 3]))]%Z.
Lemma display_wt : wt (EMsg display_fields display_oneofs) display_value.
Proof. vm_compute. repeat split; try discriminate; auto. Qed.
Definition sent_bytes : list Z := [33; 9; 0; 0; 0; 0; 0; 0; 0;  42; 2; 24; 12;  42; 2; 24; 9;  26; 3; 1; 2; 3]%Z.
Lemma display_runs : exists r, code_deserialize 23 Display display_fields display_oneofs (rfix_ops 22) (new_object Display display_fields display_oneofs) (rfix_of sent_bytes) = Done (NoErrors, display_object, r)
  /\ deserialize 23 (EMsg display_fields display_oneofs) _ (rfix_ops 22) (default_value (EMsg display_fields display_oneofs)) (rfix_of sent_bytes) = Done (NoErrors, display_value, r).
Proof. eexists. split; vm_compute; reflexivity. Qed.
Lemma display_holds : holds_value Display display_object display_value.
Proof.
  destruct display_runs as (r & E1 & E2). pose proof (class_at_for _ _ _ _ _ _ display_class) as Hc.
  pose proof (class_deserialize _ _ _ _ _ Hc 23 (new_object Display display_fields display_oneofs) (default_value (EMsg display_fields display_oneofs)) _ (rfix_ops 22)
    (rfix_of sent_bytes) (new_holds _ _ _ (class_sound _ _ _ _ _ Hc))) as H.
  rewrite E1, E2 in H. exact (proj2 (proj2 (H ltac:(discriminate)))).
Qed.
Lemma screen_program_runs : user_runs 0 Screen screen_fields screen_oneofs (firstn 8 screen_program) (new_object Screen screen_fields screen_oneofs) = Done screen_object
  /\ run_ops 0 screen_ops (OElem (EMsg screen_fields screen_oneofs)) (construct (OElem (EMsg screen_fields screen_oneofs))) = Done screen_value.
Proof. split; vm_compute; reflexivity. Qed.
Lemma screen_view : view (EMsg screen_fields screen_oneofs) screen_value = what_both_show.
Proof. vm_compute. reflexivity. Qed.
Lemma display_view : what_both_show = view (EMsg display_fields display_oneofs) display_value.
Proof. vm_compute. reflexivity. Qed.
Lemma screen_object_shows : valid_object Screen screen_fields screen_oneofs screen_object /\ shows Screen screen_fields screen_oneofs screen_object what_both_show.
Proof.
  destruct screen_program_runs as [R1 R2].
  destruct (class_programs _ _ _ _ _ screen_class 0 _ _ legal_lengths screen_stands screen_legal) as (ob & v & E & Ev & Hs & Hv); [rewrite R2; discriminate|].
  rewrite R1 in E. injection E as E. rewrite R2 in Ev. injection Ev as Ev. rewrite <- E in Hs, Hv. rewrite <- Ev, screen_view in Hs. split; assumption.
Qed.
Lemma both_show : valid_object Screen screen_fields screen_oneofs screen_object /\ valid_object Display display_fields display_oneofs display_object
  /\ shows Screen screen_fields screen_oneofs screen_object what_both_show /\ shows Display display_fields display_oneofs display_object what_both_show.
Proof.
  destruct screen_object_shows as [H1 H2].
  split; [exact H1|]. split; [exists display_value; split; [exact display_wt|exact display_holds]|]. split; [exact H2|].
  exact (proj2 (class_shows _ _ _ _ _ (class_at_for _ _ _ _ _ _ display_class) _ _ display_wt display_holds what_both_show) display_view).
Qed.
