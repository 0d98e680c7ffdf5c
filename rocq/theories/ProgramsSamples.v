(** * ProgramsSamples: programs with the .proto files [screens] and [windows] of C92 (C93). *)
From Coq Require Import String.
From Verif Require Import Base Buffers Schema Fields Message Api Spec SpecRetype SpecVersions SpecApi SpecHistory Contracts BufferProofs Printf Generator SpecGenerator SpecInstance GenMembers SpecMembers
  GenOrder GenSamples GenInstanceSamples GenBody SpecBody GenBodySamples SpecEvolve EvolveProofs EvolveSamples SpecUpdate SpecTalk SpecPrograms CleanProofs.
From Coq Require Import List Lia.
Local Open Scope string_scope.

Definition screen_made : made := Build_made screens legal_length (pa ["app"; "Screen"]) Screen screen_fields screen_oneofs.
Definition window_made : made := Build_made windows legal_length (pa ["gui"; "Window"]) Window window_fields window_oneofs.
(** Objects 0 and 2 have the class Screen, object 1 the class Window. *)
Definition three : list made := [screen_made; window_made; screen_made].
Lemma three_ok : Forall made_ok three.
Proof. repeat constructor; try exact screen_class_at; try exact window_class; try exact legal_lengths; cbn [c_lengths screen_made window_made]; unfold legal_length; lia. Qed.

Lemma screen_to_window : understands screen_made window_made.
Proof. exists place. split; [|left; reflexivity]. intros s s' m m' Hs Hm Hm'. exact (proj1 (windows_update s s' m m' Hs Hm Hm')). Qed.
(** And back: id becomes a member of the oneof again. *)
Lemma window_to_screen : understands window_made screen_made.
Proof.
  exists (fun s s' => place s' s). split; [|left; reflexivity].
  cbn [c_request screen_made window_made]. intros s s' m m' Hs Hm Hm'. apply messages_spec in Hm, Hm'. vm_compute in Hm, Hm'. unfold place in Hs.
  repeat (destruct Hs as [Hs|Hs]; [injection Hs as <- <-|]); [..|destruct Hs];
    repeat (destruct Hm as [Hm|Hm]; [try discriminate Hm; injection Hm as <-|]); try (now destruct Hm);
    repeat (destruct Hm' as [Hm'|Hm']; [try discriminate Hm'; injection Hm' as <-|]); try (now destruct Hm').
  all: intros g g' Hg Hg' E; cbn [m_fields] in *.
  all: try (repeat (destruct Hg as [<-|Hg]); try (now destruct Hg); repeat (destruct Hg' as [<-|Hg']); try (now destruct Hg'); try discriminate E;
    (split; [reflexivity|split; [vm_compute; auto 8|unfold refers; split; (intros [H|H]; vm_compute in H; first [discriminate H|left; reflexivity])]])).
Qed.

(** a.set_zoom(7); a.add_corner(5); a.mutable_id().set({1, 2, 3}, 3); a is sent to b; b.mutable_id() = "hi"; b is sent to a, then a to b,
    which has no room for three corners, and again; b.clear(); a is sent to b; c = a. *)
Definition exchange : list event :=
  [ECall 0 (UCall 1 (chars "set_zoom") (with_value (VS 7))); ECall 0 (UCall 1 (chars "add_corner") (with_value (a_point 5)));
   ECall 0 (UThrough (chars "mutable_id") (OpBytesSet [1; 2; 3]%Z 3)); ESend 0 1;
   ECall 1 (UThrough (chars "mutable_id") (OpCStr (Some [104; 105; 0]%Z))); ESend 1 0; ESend 0 1; ESend 0 1; ECall 1 UClear; ESend 0 1; ECopy 0 2].
Definition screen_in_the_end : sval := SvM [SvR []; SvSome (SvZ 7); SvR [SvM [SvZ 5] []; SvM [SvZ 5] []]; SvNone] [(3, SvSome (SvB [104; 105]))]%Z.
Definition window_in_the_end : sval := SvM [SvNone; SvR [SvM [SvZ 5; SvZ 0] []; SvM [SvZ 5; SvZ 0] []]; SvZ 7; SvR []; SvB [104; 105]] [(0, SvNone)]%Z.

Definition window_field (i : nat) : field := nth i (fields_of Window) (factory [] (field_no "" 0 PString false 0)).
Ltac ok_op := cbn; unfold is_byte, is_u32, legal_index; repeat split; try (vm_compute; congruence); try lia; repeat (constructor; try lia).
Ltac e_send H := eapply expected_send; [reflexivity|reflexivity|exact H|reflexivity|reflexivity|vm_compute; reflexivity|vm_compute; reflexivity|cbn [upd]].
Lemma screen_shorter y : no_shorter (EMsg screen_fields screen_oneofs) (sdefault (EMsg screen_fields screen_oneofs)) (SvM [SvR []; SvSome (SvZ 7); SvR y; SvNone] [(3, SvSome (SvB [104; 105]))]%Z).
Proof.
  change screen_oneofs with (match Screen_type with EMsg _ os => os | _ => [] end). apply ns_msg.
  - intros [|[|[|[|pos]]]] num t a b Hf Ha Hb; vm_compute in Hf; try discriminate Hf. destruct pos; discriminate Hf.
  - intros [|[|[|[|pos]]]] num t a b Hf Ha Hb; vm_compute in Ha; try discriminate Ha. destruct pos; discriminate Ha.
  - intros [|[|[|[|pos]]]] num max fs' os' l l' Hf Ha Hb; vm_compute in Ha; try discriminate Ha; [injection Ha as <-; injection Hb as <-; reflexivity|injection Ha as <-; injection Hb as <-; unfold zlen; cbn [List.length]; lia|destruct pos; discriminate Ha].
  - intros [|pos] ms id t a b Hm Hl Ha Hb; vm_compute in Ha; [discriminate Ha|destruct pos; discriminate Ha].
Qed.
Lemma exchange_expected : expected three (fresh_contents three) exchange [Some NoErrors; Some NoErrors; Some ArrayFull; None; Some NoErrors]
  [Some screen_in_the_end; Some window_in_the_end; Some screen_in_the_end].
Proof.
  unfold exchange. cbn [fresh_contents three map].
  eapply (expected_call _ _ 0 screen_made _ (OpField 1 (OpAssign (VS 7)))); [reflexivity|reflexivity| | | |vm_compute; reflexivity|cbn [upd]].
  { eapply (for_field Screen screen_fields screen_oneofs 1 (field_at 1)); [reflexivity|reflexivity|]. refine (call_set (field_at 1) 1 KOpt (EScalar DoubleFixed) (VS 7)). }
  { split; vm_compute; congruence. }
  { cbn. intros num k t vs ovs y E. injection E as <- <- <-. intros _ _. destruct y; constructor. }
  eapply (expected_call _ _ 0 screen_made _ (OpField 2 (OpRepAdd (a_point 5)))); [reflexivity|reflexivity| | | |vm_compute; reflexivity|cbn [upd]].
  { eapply (for_field Screen screen_fields screen_oneofs 2 (field_at 2)); [reflexivity|reflexivity|]. eapply (call_add (field_at 2)). reflexivity. }
  { vm_compute. repeat split; congruence. }
  { apply no_copying_keeps. exact I. }
  eapply (expected_call _ _ 0 screen_made _ (OpOneof 0 3 (OpBytesSet [1; 2; 3]%Z 3))); [reflexivity|reflexivity| | | |vm_compute; reflexivity|cbn [upd]].
  { eapply (for_mutable_member Screen screen_fields screen_oneofs 0 _ _ 1 (member_at 1)); [reflexivity|reflexivity|reflexivity|reflexivity|]. intros (sc & E). discriminate. }
  { split; [|vm_compute; split; congruence]. repeat apply Forall_cons; try apply Forall_nil; vm_compute; split; congruence. }
  { apply no_copying_keeps. exact I. }
  e_send screen_to_window.
  eapply (expected_call _ _ 1 window_made _ (OpField 4 (OpCStr (Some [104; 105; 0]%Z)))); [reflexivity|reflexivity| | | |vm_compute; reflexivity|cbn [upd]].
  { eapply (for_mutable Window window_fields window_oneofs 4 (window_field 4)); [reflexivity|reflexivity|]. split; [discriminate|]. intros E. discriminate. }
  { cbn. ok_op. }
  { apply no_copying_keeps. exact I. }
  e_send window_to_screen.
  eapply expected_send_full; [reflexivity|reflexivity|exact screen_to_window|reflexivity|reflexivity|vm_compute; reflexivity|vm_compute; reflexivity|cbn [upd]].
  eapply expected_send_unknown; [reflexivity|reflexivity|exact screen_to_window|reflexivity|reflexivity|vm_compute; reflexivity|].
  eapply expected_clear; [reflexivity|cbn; lia|cbn [upd]].
  e_send screen_to_window.
  eapply expected_copy; [discriminate|reflexivity|reflexivity|reflexivity|reflexivity| |cbn [upd]; constructor].
  apply screen_shorter.
Qed.
