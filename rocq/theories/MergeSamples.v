(** Samples used beside the theorems of C86 and C87. *)
From Verif Require Import Base Buffers Schema Message Spec Contracts BufferProofs Samples SpecMerge.

(** An update for class Outer: r gets one more value, m one more message, n.a is 4, p becomes true; u, s and f are as in
    a new object. *)
Definition outer_update : value :=
  VM [0] [VS 0; VB 0 [0; 0; 0; 0; 0; 0; 0; 0]; VR 1 [VS 9; VS 0; VS 0; VS 0]; VR 1 [inner_v 6 0; default_value Inner; default_value Inner]; VS 0;
          VM [0] [VS 4; VS 0; VB 0 [0; 0; 0; 0; 0; 0; 0; 0]] []] [(7, VS 1)].

(** message Cfg { uint32 u = 1; optional Inner n = 2; repeated uint32 r = 3 (max 4); oneof o { bool p = 7; uint32 x = 8; } } *)
Definition cfg_fields : list fdesc := [(1, KPlain, EScalar UInt32); (2, KOpt, Inner); (3, KRep 4, EScalar UInt32)].
Definition cfg_oneofs : list odesc := [[(7, EScalar Boolean); (8, EScalar UInt32)]].
Definition Cfg : ety := EMsg cfg_fields cfg_oneofs.
Definition cfg_v (pres u a : Z) (r : Z) (o : Z * value) : value :=
  VM [pres] [VS u; VM [0] [VS a; VS 0; VB 0 [0; 0; 0; 0; 0; 0; 0; 0]] []; VR 1 [VS r; VS 0; VS 0; VS 0]] [o].

(** An object of class Outer with nothing but the oneof. *)
Definition outer_only (o : Z * value) : value :=
  VM [0] [VS 0; VB 0 [0; 0; 0; 0; 0; 0; 0; 0]; VR 0 [VS 0; VS 0; VS 0; VS 0]; VR 0 [default_value Inner; default_value Inner; default_value Inner]; VS 0; default_value Inner] [o].

Ltac wt_tac := cbn; unfold is_byte, is_u32; repeat split; try (vm_compute; congruence); try lia.
Lemma outer_update_wt : wt Outer outer_update.
Proof. wt_tac. Qed.

Definition out (r : res (err * wfix)) : list Z := match r with Done (_, b) => wfix_content b | _ => [] end.
Definition got (r : res (err * value * rfix)) : value := match r with Done (_, v, _) => v | _ => VIndet end.
Definition sent_bytes (t : ety) (v : value) : list Z := out (serialize t v _ (wfix_ops 60) (wfix_init 60)).
Definition after (t : ety) (v : value) (bs : list Z) : value := got (deserialize 60 t _ (rfix_ops (zlen bs)) v (rfix_of bs)).
Lemma sends_sample t v b : serialize t v _ (wfix_ops 60) (wfix_init 60) = Done (NoErrors, b) -> sends t v (wfix_content b).
Proof. intros H. exists 60, b. split; [lia|]. auto. Qed.
Lemma receives_sample t v bs v' s : Forall is_byte bs -> zlen bs < 60 -> deserialize 60 t _ (rfix_ops (zlen bs)) v (rfix_of bs) = Done (NoErrors, v', s) -> receives t v bs NoErrors v'.
Proof.
  intros Hb Hl H. exists rfix, (rfix_ops (zlen bs)), (rfix_rel (zlen bs)), (rfix_of bs), 60%nat, s. split; [apply rfix_ok|]. split; [apply rfix_of_rel; [lia|exact Hb]|]. split; [unfold zlen in Hl; lia|exact H].
Qed.

Ltac sends_tac := eexists 60, _; split; [lia|]; split; [vm_compute; reflexivity|vm_compute; reflexivity].
Ltac receives_tac := eapply receives_sample; [repeat (constructor; [unfold is_byte; lia|]); constructor|vm_compute; reflexivity|vm_compute; reflexivity].

(** The receiver has q with a = 5, b = 7 and a text; the first update sets p, the second q with a = 2. One by one: p drops the
    old q. Collected: only the new q is sent and merged into the old one. *)
Definition m_v0 : value := outer_only (8, inner_v 5 7).
Definition m_v1 : value := outer_only (7, VS 1).
Definition m_v2 : value := outer_only (8, VM [0] [VS 2; VS 0; VB 0 [0; 0; 0; 0; 0; 0; 0; 0]] []).
Definition m_b1 : list Z := Eval vm_compute in sent_bytes Outer m_v1.
Definition m_b2 : list Z := Eval vm_compute in sent_bytes Outer m_v2.
Definition m_v12 : value := Eval vm_compute in after Outer m_v1 m_b2.
Definition m_b12 : list Z := Eval vm_compute in sent_bytes Outer m_v12.
Definition m_va : value := Eval vm_compute in after Outer m_v0 m_b1.
Definition m_vb : value := Eval vm_compute in after Outer m_va m_b2.
Definition m_vc : value := Eval vm_compute in after Outer m_v0 m_b12.

Lemma members_differ : exists fs os v0 v1 v2 v12 va vb vc b1 b2 b12, let t := EMsg fs os in
  desc_ok t /\ wt t v0 /\ clean t v0 /\ wt t v1 /\ clean t v1 /\ wt t v2
  /\ sends t v1 b1 /\ sends t v2 b2 /\ receives t v1 b2 NoErrors v12 /\ sends t v12 b12 /\ receives t v0 b1 NoErrors va
  /\ receives t va b2 NoErrors vb /\ receives t v0 b12 NoErrors vc /\ view t vc <> view t vb.
Proof.
  exists outer_fields, outer_oneofs, m_v0, m_v1, m_v2, m_v12, m_va, m_vb, m_vc, m_b1, m_b2, m_b12. cbv zeta. fold Outer.
  split; [exact Outer_ok|]. split; [wt_tac|]. split; [wt_tac|]. split; [wt_tac|]. split; [wt_tac|]. split; [wt_tac|].
  split; [sends_tac|]. split; [sends_tac|]. split; [receives_tac|]. split; [sends_tac|]. split; [receives_tac|]. split; [receives_tac|]. split; [receives_tac|].
  vm_compute. discriminate.
Qed.

Definition c_v0 : value := cfg_v 0 3 0 1 (8, VS 5).
Definition c_v1 : value := cfg_v 1 0 7 2 (7, VS 1).
Definition c_v2 : value := cfg_v 1 9 0 3 (8, VS 6).
Definition c_b1 : list Z := Eval vm_compute in sent_bytes Cfg c_v1.
Definition c_b2 : list Z := Eval vm_compute in sent_bytes Cfg c_v2.
Definition c_v12 : value := Eval vm_compute in after Cfg c_v1 c_b2.
Definition c_b12 : list Z := Eval vm_compute in sent_bytes Cfg c_v12.
Definition c_va : value := Eval vm_compute in after Cfg c_v0 c_b1.
Definition c_vb : value := Eval vm_compute in after Cfg c_va c_b2.
Definition c_vc : value := Eval vm_compute in after Cfg c_v0 c_b12.
Lemma cfg_collected : exists v12 va vb vc b1 b2 b12, let v0 := cfg_v 0 3 0 1 (8, VS 5) in let v1 := cfg_v 1 0 7 2 (7, VS 1) in let v2 := cfg_v 1 9 0 3 (8, VS 6) in
  desc_ok Cfg /\ simple_oneofs Cfg /\ wt Cfg v0 /\ clean Cfg v0 /\ wt Cfg v1 /\ clean Cfg v1 /\ wt Cfg v2
  /\ zlen (enc Cfg (view Cfg v1)) < 2 ^ 32 /\ zlen (enc Cfg (view Cfg v2)) < 2 ^ 32 /\ zlen (enc Cfg (view Cfg v12)) < 2 ^ 32
  /\ sends Cfg v1 b1 /\ sends Cfg v2 b2 /\ receives Cfg v1 b2 NoErrors v12 /\ sends Cfg v12 b12 /\ receives Cfg v0 b1 NoErrors va
  /\ receives Cfg va b2 NoErrors vb /\ receives Cfg v0 b12 NoErrors vc
  /\ view Cfg vc = SvM [SvZ 9; SvSome (SvM [SvZ 7; SvNone; SvB []] []); SvR [SvZ 1; SvZ 2; SvZ 3]] [(8, SvSome (SvZ 6))].
Proof.
  exists c_v12, c_va, c_vb, c_vc, c_b1, c_b2, c_b12. cbv zeta.
  split; [ok_tac; repeat constructor; cbn; intuition lia|]. split; [cbn; tauto|]. split; [wt_tac|]. split; [wt_tac|]. split; [wt_tac|]. split; [wt_tac|]. split; [wt_tac|].
  split; [vm_compute; reflexivity|]. split; [vm_compute; reflexivity|]. split; [vm_compute; reflexivity|].
  split; [sends_tac|]. split; [sends_tac|]. split; [receives_tac|]. split; [sends_tac|]. split; [receives_tac|]. split; [receives_tac|]. split; [receives_tac|].
  vm_compute. reflexivity.
Qed.
