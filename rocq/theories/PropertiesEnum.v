(** * Property C69: generated enums have the names and numbers of the .proto.

    [render_enum name values]: the text the generator writes for an enum; [render_nested depth text]: the same inside
    [depth] messages; [render_field_number]: the text of the enum FieldNumber of a message.
    [enum_definition text]: how C++ reads the definition of an enum: its name, and the names and numbers of its values;
    None: not the definition of an enum. [enum_accepted]: C++ allows these names and numbers in an enum of type uint32_t.
    [enum_legal]: what protoc guarantees. *)
From Coq Require Import String.
From Verif Require Import Base Schema Printf Generator SpecGenerator GenMembers SpecMembers GenSamples GenEnum SpecEnum EnumProofs.
From Coq Require Import List Sorted.
Local Open Scope Z_scope.

Theorem C69_text : forall depth name values,
  enum_legal name values -> enum_definition (render_nested depth (render_enum name values)) = Some (name, values).
Proof. exact enum_text. Qed.
Print Assumptions C69_text.

Definition gear : list (text * Z) := [(chars "PARK", 0); (chars "REVERSE_2", -1); (chars "Drive", 2147483647); (chars "ALSO_PARK", 0)].
Lemma gear_legal : enum_legal (chars "Gear") gear.
Proof.
  assert (Hp : forall t, match t with c :: r => letter c && forallb (fun d => letter d || digit d) r | [] => false end = true -> proto_name t).
  { intros [|c r] H; [discriminate|]. apply andb_true_iff in H. destruct H as [H1 H2]. exists c, r. split; [reflexivity|]. split; [exact H1|].
    apply Forall_forall. intros d Hd. rewrite forallb_forall in H2. apply orb_true_iff. apply H2. exact Hd. }
  split; [apply Hp; reflexivity|]. split; [repeat (constructor; [apply Hp; reflexivity|]); constructor|]. split.
  - repeat (constructor; [vm_compute; intuition discriminate|]). constructor.
  - repeat (constructor; [vm_compute; split; congruence|]). constructor.
Qed.
Example C69_text_applies : enum_legal (chars "Gear") gear
  /\ render_enum (chars "Gear") [(chars "PARK", 0); (chars "DRIVE", 12)]
     = chars "enum class Gear : uint32_t" ++ newline ++ chars "{" ++ newline ++ chars "  PARK = 0," ++ newline ++ chars "  DRIVE = 12" ++ newline ++ chars "};"
  (** An octal number would be another one. *)
  /\ enum_definition (chars "enum class Gear : uint32_t { DRIVE = 012 };") = Some (chars "Gear", [(chars "DRIVE", 10)]).
Proof. split; [exact gear_legal|]. split; vm_compute; reflexivity. Qed.

(** C++ accepts it exactly if there are no negative numbers and no keywords. *)
Theorem C69_accepted_partial : forall name values, enum_legal name values ->
  (enum_accepted name values <-> ~ In name keywords /\ forall n z, In (n, z) values -> ~ In n keywords /\ 0 <= z).
Proof. exact enum_accept. Qed.
Print Assumptions C69_accepted_partial.

(** The .proto may have negative numbers; the generator writes them, and C++ rejects the header. *)
Theorem C69_negative_refuted : forall depth name values n z,
  enum_legal name values -> In (n, z) values -> z < 0 ->
  exists name' values', enum_definition (render_nested depth (render_enum name values)) = Some (name', values') /\ ~ enum_accepted name' values'.
Proof. exact enum_negative. Qed.
Print Assumptions C69_negative_refuted.

Example C69_negative_applies : enum_legal (chars "Gear") gear /\ In (chars "REVERSE_2", -1) gear
  /\ ~ In (chars "Gear") keywords /\ Forall (fun v => ~ In (fst v) keywords) gear.
Proof.
  assert (Hk : forall t, existsb (text_eqb t) keywords = false -> ~ In t keywords).
  { intros t H Hi. assert (F : existsb (text_eqb t) keywords = true) by (apply existsb_exists; exists t; split; [exact Hi|apply GenOrder.text_eqb_refl]). congruence. }
  split; [exact gear_legal|]. split; [right; left; reflexivity|]. split; [apply Hk; vm_compute; reflexivity|].
  repeat (constructor; [apply Hk; vm_compute; reflexivity|]). constructor.
Qed.

(** FieldNumber has, after NOT_SET = 0, the fields of the message with their numbers, in the order of the numbers. *)
Theorem C69_field_number : forall request s m depth,
  legal request -> message request s m ->
  (forall g, In g (m_fields m) -> proto_name (pf_name g)) -> NoDup (map pf_number (m_fields m)) ->
  exists l, enum_definition (render_nested depth (render_field_number (define (removelast s) m)))
            = Some (chars "FieldNumber", (chars "NOT_SET", 0) :: l)
  /\ StronglySorted Z.lt (map snd l)
  /\ forall n z, In (n, z) l <-> exists g, In g (m_fields m) /\ n = capitals (pf_name g) /\ z = pf_number g.
Proof. exact field_number_text. Qed.
Print Assumptions C69_field_number.

(** C++ accepts that exactly if the names of the fields differ in capital letters, also from NOT_SET (see C61). *)
Theorem C69_field_number_accepted_partial : forall fields l,
  (forall g, In g fields -> proto_name (pf_name g) /\ 0 < pf_number g < 2 ^ 29) ->
  (forall n z, In (n, z) l <-> exists g : pfield, In g fields /\ n = capitals (pf_name g) /\ z = pf_number g) ->
  (enum_accepted (chars "FieldNumber") ((chars "NOT_SET", 0) :: l) <-> NoDup (chars "NOT_SET" :: map fst l)).
Proof. exact field_number_accept. Qed.
Print Assumptions C69_field_number_accepted_partial.

Definition numbered (n : string) (z : Z) : pfield :=
  {| pf_name := chars n; pf_number := z; pf_type := PScalar SInt32; pf_repeated := false; pf_optional := false; pf_oneof := None; pf_max := 0 |}.
Definition pose : pmsg := PMsg (chars "Pose") [] [] [numbered "heading" 300; numbered "x" 1; numbered "Y_2" 536870911] [].
Example C69_field_number_applies :
  let request := file [pose] in
  legal request /\ message request [chars "Pose"] pose
  /\ (forall g, In g (m_fields pose) -> proto_name (pf_name g) /\ 0 < pf_number g < 2 ^ 29) /\ NoDup (map pf_number (m_fields pose))
  /\ enum_definition (render_nested 1 (render_field_number (define [] pose)))
     = Some (chars "FieldNumber", [(chars "NOT_SET", 0); (chars "X", 1); (chars "HEADING", 300); (chars "Y_2", 536870911)]).
Proof.
  cbv zeta. split; [apply legalb_spec; vm_compute; reflexivity|]. split; [|split; [|split]].
  - eexists. split; [left; reflexivity|]. exists pose. split; [left; reflexivity|]. exact (inside_self [] pose).
  - intros g Hg. cbn in Hg. decompose [or] Hg; subst; try contradiction;
      (split; [eexists; eexists; split; [reflexivity|]; split; [reflexivity|]; repeat (constructor; [first [left; reflexivity|right; reflexivity]|]); constructor
              |vm_compute; split; reflexivity]).
  - repeat (constructor; [vm_compute; intuition discriminate|]). constructor.
  - vm_compute. reflexivity.
Qed.
