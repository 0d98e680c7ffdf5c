(** * Property C70: the functions written into a generated class do what the .proto says, each with its own variables.

    The bodies of the functions of a generated class are rendered from templates (GenBody.v) as statements over named
    variables; [code_serialize], [code_deserialize], [code_clear], [code_assign], [code_copy], [code_call] (set_n, clear_n,
    add_n), [code_through] (a method called through mutable_n()), [code_has], [code_get], [code_which] and [code_name] find
    the function by its name in the class and execute it. [class_for request lengths d fs os]: [d] is the class of a message
    in [request], for which the .proto declares the type [EMsg fs os]; its names do not clash (C61) and no field of an
    unsupported recursive type is optional or in a oneof. [stands_for]: the operation of Api.v that a call is meant to be.
    [shows d fs os ob x]: what has_n(), get_n() and get_which_n() return for the object is the message [x]. *)
From Coq Require Import String.
From Verif Require Import Base Buffers Schema Fields Message Api Spec SpecApi Contracts BufferProofs SerProps Printf ToString Generator SpecGenerator SpecInstance GenMembers SpecMembers
  GenSamples GenInstanceSamples GenBody SpecBody GenBodyObject GenBodyPrint GenBodySamples.
From Coq Require Import List Lia.
Local Open Scope string_scope.

(** A program that makes an object and calls its functions ends with an object whose getters show the message that the
    operations give. *)
Theorem C70_programs_partial : forall request lengths d fs os, class_for request lengths d fs os ->
  forall fuel us ops, (forall p, capacity_ok (lengths p)) -> Forall2 (stands_for d fs os) us ops -> Forall (op_ok (OElem (EMsg fs os))) ops ->
  run_ops fuel ops (OElem (EMsg fs os)) (construct (OElem (EMsg fs os))) <> Fuel ->
  exists ob v, user_runs fuel d fs os us (new_object d fs os) = Done ob /\ run_ops fuel ops (OElem (EMsg fs os)) (construct (OElem (EMsg fs os))) = Done v
    /\ shows d fs os ob (view (EMsg fs os) v) /\ valid_object d fs os ob.
Proof. exact class_programs. Qed.
Print Assumptions C70_programs_partial.
Example C70_programs_applies : class_for screens legal_length Screen screen_fields screen_oneofs /\ (forall p, capacity_ok (legal_length p))
  /\ Forall2 (stands_for Screen screen_fields screen_oneofs) (firstn 8 screen_program) screen_ops
  /\ Forall (op_ok (OElem (EMsg screen_fields screen_oneofs))) screen_ops
  /\ run_ops 0 screen_ops (OElem (EMsg screen_fields screen_oneofs)) (construct (OElem (EMsg screen_fields screen_oneofs))) <> Fuel
  /\ user_runs 0 Screen screen_fields screen_oneofs screen_program (new_object Screen screen_fields screen_oneofs) = Done screen_object
  /\ code_has Screen screen_fields screen_oneofs screen_object (chars "has_zoom") = Done true
  /\ code_get Screen screen_fields screen_oneofs screen_object (chars "get_zoom") = Done (VS 9)
  /\ code_which Screen screen_fields screen_oneofs screen_object (chars "get_which_head") = Done 3%Z
  /\ code_has Screen screen_fields screen_oneofs screen_object (chars "has_title") = Done false.
Proof.
  split; [exact screen_class|]. split; [exact legal_lengths|]. split; [exact screen_stands|]. split; [exact screen_legal|].
  split; [vm_compute; discriminate|]. destruct screen_runs as (H1 & H2 & H3 & H4 & H5 & _). auto.
Qed.

(** One call, on any object: the same end as the operation. *)
Theorem C70_calls_partial : forall request lengths d fs os, class_for request lengths d fs os ->
  forall fuel u o ob v, stands_for d fs os u o -> holds_value d ob v -> run_op fuel o (OElem (EMsg fs os)) v <> Fuel ->
  same_object d (user_run fuel d fs os u ob) (let* (_, v') := run_op fuel o (OElem (EMsg fs os)) v in Done v').
Proof. exact class_calls. Qed.
Print Assumptions C70_calls_partial.

(** A call that is named after a field, or made through its mutable_n(), changes what the getters of that field return
    and of no other field or oneof; the same for the members of a oneof. *)
Theorem C70_alone_field_partial : forall request lengths d fs os, class_for request lengths d fs os ->
  forall fuel i u ob ob', of_field d fs i u -> valid_object d fs os ob -> user_run fuel d fs os u ob = Done ob' ->
  (forall i' g, nth_error (fields_of d) i' = Some g -> i' <> i -> same_field d fs os ob ob' g)
  /\ (forall j n ol, nth_error (oneofs_of d) j = Some (n, ol) -> same_oneof d fs os ob ob' n ol).
Proof. exact class_alone_field. Qed.
Print Assumptions C70_alone_field_partial.
Theorem C70_alone_oneof_partial : forall request lengths d fs os, class_for request lengths d fs os ->
  forall fuel j u ob ob', of_oneof d os j u -> valid_object d fs os ob -> user_run fuel d fs os u ob = Done ob' ->
  (forall i g, nth_error (fields_of d) i = Some g -> same_field d fs os ob ob' g)
  /\ (forall j' n ol, nth_error (oneofs_of d) j' = Some (n, ol) -> j' <> j -> same_oneof d fs os ob ob' n ol).
Proof. exact class_alone_oneof. Qed.
Print Assumptions C70_alone_oneof_partial.
Example C70_alone_applies : exists ob ob1 ob2, user_runs 0 Screen screen_fields screen_oneofs (firstn 8 screen_program) (new_object Screen screen_fields screen_oneofs) = Done ob
  /\ valid_object Screen screen_fields screen_oneofs ob
  /\ of_field Screen screen_fields 1 (UCall 0 (chars "clear_zoom") no_frame)
  /\ user_run 0 Screen screen_fields screen_oneofs (UCall 0 (chars "clear_zoom") no_frame) ob = Done ob1
  /\ code_has Screen screen_fields screen_oneofs ob1 (chars "has_zoom") = Done false
  /\ code_has Screen screen_fields screen_oneofs ob1 (chars "has_id") = Done true
  /\ of_oneof Screen screen_oneofs 0 (UThrough (chars "mutable_title") OpClear)
  /\ user_run 0 Screen screen_fields screen_oneofs (UThrough (chars "mutable_title") OpClear) ob = Done ob2
  /\ code_has Screen screen_fields screen_oneofs ob2 (chars "has_zoom") = Done true
  /\ code_has Screen screen_fields screen_oneofs ob2 (chars "has_id") = Done false.
Proof.
  destruct (C70_programs_partial _ _ _ _ _ screen_class 0 _ _ legal_lengths screen_stands screen_legal) as (ob & v & E & _ & _ & Hv); [vm_compute; discriminate|].
  exists ob. vm_compute in E. injection E as E. do 2 eexists. split; [|split; [exact Hv|]]; rewrite <- E.
  - vm_compute. reflexivity.
  - split; [eapply (of_field_call Screen screen_fields 1 (field_at 1)); [reflexivity|reflexivity|]; apply (call_clear (field_at 1) 1)|].
    split; [vm_compute; reflexivity|]. split; [vm_compute; reflexivity|]. split; [vm_compute; reflexivity|].
    split; [eapply (of_member_mutable Screen screen_oneofs 0 _ _ 0 (member_at 0)); [reflexivity|reflexivity|reflexivity|reflexivity|intros (sc & H); discriminate]|].
    split; [vm_compute; reflexivity|]. split; vm_compute; reflexivity.
Qed.

(** serialize() and deserialize(), with any buffer. *)
Theorem C70_serialize_partial : forall request lengths d fs os, class_for request lengths d fs os ->
  forall ob v S (W : wops S) s, wt (EMsg fs os) v -> holds_value d ob v -> code_serialize d fs os ob S W s = serialize (EMsg fs os) v S W s.
Proof. exact class_serialize. Qed.
Print Assumptions C70_serialize_partial.
Theorem C70_deserialize_partial : forall request lengths d fs os, class_for request lengths d fs os ->
  forall fuel ob v S (R : rops S) s, holds_value d ob v -> deserialize fuel (EMsg fs os) S R v s <> Fuel ->
  same_end d (code_deserialize fuel d fs os R ob s) (deserialize fuel (EMsg fs os) S R v s).
Proof. exact class_deserialize. Qed.
Print Assumptions C70_deserialize_partial.

(** What the getters show is the protobuf message in the object, and nothing else. *)
Theorem C70_shows_partial : forall request lengths d fs os, class_for request lengths d fs os ->
  forall ob v, wt (EMsg fs os) v -> holds_value d ob v -> forall x, shows d fs os ob x <-> x = view (EMsg fs os) v.
Proof. exact class_shows. Qed.
Print Assumptions C70_shows_partial.

(** Of an object with valid contents: a successful serialize() writes the encoding of what the getters show, and a new
    object that reads it shows the same, but for negative zeros (C21). *)
Theorem C70_wire_partial : forall request lengths d fs os, class_for request lengths d fs os ->
  forall ob, (forall p, capacity_ok (lengths p)) -> valid_object d fs os ob ->
  exists x, shows d fs os ob x /\ (zlen (enc (EMsg fs os) x) < 2 ^ 32 ->
    forall cap b content n b', wfix_rel cap b content (Some n) -> code_serialize d fs os ob _ (wfix_ops cap) b = Done (NoErrors, b') ->
    wfix_content b' = wfix_content b ++ enc (EMsg fs os) x
    /\ forall T (R : rops T) rel, reader_ok R rel -> forall s, rel s (enc (EMsg fs os) x) -> forall fuel, (length (enc (EMsg fs os) x) < fuel)%nat ->
       exists ob' s', code_deserialize fuel d fs os R (new_object d fs os) s = Done (NoErrors, ob', s')
         /\ shows d fs os ob' (norm (EMsg fs os) x) /\ (no_neg_zero (EMsg fs os) x -> shows d fs os ob' x))%list.
Proof. exact class_wire. Qed.
Print Assumptions C70_wire_partial.
Example C70_wire_applies : exists b, code_serialize Screen screen_fields screen_oneofs screen_object _ (wfix_ops 60) (wfix_init 60) = Done (NoErrors, b)
  /\ wfix_content b = [33; 9; 0; 0; 0; 0; 0; 0; 0;  42; 2; 24; 12;  42; 2; 24; 9;  26; 3; 1; 2; 3]%Z
  /\ exists ob s, code_deserialize 30 Screen screen_fields screen_oneofs (rfix_ops 22) (new_object Screen screen_fields screen_oneofs) (rfix_of (wfix_content b)) = Done (NoErrors, ob, s)
       /\ code_get Screen screen_fields screen_oneofs ob (chars "get_zoom") = Done (VS 9)
       /\ code_which Screen screen_fields screen_oneofs ob (chars "get_which_head") = Done 3%Z.
Proof.
  destruct screen_bytes as (b & E & C). exists b. split; [exact E|]. split; [exact C|]. rewrite C. do 2 eexists.
  split; [vm_compute; reflexivity|]. split; vm_compute; reflexivity.
Qed.

(** A copy shows what the original shows; so does an object after it is assigned to. *)
Theorem C70_copy_partial : forall request lengths d fs os, class_for request lengths d fs os ->
  forall ob, (forall p, capacity_ok (lengths p)) -> valid_object d fs os ob ->
  exists ob', code_copy d fs os ob = Done ob' /\ valid_object d fs os ob' /\ forall x, shows d fs os ob x <-> shows d fs os ob' x.
Proof. exact class_copied. Qed.
Print Assumptions C70_copy_partial.
Theorem C70_assign_partial : forall request lengths d fs os, class_for request lengths d fs os ->
  forall fuel us ops ob rhs, (forall p, capacity_ok (lengths p)) -> Forall2 (stands_for d fs os) us ops -> Forall (op_ok (OElem (EMsg fs os))) ops ->
  run_ops fuel ops (OElem (EMsg fs os)) (construct (OElem (EMsg fs os))) <> Fuel -> user_runs fuel d fs os us (new_object d fs os) = Done ob -> valid_object d fs os rhs ->
  exists ob', code_assign d fs os ob rhs = Done ob' /\ valid_object d fs os ob' /\ forall x, shows d fs os rhs x <-> shows d fs os ob' x.
Proof. exact class_assigned. Qed.
Print Assumptions C70_assign_partial.
Example C70_copy_applies : exists ob, code_copy Screen screen_fields screen_oneofs screen_object = Done ob
  /\ code_get Screen screen_fields screen_oneofs ob (chars "get_corner") = Done (VR 2 [a_point 6; a_point (-5); a_point 0; a_point 0]%Z)
  /\ code_has Screen screen_fields screen_oneofs ob (chars "has_id") = Done true.
Proof. eexists. split; [vm_compute; reflexivity|]. split; vm_compute; reflexivity. Qed.

(** to_string() writes each field with its own name, value and place in the list; [nm]: the names of the fields, found by a
    path of numbers as in ToString.v (C49, C56), of which those of this class are in its constants. *)
Theorem C70_to_string_partial : forall request lengths d fs os, class_for request lengths d fs os ->
  forall fmt nm path, (forall f, In f (fields_of d ++ concat (map snd (oneofs_of d)))%list -> nm (path ++ [f_number f])%list = f_name f) ->
  forall ob v st indent name first, holds_value d ob v ->
  code_to_string fmt nm path d fs os ob st indent name first = elem_to_string fmt nm (EMsg fs os) path v st indent name first.
Proof. exact class_to_string. Qed.
Print Assumptions C70_to_string_partial.
Example C70_to_string_applies : class_for screens legal_length Screen screen_fields screen_oneofs
  /\ (forall f, In f (fields_of Screen ++ concat (map snd (oneofs_of Screen)))%list -> screen_names ([] ++ [f_number f])%list = f_name f)
  /\ exists mem v, code_to_string (fun _ z => decimal z) screen_names [] Screen screen_fields screen_oneofs screen_object (zrepeat 0 600, {| sv_pos := 0; sv_size := 600 |})%Z 0 None true = Done (mem, v)
  /\ firstn (Z.to_nat (sv_pos v)) mem = chars "{
  ""rows"": [

          ],
  ""zoom"": 9,
  ""corner"": [
              {
                ""x"": 6
              },
              {
                ""x"": -5
              }
            ],
  ""id"": [
          1,
          2,
          3
        ]
}".
Proof. split; [exact screen_class|]. split; [exact screen_names_ok|]. do 2 eexists. split; vm_compute; reflexivity. Qed.

(** field_number_to_name() gives every field its name, and no name for other numbers. *)
Theorem C70_names_partial : forall request lengths d fs os, class_for request lengths d fs os ->
  (forall f, In f (fields_of d ++ concat (map snd (oneofs_of d)))%list -> code_name d fs os (f_number f) = Done (f_name f))
  /\ (forall n, (forall f, In f (fields_of d ++ concat (map snd (oneofs_of d)))%list -> f_number f <> n) -> code_name d fs os n = Done (chars "Invalid FieldNumber")).
Proof. exact class_names. Qed.
Print Assumptions C70_names_partial.
Example C70_names_applies : class_for screens legal_length Screen screen_fields screen_oneofs
  /\ code_name Screen screen_fields screen_oneofs 5 = Done (chars "corner") /\ code_name Screen screen_fields screen_oneofs 7 = Done (chars "Invalid FieldNumber").
Proof. split; [exact screen_class|]. destruct screen_runs as (_ & _ & _ & _ & _ & _ & H6 & H7). auto. Qed.
