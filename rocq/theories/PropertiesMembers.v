(** * Property C61: the members of a generated class.

    [define parent m] is the definition the generator makes for message [m] in the scope [parent];
    [class_decls] and [named_uses] are the declarations of its class and the names that its functions use. See
    SpecMembers.v for the rules of C++ and [clear_members]. *)
From Coq Require Import String.
From Verif Require Import Base Schema Printf Generator SpecGenerator GenMembers SpecMembers GenSamples GenMembersProps GenMembersSamples.
From Coq Require Import List.
Local Open Scope string_scope.

(** The class of a message whose names do not get in each other's way compiles, as far as names go. Missing:
    other names (the theorems _refuted below), fields with presence of the type of the message itself. *)
Theorem C61_names_partial : forall params parent m,
  msg_legal m -> clear_members params m -> no_recursive_presence parent m -> well_formed params (define parent m).
Proof. exact well_formed_define. Qed.
Print Assumptions C61_names_partial.

Example C61_names_applies : msg_legal full /\ clear_members full_params full /\ no_recursive_presence (pa ["lib"]) full
  /\ length (class_decls (define (pa ["lib"]) full)) = 75%nat.
Proof.
  split; [apply msg_legalb_spec; vm_compute; reflexivity|]. split; [apply clear_membersb_spec; vm_compute; reflexivity|].
  split; [apply no_recursive_presenceb_spec; vm_compute; reflexivity|]. vm_compute. reflexivity.
Qed.

(** And then x.n() and x.get_n() of a field n are the accessors that read the field. *)
Theorem C61_accessor_partial : forall params parent m g, msg_legal m -> clear_members params m -> In g (m_fields m) ->
  calls (class_decls (define parent m)) (pf_name g) true /\ calls (class_decls (define parent m)) (chars "get_" ++ pf_name g)%list true.
Proof. exact accessors_called. Qed.
Print Assumptions C61_accessor_partial.

Example C61_accessor_applies : exists g, msg_legal full /\ clear_members full_params full /\ In g (m_fields full) /\ pf_name g = chars "raw".
Proof.
  eexists. split; [apply msg_legalb_spec; vm_compute; reflexivity|]. split; [apply clear_membersb_spec; vm_compute; reflexivity|].
  split; [do 6 right; left; reflexivity|reflexivity].
Qed.

(** Fields n and get_n: get_n() is declared twice. *)
Theorem C61_get_refuted : forall params parent m f g, msg_legal m -> In f (m_fields m) -> In g (m_fields m) ->
  pf_name g = (chars "get_" ++ pf_name f)%list -> ~ well_formed params (define parent m).
Proof. exact get_collision. Qed.
Print Assumptions C61_get_refuted.

Example C61_get_applies : let f := int_field "x" in let g := int_field "get_x" in let m := node_of [f; g] [] in
  msg_legal m /\ In f (m_fields m) /\ In g (m_fields m) /\ pf_name g = (chars "get_" ++ pf_name f)%list.
Proof. split; [apply msg_legalb_spec; vm_compute; reflexivity|]. split; [left; reflexivity|]. split; [right; left; reflexivity|reflexivity]. Qed.

(** Fields whose names differ only in case: their constants in capitals are the same. *)
Theorem C61_case_refuted : forall params parent m f g, msg_legal m -> In f (m_fields m) -> In g (m_fields m) ->
  pf_name f <> pf_name g -> capitals (pf_name f) = capitals (pf_name g) -> ~ well_formed params (define parent m).
Proof. exact case_collision. Qed.
Print Assumptions C61_case_refuted.

Example C61_case_applies : let f := int_field "maxSpeed" in let g := int_field "maxspeed" in let m := node_of [f; g] [] in
  msg_legal m /\ In f (m_fields m) /\ In g (m_fields m) /\ pf_name f <> pf_name g /\ capitals (pf_name f) = capitals (pf_name g).
Proof.
  split; [apply msg_legalb_spec; vm_compute; reflexivity|]. split; [left; reflexivity|]. split; [right; left; reflexivity|]. split; [discriminate|reflexivity].
Qed.

(** Fields n and n_: the variable of one has the name of the accessor of the other. *)
Theorem C61_underscore_refuted : forall params parent m f g, msg_legal m -> In f (m_fields m) -> In g (m_fields m) ->
  pf_name g = (pf_name f ++ chars "_")%list -> pf_oneof f = None -> ~ refers f (parent ++ [p_name m])%list -> ~ well_formed params (define parent m).
Proof. exact underscore_collision. Qed.
Print Assumptions C61_underscore_refuted.

Example C61_underscore_applies : let f := int_field "x" in let g := int_field "x_" in let m := node_of [f; g] [] in
  msg_legal m /\ In f (m_fields m) /\ In g (m_fields m) /\ pf_name g = (pf_name f ++ chars "_")%list /\ pf_oneof f = None /\ ~ refers f node.
Proof.
  split; [apply msg_legalb_spec; vm_compute; reflexivity|]. split; [left; reflexivity|]. split; [right; left; reflexivity|]. split; [reflexivity|].
  split; [reflexivity|]. intros [H|H]; discriminate.
Qed.

(** A field whose name is a keyword of C++ or the name of the message. *)
Theorem C61_keyword_refuted : forall params parent m g, msg_legal m -> In g (m_fields m) ->
  In (pf_name g) keywords \/ pf_name g = p_name m -> ~ well_formed params (define parent m).
Proof. exact named_bad. Qed.
Print Assumptions C61_keyword_refuted.

Example C61_keyword_applies : let g := int_field "default" in let m := node_of [g] [] in
  msg_legal m /\ In g (m_fields m) /\ In (pf_name g) keywords.
Proof.
  split; [apply msg_legalb_spec; vm_compute; reflexivity|]. split; [left; reflexivity|]. apply mem_text_spec. vm_compute. reflexivity.
Qed.

(** A field with a name that the functions of the class use for something else: the type of a field, or a function of
    the C library or of the base class. *)
Theorem C61_hidden_refuted : forall params parent m g, msg_legal m -> In g (m_fields m) ->
  In (pf_name g) used_always \/ (exists f, In f (m_fields m) /\ pf_repeated f = false /\ In (pf_name g) (used_for (pf_type f))) ->
  ~ well_formed params (define parent m).
Proof. exact hidden_name. Qed.
Print Assumptions C61_hidden_refuted.

Example C61_hidden_applies : let f := field_of "size" (PScalar UInt64) false false None in let g := int_field "uint64_t" in let m := node_of [f; g] [] in
  msg_legal m /\ In g (m_fields m) /\ In f (m_fields m) /\ pf_repeated f = false /\ In (pf_name g) (used_for (pf_type f))
  /\ well_formed [] (define (pa ["lib"]) (node_of [int_field "size"; g] [])).
Proof.
  split; [apply msg_legalb_spec; vm_compute; reflexivity|]. split; [right; left; reflexivity|]. split; [left; reflexivity|]. split; [reflexivity|].
  split; [left; reflexivity|]. apply well_formedb_spec. vm_compute. reflexivity.
Qed.

(** An optional field of the type of its own message: the class has no has_n(), which its copy constructor
    calls. *)
Theorem C61_optional_refuted : forall params parent m g, msg_legal m -> clear_members params m -> In g (m_fields m) ->
  refers g (parent ++ [p_name m])%list -> pf_optional g = true -> ~ well_formed params (define parent m).
Proof. exact recursive_optional. Qed.
Print Assumptions C61_optional_refuted.

Example C61_optional_applies : let g := field_of "next" (PMessage node) false true (Some 0%nat) in let m := node_of [g] ["_next"] in
  msg_legal m /\ clear_members [] m /\ In g (m_fields m) /\ refers g (pa ["lib"] ++ [p_name m])%list /\ pf_optional g = true.
Proof.
  split; [apply msg_legalb_spec; vm_compute; reflexivity|]. split; [apply clear_membersb_spec; vm_compute; reflexivity|]. split; [left; reflexivity|].
  split; [left; reflexivity|reflexivity].
Qed.

(** A member of a oneof of the type of its own message: the union has no such member, but functions use it. *)
Theorem C61_oneof_refuted : forall params parent m g i, msg_legal m -> clear_members params m -> In g (m_fields m) ->
  refers g (parent ++ [p_name m])%list -> pf_oneof g = Some i -> pf_optional g = false -> ~ well_formed params (define parent m).
Proof. exact recursive_oneof. Qed.
Print Assumptions C61_oneof_refuted.

Example C61_oneof_applies : let g := field_of "next" (PMessage node) false false (Some 0%nat) in
  let m := node_of [g; field_of "leaf" (PScalar Int32) false false (Some 0%nat)] ["kind"] in
  msg_legal m /\ clear_members [] m /\ In g (m_fields m) /\ refers g (pa ["lib"] ++ [p_name m])%list /\ pf_oneof g = Some 0%nat /\ pf_optional g = false.
Proof.
  split; [apply msg_legalb_spec; vm_compute; reflexivity|]. split; [apply clear_membersb_spec; vm_compute; reflexivity|]. split; [left; reflexivity|].
  split; [left; reflexivity|]. split; reflexivity.
Qed.

(** Fields n and clear_n: this compiles, but on an object that is not const x.clear_n() is not the accessor of
    the second field; it clears the first. *)
Theorem C61_clear_refuted : forall parent m f g, msg_legal m -> In f (m_fields m) -> In g (m_fields m) ->
  pf_name g = (chars "clear_" ++ pf_name f)%list ->
  In (pf_name g, DFun [] true) (class_decls (define parent m)) /\ calls (class_decls (define parent m)) (pf_name g) false.
Proof. exact clear_called. Qed.
Print Assumptions C61_clear_refuted.

Example C61_clear_applies : let f := int_field "alarm" in let g := int_field "clear_alarm" in let m := node_of [f; g] [] in
  msg_legal m /\ In f (m_fields m) /\ In g (m_fields m) /\ pf_name g = (chars "clear_" ++ pf_name f)%list /\ well_formed [] (define (pa ["lib"]) m).
Proof.
  split; [apply msg_legalb_spec; vm_compute; reflexivity|]. split; [left; reflexivity|]. split; [right; left; reflexivity|]. split; [reflexivity|].
  apply well_formedb_spec. vm_compute. reflexivity.
Qed.

(** A field called clear: x.clear() clears the whole message. *)
Theorem C61_clear_all_refuted : forall parent m g, msg_legal m -> In g (m_fields m) -> pf_name g = chars "clear" ->
  In (pf_name g, DFun [] true) (class_decls (define parent m)) /\ calls (class_decls (define parent m)) (pf_name g) false.
Proof. exact clear_all_called. Qed.
Print Assumptions C61_clear_all_refuted.

Example C61_clear_all_applies : let g := int_field "clear" in let m := node_of [g] [] in
  msg_legal m /\ In g (m_fields m) /\ pf_name g = chars "clear" /\ well_formed [] (define (pa ["lib"]) m).
Proof.
  split; [apply msg_legalb_spec; vm_compute; reflexivity|]. split; [left; reflexivity|]. split; [reflexivity|].
  apply well_formedb_spec. vm_compute. reflexivity.
Qed.
