(** * SpecPlugin: how protoc uses the plugin, and what its user expects. *)
From Coq Require Import String.
From Verif Require Import Base Schema Printf Generator GenMembers GenFiles SpecGenerator SpecFiles GenPlugin.
From Coq Require Import List ZArith.

(** Some field of the message is marked optional. *)
Fixpoint msg_optional (m : pmsg) : bool :=
  let 'PMsg _ nested _ fields _ := m in existsb pf_optional fields || existsb msg_optional nested.
Definition uses_optional (request : list source) : bool := existsb (fun f => existsb msg_optional (p_msgs (i_content f))) request.
Fixpoint distinct (l : list text) : bool := match l with [] => true | n :: l' => negb (mem n l') && distinct l' end.

(** What protoc writes to the disk: nothing if the response has an error, if a file has optional fields (of proto3) and
    the plugin does not say that it knows them, or if two files of the response have the same name. *)
Definition protoc_writes (request : list source) (r : response) : option (list (text * header)) :=
  if r_error r then None
  else if uses_optional request && negb (r_optional r) then None
  else if distinct (map fst (r_files r)) then Some (r_files r) else None.
(** Calling protoc with the plugin. *)
Definition protoc (limit : nat) (request : list source) : option (list (text * header)) := protoc_writes request (main_plugin limit request).

(** ** What is expected *)

(** The header for a file: the same name with the extension .h. *)
Definition header_for (n h : text) : Prop := exists stem, n = stem ++ chars ".proto" /\ h = stem ++ chars ".h".
(** The files to write headers for: the files of the user, and before them descriptor.proto if one of them imports it. *)
Definition of_user (f : source) : bool := negb (text_eqb (s_name (i_file f)) options_file || text_eqb (s_name (i_file f)) descriptor_file).
Definition wanted (request : list source) : list source :=
  let users := filter of_user request in
  if existsb (fun f => mem descriptor_file (s_imports (i_file f))) users
  then filter (fun f => text_eqb (s_name (i_file f)) descriptor_file) request ++ users else users.
(** Names that protoc passes once each, and none that only contains one of the two special names. *)
Definition usual_names (request : list source) : Prop :=
  NoDup (map (fun f => s_name (i_file f)) request)
  /\ forall f, In f request -> s_name (i_file f) = options_file \/ s_name (i_file f) = descriptor_file \/ plain_name (s_name (i_file f)).

(** The version of the language that a file is written in, and what protoc puts in FileDescriptorProto.syntax: it leaves
    it empty for proto2. *)
Inductive language : Type := Proto2 | Proto3.
Definition syntax_of (v : language) : text := match v with Proto2 => [] | Proto3 => chars "proto3" end.
(** The request with the files in the versions [vs]. *)
Definition in_versions (vs : list language) (request : list source) : list source :=
  map (fun '(v, f) => {| i_file := i_file f; i_syntax := syntax_of v; i_content := i_content f |}) (combine vs request).
