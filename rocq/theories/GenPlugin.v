(** * GenPlugin: the plugin that protoc calls: from the request to the response. *)
From Coq Require Import String.
From Verif Require Import Base Schema Printf Generator GenMembers GenFiles.
From Coq Require Import List ZArith.

(** FileDescriptorProto: name and dependency, syntax, and what the file defines. Groups, which only proto2 has, are not
    represented. *)
Record source : Type := { i_file : srcfile; i_syntax : text; i_content : pfile }.

(** CodeGeneratorResponse: file (name and content), whether error is set, and whether supported_features has
    FEATURE_PROTO3_OPTIONAL. The content of a header is represented by its declarations. Its text is never empty
    (templates/Header.h:1-28), so that the break in main.py:97-98 is not reached. *)
Record response : Type := { r_files : list (text * header); r_error : bool; r_optional : bool }.

(** main.py:45-63, the loop over request.proto_file and the insertion of descriptor.proto. *)
Definition is_options (f : source) : bool := contains options_name (s_name (i_file f)).
Definition is_descriptor (f : source) : bool := contains descriptor_name (s_name (i_file f)).
Definition selected (request : list source) : list source :=
  let kept := filter (fun f => negb (is_options f) && negb (is_descriptor f)) request in
  let needed := existsb (fun f => mem descriptor_name (s_imports (i_file f))) kept in
  match rev (filter is_descriptor request) with
  | d :: _ => if needed then d :: kept else kept
  | [] => kept
  end.

(** ProtoFile.py:76-132  ProtoFile.__init__. None: an exception. *)
Definition proto_file (f : source) : option (list mdef) :=
  if text_eqb (chars "proto2") (i_syntax f) then None else sort_file (i_content f).

(** main.py:91-98  the loop that renders the files, adding each to the response; true: it ended with an exception,
    and what was added before stays in the response. *)
Fixpoint render_files (limit : nat) (st : regs) (fds : list (source * list mdef)) (r : response) : response * bool :=
  match fds with
  | [] => (r, false)
  | (f, ds) :: fds' =>
      match sequence (map (render (templates limit st)) ds) with
      | None => (r, true)
      | Some cs =>
          let content := {| h_package := p_package (i_content f); h_enums := p_enums (i_content f); h_classes := cs |} in
          render_files limit st fds'
            {| r_files := r_files r ++ [(header_name (s_name (i_file f)), content)]; r_error := r_error r; r_optional := r_optional r |}
      end
  end.

(** main.py:42-98  generate_code; true: an exception. *)
Definition generate_code (limit : nat) (request : list source) (r : response) : response * bool :=
  let fds := selected request in
  match sequence (map proto_file fds) with
  | None => (r, true)
  | Some files =>
      let messages := concat (map all_messages (concat files)) in
      let enums := concat (map (fun f => map (fun e => p_package (i_content f) ++ [e]) (p_enums (i_content f))) fds)
                   ++ concat (map all_enums (concat files)) in
      if forallb (match_all messages enums) (concat files) then
        let '(all, st) := register_passes 3 files true no_regs in
        if all then render_files limit st (combine fds files) r else (r, true)
      else (r, true)
  end.

(** main.py:103-145  main_plugin, without the debug output. Every exception of generate_code sets error, to a text that
    is not empty. *)
Definition main_plugin (limit : nat) (request : list source) : response :=
  let '(r, raised) := generate_code limit request {| r_files := []; r_error := false; r_optional := true |} in
  if raised then {| r_files := r_files r; r_error := true; r_optional := r_optional r |} else r.
