(** * GenFiles: the header files that the generator writes: their names, include guards and includes. *)
From Coq Require Import String.
From Verif Require Import Base Schema Printf Generator GenMembers.
From Coq Require Import List ZArith.

(** FileDescriptorProto: name and dependency, the names of the imported files. *)
Record srcfile : Type := { s_name : text; s_imports : list text }.

(** Python's "sub in t" for strings. *)
Fixpoint starts (p t : text) : bool :=
  match p, t with
  | [], _ => true
  | x :: p', y :: t' => (x =? y) && starts p' t'
  | _ :: _, [] => false
  end.
Fixpoint contains (sub t : text) : bool :=
  starts sub t || match t with [] => false | _ :: t' => contains sub t' end.

(** The two names in main.py:49-56. *)
Definition options_name : text := chars "embedded_proto_options.proto".
Definition descriptor_name : text := chars "google/protobuf/descriptor.proto".

(** main.py:45-64: the files that a header is written for. Simplification: all files are proto3 (ProtoFile.py:79-80
    raises an exception for "proto2"). *)
Definition definitions (request : list srcfile) : list srcfile :=
  let kept := filter (fun f => negb (contains options_name (s_name f)) && negb (contains descriptor_name (s_name f))) request in
  let needed := existsb (fun f => mem descriptor_name (s_imports f)) kept in
  match rev (filter (fun f => contains descriptor_name (s_name f)) request) with
  | d :: _ => if needed then d :: kept else kept
  | [] => kept
  end.

(** str.rfind for one character, None for -1. *)
Fixpoint rfind (c : Z) (t : text) : option nat :=
  match t with
  | [] => None
  | x :: t' => match rfind c t' with Some i => Some (S i) | None => if x =? c then Some O else None end
  end.
(** os.path.splitext(t)[0] (posixpath): without the last dot and what follows, if the dot is in the last component
    of the path and not among its leading dots. *)
Definition splitext (t : text) : text :=
  match rfind 46 t with
  | None => t
  | Some dot =>
      let start := match rfind 47 t with None => O | Some sep => S sep end in
      if Nat.ltb start (S dot) && existsb (fun c => negb (c =? 46)) (skipn start (firstn dot t)) then firstn dot t else t
  end.

(** main.py:93, and the includes, ProtoFile.py:138-143 with templates/Header.h:54-58. *)
Definition header_name (n : text) : text := splitext n ++ chars ".h".
Definition includes (f : srcfile) : list text := map header_name (filter (fun n => negb (contains options_name n)) (s_imports f)).
(** ProtoFile.py:152-153 with templates/Header.h:36. *)
Definition slashes (t : text) : text := map (fun c => if c =? 47 then 95 else c) t.
Definition guard (n : text) : text := upper (slashes (splitext n)) ++ chars "_H".

(** A header file; its definitions, templates/Header.h:60-75, come after the includes. The includes of the library,
    lines 39-51, have guards that end in "_H_" and are left out. *)
Record hfile : Type := { h_name : text; h_guard : text; h_includes : list text }.
(** main.py:88-96. *)
Definition header_of (f : srcfile) : hfile := {| h_name := header_name (s_name f); h_guard := guard (s_name f); h_includes := includes f |}.
Definition header_files (request : list srcfile) : list hfile := map header_of (definitions request).
