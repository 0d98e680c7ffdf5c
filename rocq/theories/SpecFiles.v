(** * SpecFiles: how a C++ compiler reads header files, and what including one should do. *)
From Coq Require Import String.
From Verif Require Import Base Schema Printf Generator GenMembers GenFiles.
From Verif Require SpecMembers.
From Coq Require Import List ZArith.

(** ** The preprocessor *)

Definition letter (c : Z) : bool := ((97 <=? c) && (c <=? 122)) || ((65 <=? c) && (c <=? 90)) || (c =? 95).
Definition digit (c : Z) : bool := (48 <=? c) && (c <=? 57).
(** The macro that #ifndef and #define take from a line: the identifier it starts with; None: an error. *)
Fixpoint identifier_prefix (t : text) : text :=
  match t with c :: t' => if letter c || digit c then c :: identifier_prefix t' else [] | [] => [] end.
Definition macro_name (t : text) : option text :=
  match t with c :: _ => if letter c then Some (identifier_prefix t) else None | [] => None end.

(** #include "n" in the file [from]: relative to the folder of that file, otherwise from the folder that the
    headers are in. *)
Fixpoint folder (t : text) : text :=
  match t with c :: t' => if existsb (Z.eqb 47) t then c :: folder t' else [] | [] => [] end.
Definition by_name (hs : list hfile) (n : text) : option hfile := find (fun h => text_eqb n (h_name h)) hs.
Definition resolve (hs : list hfile) (from n : text) : option hfile :=
  match by_name hs (folder from ++ n) with Some h => Some h | None => by_name hs n end.

(** Reading a header: the macros defined so far and the names of the headers whose definitions were read, in that order.
    None: an error. [depth]: how deep includes can be nested. *)
Definition state : Type := list text * list text.
Fixpoint read_header (depth : nat) (hs : list hfile) (h : hfile) (st : state) : option state :=
  match depth with
  | O => None
  | S depth' =>
      match macro_name (h_guard h) with
      | None => None
      | Some g =>
          if existsb (text_eqb g) (fst st) then Some st
          else
            match
              (fix read_all ns st := match ns with
                | [] => Some st
                | n :: ns' =>
                    match resolve hs (h_name h) n with
                    | None => None
                    | Some h' => match read_header depth' hs h' st with Some st' => read_all ns' st' | None => None end
                    end
                end) (h_includes h) (g :: fst st, snd st)
            with
            | Some (defined, read) => Some (defined, read ++ [h_name h])
            | None => None
            end
      end
  end.
(** A source file of the user, outside of that folder, with lines #include for the headers [ns]. *)
Fixpoint read_includes (depth : nat) (hs : list hfile) (ns : list text) (st : state) : option state :=
  match ns with
  | [] => Some st
  | n :: ns' =>
      match by_name hs n with
      | None => None
      | Some h => match read_header depth hs h st with Some st' => read_includes depth hs ns' st' | None => None end
      end
  end.
Definition compile (depth : nat) (hs : list hfile) (ns : list text) : option (list text) :=
  option_map snd (read_includes depth hs ns ([], [])).

(** ** What is expected *)

Definition names (request : list srcfile) : list text := map s_name request.
(** protoc passes every file once, after the files it imports. *)
Definition ordered_request (request : list srcfile) : Prop :=
  NoDup (names request) /\ forall l1 f l2, request = l1 ++ f :: l2 -> incl (s_imports f) (names l1).

(** [n] is one of the files [ns] or imported by them. *)
Inductive needed (request : list srcfile) (ns : list text) : text -> Prop :=
| needed_self n : In n ns -> needed request ns n
| needed_import f n : In f request -> needed request ns (s_name f) -> In n (s_imports f) -> needed request ns n.
(** In [l] every file comes after the files it imports. *)
Definition imports_before (request : list srcfile) (l : list text) : Prop :=
  forall l1 f l2, In f request -> l = l1 ++ s_name f :: l2 -> incl (s_imports f) l1.

(** Names of letters, digits and underscores, in folders, not starting with a digit, with the extension .proto. *)
Definition well_named (n : text) : Prop :=
  exists c stem, n = c :: stem ++ chars ".proto" /\ letter c = true
    /\ Forall (fun x => letter x = true \/ digit x = true \/ x = 47) stem /\ last (c :: stem) 0 <> 47.
(** And without the two names that have a special meaning in them. *)
Definition in_text (sub t : text) : Prop := exists before after, t = before ++ sub ++ after.
Definition options_file : text := chars "embedded_proto_options.proto".
Definition descriptor_file : text := chars "google/protobuf/descriptor.proto".
Definition plain_name (n : text) : Prop := ~ in_text options_file n /\ ~ in_text descriptor_file n /\ well_named n.
(** The user's files: without the files that the library brings its options with, which have no code. *)
Definition user_names (l : list text) : list text := filter (fun n => negb (text_eqb n options_file)) l.
Definition user_files (request : list srcfile) : list srcfile :=
  map (fun f => {| s_name := s_name f; s_imports := user_names (s_imports f) |})
    (filter (fun f => negb (text_eqb (s_name f) options_file || text_eqb (s_name f) descriptor_file)) request).
(** Two names that differ only in case, or in underscores for slashes. *)
Definition same_but_case (a b : text) : Prop :=
  let plain n := map (fun c => if c =? 47 then 95 else c) (SpecMembers.capitals n) in plain a = plain b.
(** No two names do. *)
Definition distinct_guards (request : list srcfile) : Prop :=
  forall a b, In a (names request) -> In b (names request) -> same_but_case a b -> a = b.
(** No import has a namesake relative to the folder of the file. *)
Definition no_namesake (request : list srcfile) : Prop :=
  forall f n, In f request -> In n (s_imports f) -> folder (s_name f) <> [] -> ~ In (folder (s_name f) ++ n) (names request).
