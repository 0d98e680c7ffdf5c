(** * Generator: how the code generator turns message definitions into C++ classes.

    Modelled: generator/EmbeddedProto/{main,ProtoFile,TypeDefinitions,Field,Oneof}.py as far as they decide
    which classes are written, in which order, with which template parameters, and the C++ types of the
    member variables. Every Python exception ends in an error response (main.py:123-139) and is [None].

    Not modelled: the text of the headers outside these declarations; main.py:45-63, the selection of the
    files of the request. The third-party function toposort_flatten is modelled from its documentation. *)
From Coq Require Import String.
From Verif Require Import Base Schema Printf.
From Coq Require Import List.

(** Python strings, as lists of character codes. *)
Definition text := list Z.
(** A fully qualified name: the packages and messages around, then the name itself. protoc writes
    ".a.b.c" in type_name; the generator also uses "a::b::c" (TypeDefinitions.py:66-72). Simplification:
    where it compares such names for equality, paths are compared. *)
Definition path := list text.

(** Equality of Python strings, and of names compared part by part; `in` for lists of strings. *)
Definition text_dec : forall a b : text, {a = b} + {a <> b} := list_eq_dec Z.eq_dec.
Definition path_dec : forall a b : path, {a = b} + {a <> b} := list_eq_dec text_dec.
Definition text_eqb (a b : text) : bool := if text_dec a b then true else false.
Definition path_eqb (a b : path) : bool := if path_dec a b then true else false.
Definition mem (a : text) (l : list text) : bool := existsb (text_eqb a) l.

(** ** The request: what protoc hands to the generator (FileDescriptorProto and what it contains) *)

(** FieldDescriptorProto.type and type_name. *)
Inductive ptype : Type :=
| PScalar (sc : scalar)
| PString
| PBytes
| PEnum (ref : path)
| PMessage (ref : path).

(** FieldDescriptorProto. [pf_oneof]: oneof_index, if there. [pf_max]: the maxLength option, 0 without. *)
Record pfield : Type := {
  pf_name : text; pf_number : Z; pf_type : ptype; pf_repeated : bool;
  pf_optional : bool; pf_oneof : option nat; pf_max : Z }.

(** DescriptorProto: name, nested_type, names of enum_type, field, names of oneof_decl. *)
Inductive pmsg : Type :=
| PMsg (name : text) (nested : list pmsg) (enums : list text) (fields : list pfield) (oneofs : list text).

(** FileDescriptorProto: package, names of enum_type, message_type. *)
Record pfile : Type := { p_package : path; p_enums : list text; p_msgs : list pmsg }.

(** DescriptorProto.name. *)
Definition p_name (m : pmsg) : text := let 'PMsg n _ _ _ _ := m in n.

(** ** Definitions and fields *)

(** The classes of Field.py, with the maxLength of those that have one (0: none, `not self.MaxLength`). *)
Inductive fclass : Type :=
| FieldBasic (sc : scalar)
| FieldString (max : Z)
| FieldBytes (max : Z)
| FieldEnum (ref : path)
| FieldMessage (ref : path)
| FieldRepeated (max : Z) (actual : fclass)
| FieldErrorRecursive.

(** A Field object; [f_parent] is parent.name. *)
Record field : Type := { f_parent : text; f_name : text; f_number : Z; f_optional : bool; f_class : fclass }.

(** A MessageDefinition object; [scope] is Scope.get_list_of_scope_str, the last name is the own one. *)
Inductive mdef : Type :=
| MDef (scope : path) (nested : list mdef) (enums : list text) (fields : list field) (oneofs : list (text * list field)).

(** MessageDefinition.scope and MessageDefinition.name, TypeDefinitions.py:38-63,95-100. *)
Definition d_scope (d : mdef) : path := let 'MDef s _ _ _ _ := d in s.
Definition d_name (d : mdef) : text := last (d_scope d) [].

(** Field.py:69-86, without the first and second case. *)
Definition single_factory (f : pfield) : fclass :=
  match pf_type f with
  | PMessage ref => FieldMessage ref
  | PEnum ref => FieldEnum ref
  | PString => FieldString (pf_max f)
  | PBytes => FieldBytes (pf_max f)
  | PScalar sc => FieldBasic sc
  end.

(** Field.py:69-70: the type of the field is the message the field is in. *)
Definition refers_to (f : pfield) (scope : path) : bool :=
  match pf_type f with PMessage ref | PEnum ref => path_eqb ref scope | _ => false end.

(** Field.py:65-86  Field.factory. *)
Definition factory (scope : path) (f : pfield) : field :=
  {| f_parent := last scope []; f_name := pf_name f; f_number := pf_number f; f_optional := pf_optional f;
     f_class := if refers_to f scope then FieldErrorRecursive
                else if pf_repeated f then FieldRepeated (pf_max f) (single_factory f)
                else single_factory f |}.

(** Oneof.py:41-46: the fields of the oneof with the given index. *)
Definition oneof_members (fields : list pfield) (index : nat) : list pfield :=
  filter (fun f => match pf_oneof f with Some i => Nat.eqb i index | None => false end) fields.

(** TypeDefinitions.py:153-164: all oneofs but those whose first field is a proto3 optional. An empty
    oneof raises an exception there; protoc refuses empty oneofs. *)
Fixpoint define_oneofs (scope : path) (fields : list pfield) (index : nat) (names : list text)
  : list (text * list field) :=
  match names with
  | [] => []
  | n :: names' =>
      let ms := oneof_members fields index in
      match ms with
      | f :: _ => if pf_optional f then [] else [(n, map (factory scope) ms)]
      | [] => []
      end ++ define_oneofs scope fields (S index) names'
  end.

(** TypeDefinitions.py:125-176  MessageDefinition.__init__. *)
Fixpoint define (parent : path) (m : pmsg) : mdef :=
  match m with
  | PMsg n nested enums fields oneofs =>
      let scope := parent ++ [n] in
      MDef scope (map (define scope) nested) enums
        (map (factory scope)
           (filter (fun f => match pf_oneof f with None => true | Some _ => pf_optional f end) fields))
        (define_oneofs scope fields 0 oneofs)
  end.

(** ** The order of the classes *)

(** ".a.b.c" *)
Definition dotted (p : path) : text := concat (map (fun n => chars "." ++ n) p).

(** str.startswith *)
Fixpoint starts_with (pre s : text) : bool :=
  match pre, s with
  | [], _ => true
  | _ :: _, [] => false
  | a :: pre', c :: s' => (a =? c) && starts_with pre' s'
  end.

(** type_name of a field when toposort_add_msg looks at it: Field.py:559 has overwritten that of
    recursive fields. *)
Definition type_name (scope : path) (f : pfield) : list text :=
  match pf_type f with
  | PMessage ref | PEnum ref => [if path_eqb ref scope then chars "FieldErrorRecursive" else dotted ref]
  | _ => []
  end.

(** ProtoFile.py:39-69  toposort_add_msg: the dependencies of the message itself, and the entries it adds to
    dependency_data (a dictionary; here a list of keys, each with the list of the names in its set). *)
Fixpoint toposort_add_msg (namespace : path) (m : pmsg) : list text * list (text * list text) :=
  match m with
  | PMsg n nested enums fields _ =>
      let local := namespace ++ [n] in
      let below := map (toposort_add_msg local) nested in
      let local_definitions := map (fun m' => dotted (local ++ [p_name m'])) nested
                               ++ map (fun e => dotted (local ++ [e])) enums in
      let deps := [dotted namespace]
                  ++ filter (fun d => negb (starts_with (dotted local) d)) (concat (map fst below))
                  ++ filter (fun d => negb (mem d local_definitions)) (concat (map (type_name local) fields)) in
      (deps, concat (map snd below)
             ++ map (fun e => (dotted (local ++ [e]), [dotted local])) enums
             ++ [(dotted local, deps)])
  end.

(** Python's order of strings, and sorted() of strings. *)
Fixpoint text_leb (a b : text) : bool :=
  match a, b with
  | [], _ => true
  | _ :: _, [] => false
  | x :: a', y :: b' => (x <? y) || ((x =? y) && text_leb a' b')
  end.
(** list.sort(key=...) and sorted(): stable. *)
Fixpoint insert {A} (leb : A -> A -> bool) (x : A) (l : list A) : list A :=
  match l with
  | [] => [x]
  | y :: l' => if leb x y then x :: l else y :: insert leb x l'
  end.
Fixpoint sort {A} (leb : A -> A -> bool) (l : list A) : list A :=
  match l with
  | [] => []
  | x :: l' => insert leb x (sort leb l')
  end.

(** toposort.toposort_flatten: again and again all items without dependencies, sorted; an exception if
    items remain that all have dependencies. *)
Fixpoint toposort_loop (fuel : nat) (data : list (text * list text)) : option (list text) :=
  match fuel with
  | O => None
  | S fuel' =>
      match map fst (filter (fun '(_, ds) => match ds with [] => true | _ => false end) data) with
      | [] => match data with [] => Some [] | _ => None end
      | ordered =>
          match toposort_loop fuel' (map (fun '(k, ds) => (k, filter (fun d => negb (mem d ordered)) ds))
                                       (filter (fun '(k, _) => negb (mem k ordered)) data)) with
          | Some rest => Some (sort text_leb ordered ++ rest)
          | None => None
          end
      end
  end.
Definition toposort_flatten (data : list (text * list text)) : option (list text) :=
  let data1 := map (fun '(k, ds) => (k, filter (fun d => negb (text_eqb d k)) ds)) data in
  let extra := nodup text_dec (filter (fun d => negb (mem d (map fst data1))) (concat (map snd data1))) in
  let data2 := data1 ++ map (fun e => (e, [])) extra in
  toposort_loop (S (length data2)) data2.

(** str.replace(pat, ''); [skip] characters of a match are still to be left out. *)
Fixpoint remove_all (pat s : text) (skip : nat) : text :=
  match s with
  | [] => []
  | c :: s' =>
      match skip with
      | S k => remove_all pat s' k
      | O => if starts_with pat s then remove_all pat s' (length pat - 1) else c :: remove_all pat s' 0
      end
  end.
(** msg_name.replace(my_scope + ".", '') *)
Definition strip (scope : path) (msg_name : text) : text := remove_all (dotted scope ++ chars ".") msg_name 0.

(** ProtoFile.py:120-124, TypeDefinitions.py:182-186: sorted_index, the last index in [order] where the
    stripped name is the name of the definition; 0 if there is none. *)
Fixpoint sorted_index (scope : path) (name : text) (order : list text) (index default : nat) : nat :=
  match order with
  | [] => default
  | m :: order' =>
      sorted_index scope name order' (S index) (if text_eqb name (strip scope m) then index else default)
  end.
Definition sort_definitions (scope : path) (order : list text) (ds : list mdef) : list mdef :=
  sort (fun a b => Nat.leb (sorted_index scope (d_name a) order 0 0) (sorted_index scope (d_name b) order 0 0)) ds.

(** TypeDefinitions.py:179-193  sort_nested_msg_definitions. *)
Fixpoint sort_nested (order : list text) (d : mdef) : mdef :=
  match d with
  | MDef scope nested enums fields oneofs =>
      MDef scope (sort_definitions scope order (map (sort_nested order) nested)) enums fields oneofs
  end.

(** list.remove: the first occurrence. *)
Fixpoint remove_first (x : text) (l : list text) : list text :=
  match l with
  | [] => []
  | y :: l' => if text_eqb x y then l' else y :: remove_first x l'
  end.

(** ProtoFile.py:74-136  ProtoFile.__init__: the sorted message definitions. *)
Definition sort_file (f : pfile) : option (list mdef) :=
  match toposort_flatten (concat (map (fun m => snd (toposort_add_msg (p_package f) m)) (p_msgs f))) with
  | None => None
  | Some order =>
      let order := match p_package f with [] => order | _ => remove_first (dotted (p_package f)) order end in
      Some (map (sort_nested order) (sort_definitions (p_package f) order (map (define (p_package f)) (p_msgs f))))
  end.

(** ** Matching fields with definitions *)

(** TypeDefinitions.py:196-205, ProtoFile.py:156-165  get_all_nested_types: messages and enums. *)
Fixpoint all_messages (d : mdef) : list path :=
  match d with MDef scope nested _ _ _ => concat (map all_messages nested) ++ [scope] end.
Fixpoint all_enums (d : mdef) : list path :=
  match d with MDef scope nested enums _ _ => map (fun e => scope ++ [e]) enums ++ concat (map all_enums nested) end.

(** All fields of a definition: TypeDefinitions.py:212-218. *)
Definition all_fields (fields : list field) (oneofs : list (text * list field)) : list field :=
  fields ++ concat (map snd oneofs).

(** Field.py:119-120,375-386,448-459,532-533  match_field_with_definitions: found. *)
Fixpoint matches (messages enums : list path) (c : fclass) : bool :=
  match c with
  | FieldEnum ref => existsb (path_eqb ref) enums
  | FieldMessage ref => existsb (path_eqb ref) messages
  | FieldRepeated _ c' => matches messages enums c'
  | _ => true
  end.
(** TypeDefinitions.py:207-218  match_fields_with_definitions. *)
Fixpoint match_all (messages enums : list path) (d : mdef) : bool :=
  match d with
  | MDef _ nested _ fields oneofs =>
      forallb (match_all messages enums) nested
      && forallb (fun f => matches messages enums (f_class f)) (all_fields fields oneofs)
  end.

(** ** Registration of template parameters *)

(** What changes in a MessageDefinition: all_parameters_registered, contains_template_parameters and
    scope.fields_with_templates. *)
Record reg : Type := { all_registered : bool; contains_templates : bool; registered : list field }.
Definition regs := path -> reg.
Definition no_regs : regs := fun _ => {| all_registered := false; contains_templates := false; registered := [] |}.
Definition set_reg (p : path) (r : reg) (st : regs) : regs := fun q => if path_dec q p then r else st q.

(** TypeDefinitions.py:236-238  register_child_with_template. *)
Definition register_child (scope : path) (f : field) (st : regs) : regs :=
  set_reg scope {| all_registered := all_registered (st scope); contains_templates := true;
                   registered := registered (st scope) ++ [f] |} st.

(** Field.py:122-123,272-276,461-467,535-539  register_template_parameters of the field classes. *)
Definition register_field (scope : path) (f : field) (st : regs) : bool * regs :=
  match f_class f with
  | FieldString max | FieldBytes max | FieldRepeated max _ =>
      (true, if max =? 0 then register_child scope f st else st)
  | FieldMessage ref =>
      if all_registered (st ref)
      then (true, if contains_templates (st ref) then register_child scope f st else st)
      else (false, st)
  | _ => (true, st)
  end.

(** Assigning to self.all_parameters_registered, TypeDefinitions.py:221-232. *)
Definition set_all_registered (scope : path) (b : bool) (st : regs) : regs :=
  set_reg scope {| all_registered := b; contains_templates := contains_templates (st scope);
                   registered := registered (st scope) |} st.

(** self.all_parameters_registered = r and self.all_parameters_registered *)
Definition and_registered (scope : path) (r : bool * regs) : regs :=
  set_all_registered scope (fst r && all_registered (snd r scope)) (snd r).

(** Oneof.py:65-70: the result for a oneof. *)
Fixpoint register_oneof (scope : path) (fs : list field) (all : bool) (st : regs) : bool * regs :=
  match fs with
  | [] => (all, st)
  | f :: fs' => let '(b, st') := register_field scope f st in register_oneof scope fs' (b && all) st'
  end.

(** TypeDefinitions.py:221-234  MessageDefinition.register_template_parameters. *)
Fixpoint register (d : mdef) (st : regs) : bool * regs :=
  match d with
  | MDef scope nested _ fields oneofs =>
      let st := set_all_registered scope true st in
      let st := fold_left (fun st d' => and_registered scope (register d' st)) nested st in
      let st := fold_left (fun st f => and_registered scope (register_field scope f st)) fields st in
      let st := fold_left (fun st o => and_registered scope (register_oneof scope (snd o) true st)) oneofs st in
      (all_registered (st scope), st)
  end.

(** ProtoFile.py:171-175  ProtoFile.register_template_parameters. *)
Fixpoint register_file (ds : list mdef) (all : bool) (st : regs) : bool * regs :=
  match ds with
  | [] => (all, st)
  | d :: ds' => let '(b, st') := register d st in register_file ds' (b && all) st'
  end.

(** main.py:78-85: at most three passes over all files; the flag is never set back to True. *)
Fixpoint register_files (files : list (list mdef)) (all : bool) (st : regs) : bool * regs :=
  match files with
  | [] => (all, st)
  | ds :: files' => let '(b, st') := register_file ds true st in register_files files' (b && all) st'
  end.
Fixpoint register_passes (n : nat) (files : list (list mdef)) (all : bool) (st : regs) : bool * regs :=
  match n with
  | O => (all, st)
  | S n' =>
      let '(all', st') := register_files files all st in
      if all' then (true, st') else register_passes n' files all' st'
  end.

(** ** The declarations that are written *)

(** A length: a number or a template parameter. *)
Inductive clength : Type := LConst (n : Z) | LParam (p : text).
(** A C++ type: the scalar classes, FieldString<l>, FieldBytes<l>, enumeration<A::B>, A::B<args>,
    RepeatedFieldFixedSize<element, l>. *)
Inductive ctype : Type :=
| TyScalar (sc : scalar)
| TyString (l : clength)
| TyBytes (l : clength)
| TyEnum (name : path)
| TyMsg (name : path) (args : list text)
| TyRep (element : ctype) (l : clength).
(** A class: template parameters (all uint32_t), name, nested enums and classes, member variables. *)
Inductive class : Type :=
| Class (params : list text) (name : text) (enums : list text) (nested : list class) (members : list (text * ctype)).
(** A header file. *)
Record header : Type := { h_package : path; h_enums : list text; h_classes : list class }.

(** A loop over a list that ends with the first exception. *)
Fixpoint sequence {A} (l : list (option A)) : option (list A) :=
  match l with
  | [] => Some []
  | None :: _ => None
  | Some x :: l' => match sequence l' with Some xs => Some (x :: xs) | None => None end
  end.

(** parent.name + "_" + variable_name, with variable_name = name + "_" (Field.py:52). *)
Definition param_prefix (f : field) : text := f_parent f ++ chars "_" ++ f_name f ++ chars "_".

(** Field.py:115-117,265-270,440-446,524-530  get_template_parameters; [templates] gives those of a definition. *)
Fixpoint class_params (templates : path -> option (list text)) (f : field) (c : fclass) : option (list text) :=
  match c with
  | FieldString max | FieldBytes max => Some (if max =? 0 then [param_prefix f ++ chars "LENGTH"] else [])
  | FieldMessage ref => option_map (map (app (param_prefix f))) (templates ref)
  | FieldRepeated max c' =>
      option_map (app (if max =? 0 then [param_prefix f ++ chars "REP_LENGTH"] else [])) (class_params templates f c')
  | _ => Some []
  end.

(** TypeDefinitions.py:77-82,240-241  get_templates. [limit] is what is left of Python's recursion limit;
    beyond it there is an exception. *)
Fixpoint templates (limit : nat) (st : regs) (p : path) : option (list text) :=
  match limit with
  | O => None
  | S limit' =>
      option_map (@concat text)
        (sequence (map (fun f => class_params (templates limit' st) f (f_class f)) (registered (st p))))
  end.

(** Field.py:136-146  get_reduced_scope: the path without the scopes that are shared with the parent.
    Simplification: scopes are compared by name only, not also by their template parameters (scopes with
    the same names are the same). *)
Fixpoint common (a b : path) : nat :=
  match a, b with
  | x :: a', y :: b' => if text_dec x y then S (common a' b') else O
  | _, _ => O
  end.
Definition shared (ref scope : path) : nat := common (removelast ref) scope.
Definition reduced_scope (ref scope : path) : path := skipn (shared ref scope) ref.

(** Field.py:350-356: no scope named in the type of an enum field has template parameters. *)
Definition enum_scopes_ok (templates : path -> option (list text)) (ref scope : path) : bool :=
  forallb (fun n => match templates (firstn n ref) with Some [] => true | _ => false end)
    (seq (S (shared ref scope)) (length ref - shared ref scope)).

(** Field.py:224-225,293-299,315-321,343-367,411-431,504-510  get_type. None is an
    exception. A recursive field, whose type "//" (Field.py:561-562) turns the declaration into a comment,
    is treated in [member]. *)
Definition length_of (f : field) (max : Z) (suffix : text) : clength :=
  if max =? 0 then LParam (param_prefix f ++ suffix) else LConst max.
Fixpoint class_type (templates : path -> option (list text)) (scope : path) (f : field) (c : fclass) : option ctype :=
  match c with
  | FieldBasic sc => Some (TyScalar sc)
  | FieldString max => Some (TyString (length_of f max (chars "LENGTH")))
  | FieldBytes max => Some (TyBytes (length_of f max (chars "LENGTH")))
  | FieldEnum ref =>
      if enum_scopes_ok templates ref scope then Some (TyEnum (reduced_scope ref scope)) else None
  | FieldMessage ref => option_map (TyMsg (reduced_scope ref scope)) (class_params templates f c)
  | FieldRepeated max c' =>
      option_map (fun e => TyRep e (length_of f max (chars "REP_LENGTH"))) (class_type templates scope f c')
  | FieldErrorRecursive => None
  end.

(** The declaration of the member variable of a field, templates/TypeDefMsg.h:394-415; nothing for a
    recursive field. *)
Definition member (templates : path -> option (list text)) (scope : path) (f : field) : option (list (text * ctype)) :=
  match f_class f with
  | FieldErrorRecursive => Some []
  | c => option_map (fun t => [(f_name f, t)]) (class_type templates scope f c)
  end.

(** templates/TypeDefMsg.h:30-420  the class of a message definition. *)
Fixpoint render (templates : path -> option (list text)) (d : mdef) : option class :=
  match d with
  | MDef scope nested enums fields oneofs =>
      match templates scope, sequence (map (render templates) nested),
            sequence (map (member templates scope) (all_fields fields oneofs)) with
      | Some params, Some nested', Some members => Some (Class params (last scope []) enums nested' (concat members))
      | _, _, _ => None
      end
  end.

(** main.py:42-101  generate_code, from the ProtoFile objects on. *)
Definition generate (limit : nat) (request : list pfile) : option (list header) :=
  match sequence (map sort_file request) with
  | None => None
  | Some files =>
      let messages := concat (map all_messages (concat files)) in
      let enums := concat (map (fun f => map (fun e => p_package f ++ [e]) (p_enums f)) request)
                   ++ concat (map all_enums (concat files)) in
      if forallb (match_all messages enums) (concat files) then
        let '(all, st) := register_passes 3 files true no_regs in
        if all then
          match sequence (map (fun ds => sequence (map (render (templates limit st)) ds)) files) with
          | Some css =>
              Some (map (fun '(f, cs) => {| h_package := p_package f; h_enums := p_enums f; h_classes := cs |})
                      (combine request css))
          | None => None
          end
        else None
      else None
  end.
