(** * GenBody: the bodies of the functions of a generated class, as the templates write them, and what running them does.

    Message.v and Api.v describe the functions of a message class for an arbitrary list of fields. Here the statements
    that the generator writes are data: names, switches with their labels and breaks, conditions, calls. The names are
    looked up when the statements run. Of the members (FieldTemplate, FieldString, ..., other message classes) the
    methods of Fields.v, Message.v, Api.v and ToString.v are used. Not here: the accessors n(), and the overloads of set_n()
    for temporaries, which have the same bodies. *)
From Coq Require Import String.
From Verif Require Import Base Buffers Wire Schema Fields Message Api Printf ToString Generator GenMembers.
From Coq Require Import List.

(** ** Statements *)

(** A member variable x_, or the member x_ of the union o_ (Field.py:103-108). *)
Inductive lvalue : Type := Var (x : text) | Member (o x : text).

(** Expressions of type FieldNumber: FieldNumber::E, a variable which_o_, the parameter field_id, the variable id_tag, and
    rhs.get_which_o(). *)
Inductive number : Type := NEnum (e : text) | NVar (w : text) | NFieldId | NIdTag | NRhs (g : text).
(** Expressions of type Error: return_value, tag_value, a constant. *)
Inductive error_value : Type := EReturn | ETag | EConst (e : err).

(** The conditions in the templates: comparisons of errors and numbers, the presence flags, has_n(), values and
    arguments. *)
Inductive cond : Type :=
| CEqErr (a b : error_value)
| CNeErr (a b : error_value)
| CEqNum (a b : number)
| CNeNum (a b : number)
| CAnd (a b : cond)
| CHas (of_rhs : bool) (f : text)     (* f() or rhs.f() *)
| CPresent (p : text)                 (* 0 != (presence::mask(presence::fields::p) & presence_[presence::index(presence::fields::p)]) *)
| CDiffers (x : lvalue).              (* default != x.get() *)

(** What return_value is set to. *)
Inductive result : Type :=
| RConst (e : err)
| RTag                                           (* tag_value *)
| RSerialize (x : lvalue) (e : text) (flag : bool)  (* x.serialize_with_id(static_cast<uint32_t>(FieldNumber::e), buffer, flag) *)
| RCheckType (x : lvalue)                        (* x.deserialize_check_type(buffer, wire_type) *)
| RSkip                                          (* skip_unknown_field(buffer, wire_type) *)
| RCall (f : text).                              (* f(id_tag, buffer, wire_type) *)

(** Arguments of the other calls: f(), f(number), f(rhs.g()). *)
Inductive arguments : Type := NoArgs | ANumber (n : number) | AGet (g : text).

(** Labels are statements, as in C++. *)
Inductive stmt : Type :=
| If (c : cond) (yes no : list stmt)
| While (c : cond) (body : list stmt)
| Switch (n : number) (body : list stmt)
| Case (e : text)                    (* case FieldNumber::e: *)
| Default
| Break
| SetReturn (r : result)             (* return_value = r *)
| ReadTag                            (* tag_value = DeserializeTag(buffer, wire_type, id_number) *)
| SetIdTag                           (* id_tag = static_cast<FieldNumber>(id_number) *)
| SetPresence (p : text)             (* presence_[presence::index(p)] |= presence::mask(p) *)
| ClearPresence (p : text)           (* presence_[presence::index(p)] &= ~(presence::mask(p)) *)
| SetWhich (w : text) (n : number)   (* w = n *)
| New (x : lvalue)                   (* new(&x) T *)
| Destroy (x : lvalue)               (* destroy_at(&x), x.~T() *)
| SetDefault (x : lvalue)            (* x = default *)
| ClearVar (x : lvalue)              (* x.clear() *)
| Assign (x : lvalue)                (* x = value *)
| CallSet (x : lvalue)               (* x.set(rhs), of a string or bytes *)
| CallSetAt (x : lvalue)             (* x.set(index, value), of a repeated field *)
| CallAdd (x : lvalue)               (* x.add(value) *)
| Call (f : text) (a : arguments)
| SetName (c : text)                 (* name = c, a constant of the class *)
| SetNameTo (t : text)               (* name = "t" *)
| Print (x : lvalue) (k : text) (deeper : Z) (first : option bool)
                                     (* left_chars = x.to_string(left_chars, indent_level + deeper, k, first); None: first_field *)
| CallPrint (f : text) (deeper : Z) (first : bool).
                                     (* left_chars = f(left_chars, indent_level + deeper, first) *)

(** Functions of the class: the statements of void functions, functions that return a bool, a member, nothing but 0, and
    a which_ variable. *)
Inductive func : Type := Body (l : list stmt) | Test (c : cond) | Get (x : lvalue) | GetZero | GetNumber (w : text)
| Mutable (l : list stmt) (x : lvalue).

(** ** What the templates write *)

(** `::EmbeddedProto::Error::NO_ERRORS == return_value`, and names with a fixed beginning such as has_ or set_. *)
Definition ok : cond := CEqErr (EConst NoErrors) EReturn.
Definition pre (p : string) (n : text) : text := chars p ++ n.
(** Field.py:103-108  get_variable_name. *)
Definition place (oneof : option text) (f : field) : lvalue :=
  match oneof with
  | None => Var (variable_name (f_name f))
  | Some o => Member (variable_name o) (variable_name (f_name f))
  end.
Definition id_name (f : field) : text := variable_id_name (f_name f).
Definition has_presence (oneof : option text) (f : field) : bool := f_optional f || match oneof with Some _ => true | None => false end.

(** templates/FieldBasic_Serialize.h, FieldEnum_Serialize.h, FieldMsg_Serialize.h, FieldStringBytes_Serialize.h and
    FieldRepeated_Serialize.h, lines 30-37. FieldErrorRecursive renders to nothing (Field.py:567-568). *)
Definition serialize_field (oneof : option text) (f : field) : list stmt :=
  let write := [SetReturn (RSerialize (place oneof f) (id_name f) (has_presence oneof f))] in
  match f_class f with
  | FieldErrorRecursive => []
  | FieldRepeated _ _ => [If ok write []]
  | FieldBasic _ | FieldEnum _ =>
      [If (CAnd (if has_presence oneof f then CHas false (pre "has_" (f_name f)) else CDiffers (place oneof f)) ok) write []]
  | _ => [If (if has_presence oneof f then CAnd (CHas false (pre "has_" (f_name f))) ok else ok) write []]
  end.
(** templates/TypeDefMsg.h:167-179 *)
Definition serialize_oneof (o : text * list field) : list stmt :=
  [Switch (NVar (which_name (fst o)))
     (concat (map (fun f => Case (id_name f) :: serialize_field (Some (fst o)) f ++ [Break]) (snd o)) ++ [Default; Break])].
(** templates/TypeDefMsg.h:159-182 *)
Definition serialize_body (fields : list field) (oneofs : list (text * list field)) : list stmt :=
  concat (map (serialize_field None) fields) ++ concat (map serialize_oneof oneofs).

(** templates/FieldBasic_Deserialize.h, FieldEnum_Deserialize.h and FieldMsg_Deserialize.h, lines 30-33. Strings, bytes
    and repeated fields use the first (Field.py:311,333,545), FieldErrorRecursive renders to nothing (570-571). *)
Definition deserialize_field (oneof : option text) (f : field) : list stmt :=
  match f_class f with
  | FieldErrorRecursive => []
  | _ => (if f_optional f then [SetPresence (upper (f_name f))] else []) ++ [SetReturn (RCheckType (place oneof f))]
  end.
(** templates/TypeDefMsg.h:196-223 *)
Definition deserialize_switch (fields : list field) (oneofs : list (text * list field)) : stmt :=
  Switch NIdTag
    (concat (map (fun f => Case (id_name f) :: deserialize_field None f ++ [Break]) fields)
     ++ concat (map (fun o => map (fun f => Case (id_name f)) (snd o) ++ [SetReturn (RCall (pre "deserialize_" (fst o))); Break]) oneofs)
     ++ [Case (chars "NOT_SET"); SetReturn (RConst InvalidFieldId); Break; Default; SetReturn RSkip; Break]).
(** templates/TypeDefMsg.h:184-236 *)
Definition deserialize_body (fields : list field) (oneofs : list (text * list field)) : list stmt :=
  [ReadTag;
   While (CAnd ok (CEqErr (EConst NoErrors) ETag))
     [SetIdTag; deserialize_switch fields oneofs; If ok [ReadTag] []];
   If (CAnd ok (CAnd (CNeErr (EConst NoErrors) ETag) (CNeErr (EConst EndOfBuffer) ETag))) [SetReturn RTag] []].

(** templates/TypeDefMsg.h:238-247 *)
Definition clear_body (fields : list field) (oneofs : list (text * list field)) : list stmt :=
  map (fun f => Call (pre "clear_" (f_name f)) NoArgs) fields ++ map (fun o => Call (pre "clear_" (fst o)) NoArgs) oneofs.

(** templates/TypeDefMsg.h:249-271  field_number_to_name *)
Definition name_case (f : field) : list stmt := [Case (id_name f); SetName (name_constant (f_name f)); Break].
Definition name_body (fields : list field) (oneofs : list (text * list field)) : list stmt :=
  [Switch NFieldId (concat (map name_case fields) ++ concat (map (fun o => concat (map name_case (snd o))) oneofs)
     ++ [Default; SetNameTo (chars "Invalid FieldNumber"); Break])].

(** templates/TypeDefMsg.h:40-53,62-75,102-115,125-138: one field of the constructors and operator=; the four are the same. *)
Definition assign_field (f : field) : list stmt :=
  let set := [Call (pre "set_" (f_name f)) (AGet (pre "get_" (f_name f)))] in
  if f_optional f then [If (CHas true (pre "has_" (f_name f))) set [Call (pre "clear_" (f_name f)) NoArgs]] else set.
(** templates/TypeOneof.h:30-48 *)
Definition assign_oneof (o : text * list field) : list stmt :=
  [If (CNeNum (NRhs (pre "get_which_" (fst o))) (NVar (which_name (fst o)))) [Call (pre "clear_" (fst o)) NoArgs] [];
   Switch (NRhs (pre "get_which_" (fst o)))
     (concat (map (fun f => [Case (id_name f); Call (pre "set_" (f_name f)) (AGet (pre "get_" (f_name f))); Break]) (snd o)) ++ [Default; Break])].
Definition assign_body (fields : list field) (oneofs : list (text * list field)) : list stmt :=
  concat (map assign_field fields) ++ concat (map assign_oneof oneofs).

(** templates/TypeDefMsg.h:325-333, the part of to_string() that depends on the fields; first is loop.first. *)
Fixpoint print_fields (first : bool) (fields : list field) : list stmt :=
  match fields with
  | [] => []
  | f :: rest =>
      match f_class f with
      | FieldErrorRecursive => []
      | _ => [Print (place None f) (name_constant (f_name f)) 2 (Some first)]
      end ++ print_fields false rest
  end.
Fixpoint print_oneofs (first : bool) (oneofs : list (text * list field)) : list stmt :=
  match oneofs with [] => [] | o :: rest => CallPrint (pre "to_string_" (fst o)) 2 first :: print_oneofs false rest end.
Definition print_body (fields : list field) (oneofs : list (text * list field)) : list stmt :=
  print_fields true fields ++ print_oneofs (match fields with [] => true | _ => false end) oneofs.
(** templates/TypeOneof.h:142-160  to_string_<oneof>(str, indent_level, first_field) *)
Definition print_oneof_body (o : text * list field) : list stmt :=
  [Switch (NVar (which_name (fst o)))
     (concat (map (fun f => [Case (id_name f); Print (place (Some (fst o)) f) (name_constant (f_name f)) 0 None; Break]) (snd o)) ++ [Default; Break])].

(** Field.py:126-127 *)
Definition allocation_required (f : field) : bool := match f_class f with FieldEnum _ => false | _ => true end.
(** templates/TypeOneof.h:52-80  init_<oneof>(field_id) *)
Definition init_body (o : text * list field) : list stmt :=
  If (CNeNum (NEnum (chars "NOT_SET")) (NVar (which_name (fst o)))) [Call (pre "clear_" (fst o)) NoArgs] []
  :: (if existsb allocation_required (snd o)
      then [Switch NFieldId
              (concat (map (fun f => if allocation_required f then [Case (id_name f); New (place (Some (fst o)) f); Break] else []) (snd o))
               ++ [Default; Break])]
      else [])
  ++ [SetWhich (which_name (fst o)) NFieldId].
(** templates/TypeOneof.h:84-105  clear_<oneof>(); the last branch, set(0), is for fields that need no allocation and
    are no enums, of which there are none. *)
Definition clear_oneof_body (o : text * list field) : list stmt :=
  [Switch (NVar (which_name (fst o)))
     (concat (map (fun f => [Case (id_name f);
                             (if allocation_required f then Destroy (place (Some (fst o)) f) else SetDefault (place (Some (fst o)) f));
                             Break]) (snd o))
      ++ [Default; Break]);
   SetWhich (which_name (fst o)) (NEnum (chars "NOT_SET"))].
(** templates/TypeOneof.h:109-138  deserialize_<oneof>(field_id, buffer, wire_type) *)
Definition deserialize_oneof_body (o : text * list field) : list stmt :=
  [If (CNeNum NFieldId (NVar (which_name (fst o)))) [Call (pre "init_" (fst o)) (ANumber NFieldId)] [];
   Switch (NVar (which_name (fst o)))
     (concat (map (fun f => Case (id_name f) :: deserialize_field (Some (fst o)) f ++ [Break]) (snd o)) ++ [Default; Break]);
   If (CNeErr (EConst NoErrors) EReturn) [Call (pre "clear_" (fst o)) NoArgs] []].

(** The accessors of a field, templates/*_GetSet.h. [select]: init_ unless this member is the selected one (FieldBasic_GetSet.h:46-49). *)
Definition select (o : text) (f : field) : list stmt :=
  [If (CNeNum (NEnum (id_name f)) (NVar (which_name o))) [Call (pre "init_" o) (ANumber (NEnum (id_name f)))] []].
(** What mutable_n() and set_n() do before they use the variable. *)
Definition prepare (oneof : option text) (f : field) : list stmt :=
  match oneof with
  | Some o => select o f
  | None => if f_optional f then [SetPresence (upper (f_name f))] else []
  end.
(** FieldBasic_GetSet.h:32-35,60-63 and the same lines of the other templates. *)
Definition has_code (oneof : option text) (f : field) : func :=
  Test (match oneof with Some o => CEqNum (NEnum (id_name f)) (NVar (which_name o)) | None => CPresent (upper (f_name f)) end).
(** FieldBasic_GetSet.h:36-43,64-68,86; in FieldEnum_GetSet.h:36-43 a member of a oneof is cleared, not destroyed. *)
Definition clear_code (oneof : option text) (f : field) : list stmt :=
  match f_class f, oneof with
  | FieldErrorRecursive, _ => []
  | c, Some o =>
      [If (CEqNum (NEnum (id_name f)) (NVar (which_name o)))
         [SetWhich (which_name o) (NEnum (chars "NOT_SET"));
          match c with FieldEnum _ => ClearVar (place oneof f) | _ => Destroy (place oneof f) end] []]
  | _, None => (if f_optional f then [ClearPresence (upper (f_name f))] else []) ++ [ClearVar (place oneof f)]
  end.
(** FieldBasic_GetSet.h:44-51,69-73,87; strings and bytes call set(), FieldString_GetSet.h:52-59,75-79,83. *)
Definition set_code (oneof : option text) (f : field) : list stmt :=
  match f_class f with
  | FieldErrorRecursive => []
  | FieldString _ | FieldBytes _ => prepare oneof f ++ [CallSet (place oneof f)]
  | _ => prepare oneof f ++ [Assign (place oneof f)]
  end.
(** The functions of a field, by number of parameters and name. Repeated fields (never in a oneof):
    FieldRepeated_GetSet.h:85-93. FieldEnum_GetSet.h has no mutable_n(), FieldBasic_GetSet.h not in a oneof. *)
Definition field_functions (oneof : option text) (f : field) : list (nat * text * func) :=
  let n := f_name f in let x := place oneof f in
  (if has_presence oneof f then [(0%nat, pre "has_" n, has_code oneof f)] else [])
  ++ [(0%nat, pre "clear_" n, Body (clear_code oneof f)); (1%nat, pre "set_" n, Body (set_code oneof f));
      (0%nat, pre "get_" n, match f_class f with FieldErrorRecursive => GetZero | _ => Get x end)]
  ++ match f_class f with
     | FieldErrorRecursive | FieldEnum _ => []
     | FieldBasic _ => match oneof with None => [(0%nat, pre "mutable_" n, Mutable (prepare oneof f) x)] | Some _ => [] end
     | FieldRepeated _ _ =>
         [(0%nat, pre "mutable_" n, Mutable [] x); (2%nat, pre "set_" n, Body [CallSetAt x]); (1%nat, pre "add_" n, Body [CallAdd x])]
     | _ => [(0%nat, pre "mutable_" n, Mutable (prepare oneof f) x)]
     end.
Definition oneof_functions (o : text * list field) : list (nat * text * func) :=
  (0%nat, pre "get_which_" (fst o), GetNumber (which_name (fst o)))
  :: concat (map (field_functions (Some (fst o))) (snd o))
  ++ [(1%nat, pre "init_" (fst o), Body (init_body o)); (0%nat, pre "clear_" (fst o), Body (clear_oneof_body o));
      (3%nat, pre "deserialize_" (fst o), Body (deserialize_oneof_body o)); (3%nat, pre "to_string_" (fst o), Body (print_oneof_body o))].
Definition functions (fields : list field) (oneofs : list (text * list field)) : list (nat * text * func) :=
  concat (map (field_functions None) fields) ++ concat (map oneof_functions oneofs).

(** ** The class in C++: what the names stand for *)

(** What a class declares, as far as the functions use it; the line numbers are those of templates/TypeDefMsg.h. *)
Record code : Type := {
  c_numbers : list (text * Z);                       (* enum class FieldNumber, templates/TypeDefMsg.h:92-98 *)
  c_presence : list text;                            (* enum class presence::fields, 361-367 *)
  c_constants : list (text * text);                  (* static constexpr char const* X_NAME, templates/*_GetSet.h:30 *)
  c_types : list (text * oty);                       (* the member variables, 395-401 *)
  c_unions : list (text * list (text * ety));        (* the unions, 403-415 *)
  c_functions : list (nat * text * func)
}.

(** enum class FieldNumber (templates/TypeDefMsg.h:92-98), the member variables (395-401) and the unions (403-415).
    *)
Definition numbers_of (fields : list field) (oneofs : list (text * list field)) : list (text * Z) :=
  (chars "NOT_SET", 0) :: map (fun f => (id_name f, f_number f)) (fields ++ concat (map snd oneofs)).
Definition variables_of (fields : list field) (fs : list fdesc) : list (text * oty) :=
  concat (map (fun '(f, (_, k, t)) => if recursive f then [] else [(variable_name (f_name f), oty_of k t)]) (combine fields fs)).
Definition union_of (o : text * list field) (ms : odesc) : text * list (text * ety) :=
  (variable_name (fst o), map (fun '(f, (_, t)) => (variable_name (f_name f), t)) (combine (snd o) ms)).
(** The class that is generated for [d], the types of its variables being those of [fs] and [os]. *)
Definition class_of (d : mdef) (fs : list fdesc) (os : list odesc) : code :=
  let 'MDef _ _ _ fields oneofs := d in
  {| c_numbers := numbers_of fields oneofs;
     c_presence := presence_fields d;
     c_constants := map (fun f => (name_constant (f_name f), f_name f)) (fields ++ concat (map snd oneofs));
     c_types := variables_of fields fs;
     c_unions := map (fun '(o, ms) => union_of o ms) (combine oneofs os);
     c_functions := functions fields oneofs |}.

(** ** Running statements *)

(** A variable of an object: a field, a which_ variable, a union with its active member ([]: none) and what it holds. *)
Inductive cell : Type := CField (v : value) | CNumber (n : Z) | CUnion (active : text) (v : value).
Record object : Type := { ob_presence : list Z; ob_cells : list (text * cell) }.

(** Finding what a name stands for, and assigning to a variable. *)
Fixpoint look {A} (n : text) (l : list (text * A)) : option A :=
  match l with [] => None | (m, a) :: l' => if text_eqb m n then Some a else look n l' end.
Fixpoint put {A} (n : text) (a : A) (l : list (text * A)) : list (text * A) :=
  match l with [] => [] | (m, b) :: l' => if text_eqb m n then (m, a) :: l' else (m, b) :: put n a l' end.
Fixpoint look_function (arity : nat) (n : text) (l : list (nat * text * func)) : option func :=
  match l with [] => None | (k, m, f) :: l' => if Nat.eqb k arity && text_eqb m n then Some f else look_function arity n l' end.
Fixpoint index_of (n : text) (l : list text) : option Z :=
  match l with [] => None | m :: l' => if text_eqb m n then Some 0 else option_map (Z.add 1) (index_of n l') end.
(** A name that is not declared is a compilation error, here UB like every other error. *)
Definition get {A} (o : option A) : res A := match o with Some a => Done a | None => UB end.

(** Reading a member of a union that is not the active one gives nothing useful. *)
Definition read (ob : object) (x : lvalue) : res value :=
  match x with
  | Var n => match look n (ob_cells ob) with Some (CField v) => Done v | _ => UB end
  | Member o n => match look o (ob_cells ob) with Some (CUnion a v) => Done (if text_eqb a n then v else VIndet) | _ => UB end
  end.
Definition with_cell (ob : object) (n : text) (c : cell) : object :=
  {| ob_presence := ob_presence ob; ob_cells := put n c (ob_cells ob) |}.
Definition with_presence (ob : object) (p : list Z) : object := {| ob_presence := p; ob_cells := ob_cells ob |}.
Definition write (ob : object) (x : lvalue) (v : value) : object :=
  match x with Var n => with_cell ob n (CField v) | Member o n => with_cell ob o (CUnion n v) end.
Definition read_number (ob : object) (w : text) : res Z :=
  match look w (ob_cells ob) with Some (CNumber n) => Done n | _ => UB end.

(** The local variables and parameters; "value" and "rhs" of a setter are both [fr_value]. *)
Record frame : Type := {
  fr_return : err; fr_tag : err; fr_wire : wiretype; fr_number : Z; fr_id_tag : Z;
  fr_field_id : Z; fr_value : value; fr_index : Z; fr_rhs : object; fr_name : text; fr_indent : Z; fr_first : bool
}.
(** templates/TypeDefMsg.h:161,186-189 and TypeOneof.h:114: the initial values. *)
Definition nothing : object := {| ob_presence := []; ob_cells := [] |}.
Definition no_frame : frame :=
  {| fr_return := NoErrors; fr_tag := NoErrors; fr_wire := VARINT; fr_number := 0; fr_id_tag := 0;
     fr_field_id := 0; fr_value := VIndet; fr_index := 0; fr_rhs := nothing; fr_name := [];
     fr_indent := 0; fr_first := true |}.
Definition set_return (fr : frame) (e : err) : frame :=
  {| fr_return := e; fr_tag := fr_tag fr; fr_wire := fr_wire fr; fr_number := fr_number fr; fr_id_tag := fr_id_tag fr;
     fr_field_id := fr_field_id fr; fr_value := fr_value fr; fr_index := fr_index fr; fr_rhs := fr_rhs fr; fr_name := fr_name fr;
     fr_indent := fr_indent fr; fr_first := fr_first fr |}.
Definition set_tag (fr : frame) (e : err) (w : wiretype) (n : Z) : frame :=
  {| fr_return := fr_return fr; fr_tag := e; fr_wire := w; fr_number := n; fr_id_tag := fr_id_tag fr;
     fr_field_id := fr_field_id fr; fr_value := fr_value fr; fr_index := fr_index fr; fr_rhs := fr_rhs fr; fr_name := fr_name fr;
     fr_indent := fr_indent fr; fr_first := fr_first fr |}.
Definition set_id_tag (fr : frame) (n : Z) : frame :=
  {| fr_return := fr_return fr; fr_tag := fr_tag fr; fr_wire := fr_wire fr; fr_number := fr_number fr; fr_id_tag := n;
     fr_field_id := fr_field_id fr; fr_value := fr_value fr; fr_index := fr_index fr; fr_rhs := fr_rhs fr; fr_name := fr_name fr;
     fr_indent := fr_indent fr; fr_first := fr_first fr |}.
Definition set_name (fr : frame) (t : text) : frame :=
  {| fr_return := fr_return fr; fr_tag := fr_tag fr; fr_wire := fr_wire fr; fr_number := fr_number fr; fr_id_tag := fr_id_tag fr;
     fr_field_id := fr_field_id fr; fr_value := fr_value fr; fr_index := fr_index fr; fr_rhs := fr_rhs fr; fr_name := t;
     fr_indent := fr_indent fr; fr_first := fr_first fr |}.
Definition with_value (v : value) : frame :=
  {| fr_return := NoErrors; fr_tag := NoErrors; fr_wire := VARINT; fr_number := 0; fr_id_tag := 0;
     fr_field_id := 0; fr_value := v; fr_index := 0; fr_rhs := nothing; fr_name := [];
     fr_indent := 0; fr_first := true |}.
Definition with_index (i : Z) (v : value) : frame :=
  {| fr_return := NoErrors; fr_tag := NoErrors; fr_wire := VARINT; fr_number := 0; fr_id_tag := 0;
     fr_field_id := 0; fr_value := v; fr_index := i; fr_rhs := nothing; fr_name := [];
     fr_indent := 0; fr_first := true |}.
Definition with_field_id (n : Z) (w : wiretype) : frame :=
  {| fr_return := NoErrors; fr_tag := NoErrors; fr_wire := w; fr_number := 0; fr_id_tag := 0;
     fr_field_id := n; fr_value := VIndet; fr_index := 0; fr_rhs := nothing; fr_name := [];
     fr_indent := 0; fr_first := true |}.
Definition with_rhs (ob : object) : frame :=
  {| fr_return := NoErrors; fr_tag := NoErrors; fr_wire := VARINT; fr_number := 0; fr_id_tag := 0;
     fr_field_id := 0; fr_value := VIndet; fr_index := 0; fr_rhs := ob; fr_name := [];
     fr_indent := 0; fr_first := true |}.
Definition with_indent (n : Z) (first : bool) : frame :=
  {| fr_return := NoErrors; fr_tag := NoErrors; fr_wire := VARINT; fr_number := 0; fr_id_tag := 0;
     fr_field_id := 0; fr_value := VIndet; fr_index := 0; fr_rhs := nothing; fr_name := [];
     fr_indent := n; fr_first := first |}.

(** The buffer that the function has; for to_string() the methods to_string() of the variables: variable, type, value, indent
    level, name, first_field. *)
Inductive buffer (S : Type) : Type :=
| Writing (W : wops S) | Reading (R : rops S) | Printing (p : lvalue -> oty -> value -> Z -> text -> bool -> S -> res S) | NoBuffer.
Arguments Writing {S} W.
Arguments Printing {S} p.
Arguments Reading {S} R.
Arguments NoBuffer {S}.

(** Methods of a member variable of type [ty]. *)
Definition var_serialize (ty : oty) (v : value) (num : Z) (flag : bool) : serializer := fun S W s =>
  match ty with
  | OElem t => elem_serialize_with_id t (serialize t) v num flag S W s
  | ORep _ t => rep_serialize_with_id t (serialize t) v num flag S W s
  end.
Definition var_check_type (fuel : nat) (ty : oty) (w : wiretype) : deserializer := fun S R v s =>
  match ty with
  | OElem t => elem_deserialize_check_type t (deserialize fuel t) w S R v s
  | ORep _ t => rep_deserialize_check_type fuel t (deserialize fuel t) w S R v s
  end.
Definition var_clear (ty : oty) (v : value) : res value :=
  match ty with OElem t => clear t v | ORep _ t => rep_clear (clear t) v end.
Definition var_assign (ty : oty) (dst src : value) : res value :=
  match ty with OElem t => assign t dst src | ORep _ t => rep_assign (assign t) dst src end.
Definition var_set (ty : oty) (dst src : value) : res value :=
  match ty with OElem (EBytes _ _) => let* (_, v) := bytes_set_from dst src in Done v | _ => UB end.
Definition var_set_at (ty : oty) (v : value) (i : Z) (x : value) : res value :=
  match ty with ORep _ t => let* (_, v') := rep_set (assign t) v i x in Done v' | _ => UB end.
Definition var_add (ty : oty) (v x : value) : res value :=
  match ty with ORep _ t => let* (_, v') := rep_add (assign t) v x in Done v' | _ => UB end.
Definition var_differs (ty : oty) (v : value) : res bool :=
  match ty, v with OElem (EScalar sc), VS z => Done (scalar_differs_from_default sc z) | _, _ => UB end.

Lemma err_dec (a b : err) : {a = b} + {a <> b}.
Proof. decide equality. Defined.

Section Run.
Context (c : code).

(** The class of a variable or of a member of a union (395-415), the values of FieldNumber (92-98) and of
    presence::fields (361-367). *)
Definition type_of (x : lvalue) : res oty :=
  match x with
  | Var n => get (look n (c_types c))
  | Member o n => let* ms := get (look o (c_unions c)) in let* t := get (look n ms) in Done (OElem t)
  end.
Definition enum_value (e : text) : res Z := get (look e (c_numbers c)).
Definition presence_value (p : text) : res Z := get (index_of p (c_presence c)).

(** The values of the expressions above; rhs.get_which_o() and get_n() are calls of the functions in
    templates/TypeDefMsg.h:151 and templates/*_GetSet.h. *)
Definition error_of (fr : frame) (e : error_value) : err :=
  match e with EReturn => fr_return fr | ETag => fr_tag fr | EConst e => e end.
Definition number_of (fr : frame) (ob : object) (n : number) : res Z :=
  match n with
  | NEnum e => enum_value e
  | NVar w => read_number ob w
  | NFieldId => Done (fr_field_id fr)
  | NIdTag => Done (fr_id_tag fr)
  | NRhs g => match look_function 0 g (c_functions c) with Some (GetNumber w) => read_number (fr_rhs fr) w | _ => UB end
  end.
Definition get_of (ob : object) (g : text) : res value :=
  match look_function 0 g (c_functions c) with Some (Get x) => read ob x | Some GetZero => Done (VS 0) | _ => UB end.

(** Conditions; && does not evaluate its second part when the first is false. [has]: calling a function. *)
Fixpoint holds (has : object -> text -> res bool) (fr : frame) (ob : object) (q : cond) : res bool :=
  match q with
  | CEqErr a b => Done (if err_dec (error_of fr a) (error_of fr b) then true else false)
  | CNeErr a b => Done (if err_dec (error_of fr a) (error_of fr b) then false else true)
  | CEqNum a b => let* x := number_of fr ob a in let* y := number_of fr ob b in Done (x =? y)
  | CNeNum a b => let* x := number_of fr ob a in let* y := number_of fr ob b in Done (negb (x =? y))
  | CAnd a b => let* x := holds has fr ob a in if x then holds has fr ob b else Done false
  | CHas of_rhs f => has (if of_rhs then fr_rhs fr else ob) f
  | CPresent p => let* i := presence_value p in presence_has (ob_presence ob) i
  | CDiffers x => let* ty := type_of x in let* v := read ob x in var_differs ty v
  end.
Definition call_has (ob : object) (f : text) : res bool :=
  match look_function 0 f (c_functions c) with Some (Test q) => holds (fun _ _ => UB) no_frame ob q | _ => UB end.
Definition true_now (fr : frame) (ob : object) (q : cond) : res bool := holds call_has fr ob q.

Section Buffer.
Context {S : Type} (b : buffer S) (fuel : nat).
(** Calling a function of the class: number of arguments, name, its parameters. *)
Context (call : nat -> text -> frame -> object -> S -> res (frame * object * S)).

(** The state of a function that is running: parameters and local variables, the object, the buffer. *)
Definition state : Type := frame * object * S.

(** The calls of the library whose result is assigned to return_value, with the functions of Fields.v and Message.v.
    *)
Definition result_of (r : result) (fr : frame) (ob : object) (s : S) : res (err * object * S) :=
  match r with
  | RConst e => Done (e, ob, s)
  | RTag => Done (fr_tag fr, ob, s)
  | RSerialize x e flag =>
      let* ty := type_of x in let* v := read ob x in let* num := enum_value e in
      match b with Writing W => let* (e', s') := var_serialize ty v num flag S W s in Done (e', ob, s') | _ => UB end
  | RCheckType x =>
      let* ty := type_of x in let* v := read ob x in
      match b with
      | Reading R => let* (e', v', s') := var_check_type fuel ty (fr_wire fr) S R v s in Done (e', write ob x v', s')
      | _ => UB
      end
  | RSkip => match b with Reading R => let* (e', s') := skip_unknown_field (fr_wire fr) R s in Done (e', ob, s') | _ => UB end
  | RCall f =>
      let* (fr', ob', s') := call 3 f (with_field_id (fr_id_tag fr) (fr_wire fr)) ob s in Done (fr_return fr', ob', s')
  end.

(** A method that changes the variable [x]. *)
Definition change (x : lvalue) (m : oty -> value -> res value) (fr : frame) (ob : object) (s : S) : res (bool * state) :=
  let* ty := type_of x in let* v := read ob x in let* v' := m ty v in Done (false, (fr, write ob x v', s)).

(** The label that a switch goes to. *)
Definition is_case (z : Z) (q : stmt) : bool := match q with Case e => match look e (c_numbers c) with Some y => z =? y | None => false end | _ => false end.
Definition is_default (q : stmt) : bool := match q with Default => true | _ => false end.

(** One statement; the bool says that a break was met. While loops take at most [fuel] turns. *)
Fixpoint run (q : stmt) (st : state) {struct q} : res (bool * state) :=
  let '(fr, ob, s) := st in
  match q with
  | If k yes no =>
      let* x := true_now fr ob k in
      (fix run_list (l : list stmt) (st : state) : res (bool * state) :=
         match l with
         | [] => Done (false, st)
         | q' :: l' => let* (broke, st') := run q' st in if broke : bool then Done (true, st') else run_list l' st'
         end) (if x then yes else no) st
  | While k body =>
      (fix turns (n : nat) (st : state) {struct n} : res (bool * state) :=
         let '(fr, ob, s) := st in
         let* x := true_now fr ob k in
         if x : bool then
           match n with
           | O => Fuel
           | Datatypes.S n' =>
               let* (broke, st') :=
                 (fix run_list (l : list stmt) (st : state) : res (bool * state) :=
                    match l with
                    | [] => Done (false, st)
                    | q' :: l' => let* (broke, st') := run q' st in if broke : bool then Done (true, st') else run_list l' st'
                    end) body st in
               if broke : bool then Done (false, st') else turns n' st'
           end
         else Done (false, st)) fuel st
  | Switch n body =>
      let* z := number_of fr ob n in
      let target := if existsb (is_case z) body then is_case z else is_default in
      let* st' :=
        (fix run_from (running : bool) (l : list stmt) (st : state) : res state :=
           match l with
           | [] => Done st
           | q' :: l' =>
               if running : bool then let* (broke, st') := run q' st in if broke : bool then Done st' else run_from true l' st'
               else run_from (target q') l' st
           end) false body st in
      Done (false, st')
  | Case _ | Default => Done (false, st)
  | Break => Done (true, st)
  | SetReturn r => let* (e, ob', s') := result_of r fr ob s in Done (false, (set_return fr e, ob', s'))
  | ReadTag =>
      match b with
      | Reading R =>
          let* (e, ot, s') := DeserializeTag R s in
          Done (false, (match ot with Some (w, n) => set_tag fr e w n | None => set_tag fr e (fr_wire fr) (fr_number fr) end, ob, s'))
      | _ => UB
      end
  | SetIdTag => Done (false, (set_id_tag fr (fr_number fr), ob, s))
  | SetPresence p =>
      let* i := presence_value p in let* ps := presence_set (ob_presence ob) i in Done (false, (fr, with_presence ob ps, s))
  | ClearPresence p =>
      let* i := presence_value p in let* ps := presence_clear (ob_presence ob) i in Done (false, (fr, with_presence ob ps, s))
  | SetWhich w n =>
      let* z := number_of fr ob n in let* _ := read_number ob w in Done (false, (fr, with_cell ob w (CNumber z), s))
  | New x => change x (fun ty _ => match ty with OElem t => Done (placement_new t) | ORep _ _ => UB end) fr ob s
  | Destroy x => change x (fun _ _ => Done VIndet) fr ob s
  | SetDefault x => change x (fun _ _ => Done (VS 0)) fr ob s
  | ClearVar x => change x var_clear fr ob s
  | Assign x => change x (fun ty v => var_assign ty v (fr_value fr)) fr ob s
  | CallSet x => change x (fun ty v => var_set ty v (fr_value fr)) fr ob s
  | CallSetAt x => change x (fun ty v => var_set_at ty v (fr_index fr) (fr_value fr)) fr ob s
  | CallAdd x => change x (fun ty v => var_add ty v (fr_value fr)) fr ob s
  | Call f a =>
      let* (arity, fr') := (match a with
                            | NoArgs => Done (0%nat, no_frame)
                            | ANumber n => let* z := number_of fr ob n in Done (1%nat, with_field_id z VARINT)
                            | AGet g => let* v := get_of (fr_rhs fr) g in Done (1%nat, with_value v)
                            end) in
      let* (_, ob', s') := call arity f fr' ob s in Done (false, (fr, ob', s'))
  | SetName k => let* t := get (look k (c_constants c)) in Done (false, (set_name fr t, ob, s))
  | SetNameTo t => Done (false, (set_name fr t, ob, s))
  | Print x k deeper first =>
      let* ty := type_of x in let* v := read ob x in let* t := get (look k (c_constants c)) in
      match b with
      | Printing p =>
          let* s' := p x ty v (u32 (fr_indent fr + deeper)) t (match first with Some y => y | None => fr_first fr end) s in Done (false, (fr, ob, s'))
      | _ => UB
      end
  | CallPrint f deeper first =>
      let* (_, ob', s') := call 3%nat f (with_indent (u32 (fr_indent fr + deeper)) first) ob s in Done (false, (fr, ob', s'))
  end.

(** Statements one after the other up to a break. *)
Fixpoint run_list (l : list stmt) (st : state) : res (bool * state) :=
  match l with
  | [] => Done (false, st)
  | q :: l' => let* (broke, st') := run q st in if broke : bool then Done (true, st') else run_list l' st'
  end.
End Buffer.

(** Calls, at most [depth] deep. *)
Fixpoint invoke {S} (b : buffer S) (fuel depth : nat) (arity : nat) (f : text) (fr : frame) (ob : object) (s : S) : res (frame * object * S) :=
  match depth with
  | O => Fuel
  | Datatypes.S depth' =>
      match look_function arity f (c_functions c) with
      | Some (Body l) | Some (Mutable l _) =>
          let* (_, st) := run_list b fuel (invoke b fuel depth') l (fr, ob, s) in Done st
      | _ => UB
      end
  end.
(** A body, and the calls in it. No function calls itself: 4 is enough. *)
Definition execute {S} (b : buffer S) (fuel : nat) (l : list stmt) (fr : frame) (ob : object) (s : S) : res (frame * object * S) :=
  let* (_, st) := run_list b fuel (invoke b fuel 4) l (fr, ob, s) in Done st.

End Run.

(** The functions of a class. *)
Definition fields_of (d : mdef) : list field := let 'MDef _ _ _ fields _ := d in fields.
Definition oneofs_of (d : mdef) : list (text * list field) := let 'MDef _ _ _ _ oneofs := d in oneofs.

(** templates/TypeDefMsg.h:159-182 serialize(), 184-236 deserialize(), 238-247 clear(), 100-121 operator=, 249-272
    field_number_to_name(). *)
Definition code_serialize (d : mdef) (fs : list fdesc) (os : list odesc) (ob : object) : serializer := fun S W s =>
  let* (fr, _, s') := execute (class_of d fs os) (Writing W) 0 (serialize_body (fields_of d) (oneofs_of d)) no_frame ob s in
  Done (fr_return fr, s').
Definition code_deserialize (fuel : nat) (d : mdef) (fs : list fdesc) (os : list odesc) {S} (R : rops S) (ob : object) (s : S)
  : res (err * object * S) :=
  let* (fr, ob', s') := execute (class_of d fs os) (Reading R) fuel (deserialize_body (fields_of d) (oneofs_of d)) no_frame ob s in
  Done (fr_return fr, ob', s').
Definition code_clear (d : mdef) (fs : list fdesc) (os : list odesc) (ob : object) : res object :=
  let* (_, ob', _) := execute (class_of d fs os) NoBuffer 0 (clear_body (fields_of d) (oneofs_of d)) no_frame ob tt in Done ob'.
Definition code_assign (d : mdef) (fs : list fdesc) (os : list odesc) (ob rhs : object) : res object :=
  let* (_, ob', _) := execute (class_of d fs os) NoBuffer 0 (assign_body (fields_of d) (oneofs_of d)) (with_rhs rhs) ob tt in Done ob'.
Definition code_name (d : mdef) (fs : list fdesc) (os : list odesc) (n : Z) : res text :=
  let* (fr, _, _) := execute (class_of d fs os) NoBuffer 0 (name_body (fields_of d) (oneofs_of d)) (with_field_id n VARINT) nothing tt in
  Done (fr_name fr).
(** A function that is called from outside, by name. *)
Definition code_call (d : mdef) (fs : list fdesc) (os : list odesc) (arity : nat) (f : text) (fr : frame) (ob : object) : res object :=
  let* (_, ob', _) := invoke (class_of d fs os) NoBuffer 0 4 arity f fr ob tt in Done ob'.
(** The functions has_n(), get_n() and get_which_o(), by name. *)
Definition code_has (d : mdef) (fs : list fdesc) (os : list odesc) (ob : object) (f : text) : res bool := call_has (class_of d fs os) ob f.
Definition code_get (d : mdef) (fs : list fdesc) (os : list odesc) (ob : object) (f : text) : res value := get_of (class_of d fs os) ob f.
Definition code_which (d : mdef) (fs : list fdesc) (os : list odesc) (ob : object) (f : text) : res Z :=
  number_of (class_of d fs os) (with_rhs ob) ob (NRhs f).
(** Writing through the reference that mutable_n() returns: the method [o] of the member. *)
Definition code_through (fuel : nat) (d : mdef) (fs : list fdesc) (os : list odesc) (f : text) (o : op) (ob : object) : res object :=
  match look_function 0 f (c_functions (class_of d fs os)) with
  | Some (Mutable l x) =>
      let* (_, ob', _) := execute (class_of d fs os) (@NoBuffer unit) 0 l no_frame ob tt in
      let* ty := type_of (class_of d fs os) x in let* v := read ob' x in let* (_, v') := run_op fuel o ty v in Done (write ob' x v')
  | _ => UB
  end.

(** to_string(), templates/TypeDefMsg.h:280-350: the text around the fields is that of ToString.v. The names of the fields of
    nested messages are constants of their classes; as in ToString.v they are found by a path of numbers. [number_of_name]: the
    number of the field with a variable. *)
Definition number_of_name (d : mdef) (x : lvalue) : res Z :=
  let names l := map (fun f => (variable_name (f_name f), f_number f)) l in
  match x with
  | Var n => get (look n (names (filter (fun f => negb (recursive f)) (fields_of d))))
  | Member o n => let* l := get (look o (map (fun o => (variable_name (fst o), snd o)) (oneofs_of d))) in get (look n (names l))
  end.
Definition var_to_string (fmt : scalar -> Z -> list Z) (nm : list Z -> list Z) (path : list Z) (ty : oty) (v : value) (st : sstate)
    (indent_level : Z) (name : text) (first_field : bool) : res sstate :=
  match ty with
  | OElem t => elem_to_string fmt nm t path v st indent_level (Some name) first_field
  | ORep _ t => rep_to_string (elem_to_string fmt nm t path) v st indent_level (Some name) first_field
  end.
Definition code_to_string (fmt : scalar -> Z -> list Z) (nm : list Z -> list Z) (path : list Z) (d : mdef) (fs : list fdesc) (os : list odesc)
    (ob : object) (st : sstate) (indent_level : Z) (name : option text) (first_field : bool) : res sstate :=
  let p x ty v indent n first s := let* num := number_of_name d x in var_to_string fmt nm (path ++ [num]) ty v s indent n first in
  let* st1 := put_comma first_field st in
  let* (_, st2) := ToString.put (msg_start_text indent_level name) st1 in
  let* (_, _, st3) := execute (class_of d fs os) (Printing p) 0 (print_body (fields_of d) (oneofs_of d)) (with_indent indent_level first_field) ob st2 in
  let* (_, st4) := ToString.put (msg_end_text indent_level) st3 in
  Done st4.

(** The default constructor: the initialisers in the class, templates/TypeDefMsg.h:392-415. The constructor of a union does nothing. *)
Definition new_object (d : mdef) (fs : list fdesc) (os : list odesc) : object :=
  {| ob_presence := zrepeat 0 (presence_size (zlen (presence_fields d)));
     ob_cells := map (fun '(x, ty) => (x, CField (construct ty))) (variables_of (fields_of d) fs)
                 ++ concat (map (fun o => [(which_name (fst o), CNumber 0); (variable_name (fst o), CUnion [] VIndet)]) (oneofs_of d)) |}.
(** The copy constructor, templates/TypeDefMsg.h:38-58: the statements of operator=, in an object that is new. *)
Definition code_copy (d : mdef) (fs : list fdesc) (os : list odesc) (rhs : object) : res object :=
  code_assign d fs os (new_object d fs os) rhs.
