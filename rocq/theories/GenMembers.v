(** * GenMembers: the names that a generated class declares and the names that its functions use.

    Only names are modelled here, not the bodies of the functions. A parameter is written as its type, with T
    for the type that the field has: functions with the same name and such a parameter belong to the same field. *)
From Coq Require Import String.
From Verif Require Import Base Schema Printf Generator.
From Coq Require Import List.

(** A variable (also a static constant), a function with its parameters and whether it is const, a type. *)
Inductive dkind : Type :=
| DVar
| DFun (params : list text) (const : bool)
| DType.
Definition decl : Type := text * dkind.

(** Python's str.upper and Jinja's upper filter, for the ASCII characters of identifiers. *)
Definition upper_char (c : Z) : Z := if (97 <=? c) && (c <=? 122) then c - 32 else c.
Definition upper (n : text) : text := map upper_char n.

(** Field.py:52,53 and templates/*_GetSet.h:30-31. *)
Definition variable_name (n : text) : text := n ++ chars "_".
Definition variable_id_name (n : text) : text := upper n.
Definition name_constant (n : text) : text := upper n ++ chars "_NAME".

(** A function whose name is the text [p] of a template followed by the name of a field or oneof. *)
Definition prefixed (p : string) (n : text) (params : list string) (const : bool) : decl :=
  (chars p ++ n, DFun (map chars params) const).

(** The accessors of a field; [oneof]: the field is a member of a oneof. *)
Definition has_ (n : text) : list decl := [prefixed "has_" n [] true].
Definition clear_ (n : text) : list decl := [prefixed "clear_" n [] false].
Definition set_ (n : text) : list decl := [prefixed "set_" n ["const T&"%string] false].
Definition set_moved (n : text) : list decl := [prefixed "set_" n ["const T&&"%string] false].
Definition mutable_ (n : text) : list decl := [prefixed "mutable_" n [] false].
Definition get_ (n : text) : list decl := [prefixed "get_" n [] true].
Definition plain (n : text) : list decl := [prefixed "" n [] true].

(** templates/FieldBasic_GetSet.h:31-92. *)
Definition basic_get_set (oneof optional : bool) (n : text) : list decl :=
  (if oneof then has_ n ++ clear_ n ++ set_ n ++ set_moved n
   else if optional then has_ n ++ clear_ n ++ set_ n ++ set_moved n ++ mutable_ n
   else clear_ n ++ set_ n ++ set_moved n ++ mutable_ n)
  ++ get_ n ++ plain n.
(** templates/FieldEnum_GetSet.h:31-86. *)
Definition enum_get_set (oneof optional : bool) (n : text) : list decl :=
  (if oneof then has_ n ++ clear_ n ++ set_ n ++ set_moved n
   else if optional then has_ n ++ clear_ n ++ set_ n ++ set_moved n
   else clear_ n ++ set_ n ++ set_moved n)
  ++ get_ n ++ plain n.
(** templates/FieldString_GetSet.h:31-86, templates/FieldBytes_GetSet.h:31-86. *)
Definition string_get_set (oneof optional : bool) (n : text) : list decl :=
  (if oneof then has_ n ++ clear_ n ++ mutable_ n ++ set_ n
   else if optional then has_ n ++ clear_ n ++ mutable_ n ++ set_ n
   else clear_ n ++ mutable_ n ++ set_ n)
  ++ get_ n ++ plain n.
(** templates/FieldMsg_GetSet.h:31-100. *)
Definition msg_get_set (oneof optional : bool) (n : text) : list decl :=
  (if oneof then has_ n ++ clear_ n ++ set_ n ++ set_moved n ++ mutable_ n
   else if optional then has_ n ++ clear_ n ++ set_ n ++ set_moved n ++ mutable_ n
   else clear_ n ++ set_ n ++ set_moved n ++ mutable_ n)
  ++ get_ n ++ plain n.
(** templates/FieldRepeated_GetSet.h:31-95. T is the type of the elements, L that of the list. *)
Definition repeated_get_set (oneof : bool) (n : text) : list decl :=
  (if oneof then
     has_ n ++ clear_ n
     ++ [prefixed "set_" n ["uint32_t"; "const T&"]%string false; prefixed "set_" n ["uint32_t"; "const T&&"]%string false;
         prefixed "set_" n ["const L&"%string] false; prefixed "add_" n ["const T&"%string] false]
     ++ mutable_ n
   else
     [prefixed "" n ["uint32_t"%string] true] ++ clear_ n
     ++ [prefixed "set_" n ["uint32_t"; "const T&"]%string false; prefixed "set_" n ["uint32_t"; "const T&&"]%string false;
         prefixed "set_" n ["const L&"%string] false; prefixed "add_" n ["const T&"%string] false]
     ++ mutable_ n ++ [prefixed "mutable_" n ["uint32_t"%string] false])
  ++ get_ n ++ plain n.
(** templates/FieldErrorRecursive_GetSet.h:32-36. *)
Definition recursive_get_set (n : text) : list decl :=
  clear_ n ++ set_ n ++ set_moved n ++ get_ n ++ plain n.

(** render_get_set of the classes of Field.py (236,304,326,388,473,541,564) and line 30 of the templates. *)
Definition get_set (oneof : bool) (f : field) : list decl :=
  (name_constant (f_name f), DVar)
  :: match f_class f with
     | FieldBasic _ => basic_get_set oneof (f_optional f) (f_name f)
     | FieldEnum _ => enum_get_set oneof (f_optional f) (f_name f)
     | FieldString _ | FieldBytes _ => string_get_set oneof (f_optional f) (f_name f)
     | FieldMessage _ => msg_get_set oneof (f_optional f) (f_name f)
     | FieldRepeated _ _ => repeated_get_set oneof (f_name f)
     | FieldErrorRecursive => recursive_get_set (f_name f)
     end.

(** Whether Field.factory made a FieldErrorRecursive, Field.py:68-70. *)
Definition recursive (f : field) : bool := match f_class f with FieldErrorRecursive => true | _ => false end.
(** The member variable; the type "//" of a recursive field makes it a comment (Field.py:561-562). *)
Definition member_variable (f : field) : list text := if recursive f then [] else [variable_name (f_name f)].

(** Oneof.py:52-56. *)
Definition which_name (o : text) : text := chars "which_" ++ o ++ chars "_".

(** The declarations at class scope, templates/TypeDefMsg.h:38-424 in that order. operator=, constructors and
    destructor have no name of their own. *)
Definition oneof_accessors (o : text * list field) : list decl :=
  prefixed "get_which_" (fst o) [] true :: concat (map (get_set true) (snd o)).
Definition oneof_private (o : text * list field) : list decl :=
  [(which_name (fst o), DVar); (fst o, DType); (variable_name (fst o), DVar);
   prefixed "init_" (fst o) ["FieldNumber"%string] false; prefixed "clear_" (fst o) [] false;
   prefixed "deserialize_" (fst o) ["FieldNumber"; "ReadBufferInterface&"; "WireType"]%string false;
   prefixed "to_string_" (fst o) ["string_view&"; "uint32_t"; "bool"]%string true].
Definition fixed_functions : list decl :=
  [prefixed "serialize" [] ["WriteBufferInterface&"%string] true; prefixed "deserialize" [] ["ReadBufferInterface&"%string] false;
   prefixed "clear" [] [] false; prefixed "field_number_to_name" [] ["FieldNumber"%string] false;
   prefixed "to_string" [] ["string_view&"%string] true;
   prefixed "to_string" [] ["string_view&"; "uint32_t"; "char const*"; "bool"]%string true].
Definition presence_decls (fields : list field) : list decl :=
  if existsb f_optional fields then [(chars "presence", DType); (chars "presence_", DVar)] else [].

(** All declarations of the class, templates/TypeDefMsg.h:38-424. *)
Definition class_decls (d : mdef) : list decl :=
  match d with
  | MDef _ nested enums fields oneofs =>
      map (fun e => (e, DType)) enums ++ map (fun d' => (d_name d', DType)) nested ++ [(chars "FieldNumber", DType)]
      ++ concat (map (get_set false) fields) ++ concat (map oneof_accessors oneofs)
      ++ fixed_functions ++ presence_decls fields
      ++ map (fun n => (n, DVar)) (concat (map member_variable fields)) ++ concat (map oneof_private oneofs)
  end.

(** The enumerators of FieldNumber, templates/TypeDefMsg.h:91-97 (sorted by number there), and of
    presence::fields, templates/TypeDefMsg.h:358-364. *)
Definition field_numbers (d : mdef) : list text :=
  match d with
  | MDef _ _ _ fields oneofs =>
      chars "NOT_SET" :: map (fun f => variable_id_name (f_name f)) (fields ++ concat (map snd oneofs))
  end.
Definition presence_fields (d : mdef) : list text :=
  match d with MDef _ _ _ fields _ => map (fun f => upper (f_name f)) (filter f_optional fields) end.
(** The members of the union of a oneof, templates/TypeDefMsg.h:405-414. *)
Definition union_members (o : text * list field) : list text := concat (map member_variable (snd o)).

(** What is named inside the functions. *)
Inductive use : Type :=
| Calls (on_const : bool) (n : text) (arguments : nat)   (* a member function of this object or of rhs *)
| Reads (n : text)                                       (* a member variable *)
| Selects (o : text) (n : text)                          (* o_.n_ *)
| Names (n : text)                                       (* a type of the class *)
| Outside (n : text).                                    (* something from outside the class *)

(** What get_variable_name (Field.py:103-108) stands for. *)
Definition variable (oneof : option text) (f : field) : use :=
  match oneof with
  | None => Reads (variable_name (f_name f))
  | Some o => Selects o (variable_name (f_name f))
  end.
Definition uses_has (f : field) : list use := [Calls true (chars "has_" ++ f_name f) 0].

(** Copying and assigning, templates/TypeDefMsg.h:38-87,99-143. *)
Definition copy_uses (f : field) : list use :=
  (if f_optional f then uses_has f ++ [Calls false (chars "clear_" ++ f_name f) 0] else [])
  ++ [Calls false (chars "set_" ++ f_name f) 1; Calls true (chars "get_" ++ f_name f) 0].
(** templates/TypeOneof.h:30-48. *)
Definition copy_oneof (o : text * list field) : list use :=
  [Calls true (chars "get_which_" ++ fst o) 0; Reads (which_name (fst o)); Calls false (chars "clear_" ++ fst o) 0]
  ++ concat (map (fun f => [Calls false (chars "set_" ++ f_name f) 1; Calls true (chars "get_" ++ f_name f) 0]) (snd o)).
(** The accessors, templates/*_GetSet.h: the variable, and of a oneof the selected member and init_. *)
Definition get_set_uses (oneof : option text) (f : field) : list use :=
  if recursive f then []
  else variable oneof f
       :: match oneof with
          | Some o => [Reads (which_name o); Calls false (chars "init_" ++ o) 1]
          | None => if f_optional f then [Reads (chars "presence_"); Names (chars "presence")] else []
          end.
(** templates/*_Serialize.h:30-37; of a repeated field without the test. *)
Definition serialize_uses (oneof : option text) (f : field) : list use :=
  match f_class f with
  | FieldErrorRecursive => []
  | FieldRepeated _ _ => [variable oneof f]
  | _ => (if f_optional f || match oneof with Some _ => true | None => false end then uses_has f else [])
         ++ [variable oneof f]
  end.
(** templates/*_Deserialize.h:30-33. *)
Definition deserialize_uses (oneof : option text) (f : field) : list use :=
  if recursive f then []
  else (if f_optional f then [Reads (chars "presence_"); Names (chars "presence")] else []) ++ [variable oneof f].
(** templates/TypeDefMsg.h:239-262,303-308: clear(), field_number_to_name() and to_string() of a field. *)
Definition other_uses (f : field) : list use :=
  [Calls false (chars "clear_" ++ f_name f) 0; Reads (name_constant (f_name f))]
  ++ (if recursive f then [] else [variable None f]).
(** templates/TypeOneof.h:52-160 and the calls in templates/TypeDefMsg.h: clear_, init_, deserialize_,
    to_string_ of a oneof. These do not look at whether a member is recursive, except deserialize_. *)
Definition oneof_uses (o : text * list field) : list use :=
  let n := fst o in
  copy_oneof o
  ++ concat (map (get_set_uses (Some n)) (snd o))
  ++ [Reads (which_name n)] ++ concat (map (serialize_uses (Some n)) (snd o))
  ++ [Calls false (chars "deserialize_" ++ n) 3] ++ concat (map (deserialize_uses (Some n)) (snd o))
  ++ [Calls false (chars "clear_" ++ n) 0] ++ map (fun f => Reads (name_constant (f_name f))) (snd o)
  ++ [Calls true (chars "to_string_" ++ n) 3] ++ map (variable (Some n)) (snd o)
  ++ [Names n; Calls false (chars "init_" ++ n) 1]
  ++ concat (map (fun f => match f_class f with FieldEnum _ => [] | _ => [variable (Some n) f] end) (snd o)).

(** The names from outside that every class uses: uint32_t (the type of FieldNumber), int32_t and snprintf (in
    to_string()), skip_unknown_field (inherited from MessageInterface), and the type of the accessors of a field
    (Field.py:189-201; float, double and bool are keywords). *)
Definition cstdint_type (sc : scalar) : list text :=
  match sc with
  | Int32 | SInt32 | SFixed32 => [chars "int32_t"]
  | Int64 | SInt64 | SFixed64 => [chars "int64_t"]
  | UInt32 | Fixed32 => [chars "uint32_t"]
  | UInt64 | Fixed64 => [chars "uint64_t"]
  | Boolean | Enumeration | FloatFixed | DoubleFixed => []
  end.
Definition outside_uses (f : field) : list use :=
  match f_class f with
  | FieldBasic sc => map Outside (cstdint_type sc)
  | FieldBytes _ | FieldErrorRecursive => [Outside (chars "uint8_t")]
  | _ => []
  end.

(** All of them. Simplification: every nested type is taken to be named by some field. *)
Definition named_uses (d : mdef) : list use :=
  match d with
  | MDef _ nested enums fields oneofs =>
      map Names enums ++ map (fun d' => Names (d_name d')) nested ++ [Names (chars "FieldNumber")]
      ++ map (fun n => Outside (chars n)) ["uint32_t"; "int32_t"; "snprintf"; "skip_unknown_field"]%string
      ++ concat (map outside_uses (fields ++ concat (map snd oneofs)))
      ++ concat (map (fun f => copy_uses f ++ get_set_uses None f ++ serialize_uses None f ++ deserialize_uses None f ++ other_uses f) fields)
      ++ concat (map oneof_uses oneofs)
  end.
