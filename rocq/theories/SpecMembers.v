(** * SpecMembers: the rules of C++ for the names declared in a class, and names that give no trouble. *)
From Coq Require Import String.
From Verif Require Import Base Schema Printf Generator SpecGenerator GenMembers.
From Coq Require Import List.

(** ** C++ *)

(** The keywords of C++11 and the alternative spellings of operators. *)
Definition keywords : list text := map chars
  ["alignas"; "alignof"; "and"; "and_eq"; "asm"; "auto"; "bitand"; "bitor"; "bool"; "break"; "case"; "catch"; "char";
   "char16_t"; "char32_t"; "class"; "compl"; "const"; "constexpr"; "const_cast"; "continue"; "decltype"; "default";
   "delete"; "do"; "double"; "dynamic_cast"; "else"; "enum"; "explicit"; "export"; "extern"; "false"; "float"; "for";
   "friend"; "goto"; "if"; "inline"; "int"; "long"; "mutable"; "namespace"; "new"; "noexcept"; "not"; "not_eq";
   "nullptr"; "operator"; "or"; "or_eq"; "private"; "protected"; "public"; "register"; "reinterpret_cast"; "return";
   "short"; "signed"; "sizeof"; "static"; "static_assert"; "static_cast"; "struct"; "switch"; "template"; "this";
   "thread_local"; "throw"; "true"; "try"; "typedef"; "typeid"; "typename"; "union"; "unsigned"; "using"; "virtual";
   "void"; "volatile"; "wchar_t"; "while"; "xor"; "xor_eq"]%string.

(** Two declarations in the same class: functions of the same name have different parameters, or only one of
    them is const; a type can have the name of a variable or function (which then hides it). *)
Definition compatible (a b : decl) : Prop :=
  fst a = fst b ->
  match snd a, snd b with
  | DFun ps c, DFun qs d => ps <> qs \/ c <> d
  | DType, DVar | DType, DFun _ _ | DVar, DType | DFun _ _, DType => True
  | _, _ => False
  end.

(** A name can be declared: it is no keyword, not the name of the class and no template parameter. *)
Definition may_declare (class : text) (params : list text) (n : text) : Prop :=
  ~ In n keywords /\ n <> class /\ ~ In n params.

(** A use finds what it names; [unions]: the oneofs with the members of their unions. *)
Definition found (decls : list decl) (unions : list (text * list text)) (u : use) : Prop :=
  match u with
  | Calls on_const n k => exists params const, In (n, DFun params const) decls /\ length params = k /\ (on_const = true -> const = true)
  | Reads n => In (n, DVar) decls
  | Selects o n => exists ms, In (o, ms) unions /\ In n ms
  | Names n => In (n, DType) decls /\ forall k, In (n, k) decls -> k = DType
  | Outside n => ~ In n (map fst decls)
  end.

(** The class [d] with template parameters [params] has correct declarations and uses. *)
Definition well_formed (params : list text) (d : mdef) : Prop :=
  match d with
  | MDef _ _ _ _ oneofs =>
      ForallOrdPairs compatible (class_decls d)
      /\ Forall (may_declare (d_name d) params) (map fst (class_decls d))
      /\ NoDup (field_numbers d) /\ NoDup (presence_fields d)
      /\ Forall (fun o => NoDup (union_members o) /\ ~ In (fst o) (union_members o)) oneofs
      /\ Forall (found (class_decls d) (map (fun o => (fst o, union_members o)) oneofs)) (named_uses d)
  end.

(** The call x.n(), without arguments, of an object that is not const: of the functions that can be called,
    one that is not const is the better match. *)
Definition calls (decls : list decl) (n : text) (const : bool) : Prop :=
  In (n, DFun [] const) decls /\ (const = true -> ~ In (n, DFun [] false) decls).

(** ** Names *)

Definition nested_names (m : pmsg) : list text :=
  let 'PMsg _ nested enums _ _ := m in enums ++ map p_name nested.
Definition oneof_names (m : pmsg) : list text := let 'PMsg _ _ _ _ oneofs := m in oneofs.
Definition field_names (m : pmsg) : list text := map pf_name (m_fields m).

(** A name with capitals for the letters a to z. *)
Definition capital (c : Z) : Z := if (97 <=? c) && (c <=? 122) then c - 32 else c.
Definition capitals (n : text) : text := map capital n.

(** The prefixes of the accessors and of the names made for a oneof. *)
Definition prefixes : list text := map chars
  ["has_"; "clear_"; "set_"; "mutable_"; "get_"; "add_"; "get_which_"; "which_"; "init_"; "deserialize_"; "to_string_"]%string.
(** Names that have a meaning in every generated class. *)
Definition taken : list text := map chars
  ["FieldNumber"; "serialize"; "deserialize"; "clear"; "field_number_to_name"; "to_string"; "presence";
   "uint8_t"; "uint32_t"; "uint64_t"; "int32_t"; "int64_t"; "snprintf"; "skip_unknown_field"]%string.

(** The names of the message, its fields, oneofs and nested types. *)
Definition all_names (m : pmsg) : list text := p_name m :: field_names m ++ oneof_names m ++ nested_names m.

(** Names that do not get in each other's way: they are all different; field names differ in more than case and
    are not NOT_SET in any case; none is a keyword, a template parameter or has a meaning already; none ends in
    an underscore; none is the name of a field or oneof with a prefix, or of a field in capitals with _NAME. *)
Definition clear_members (params : list text) (m : pmsg) : Prop :=
  NoDup (all_names m)
  /\ NoDup (map capitals (field_names m)) /\ ~ In (chars "NOT_SET") (map capitals (field_names m))
  /\ (forall a, In a (all_names m) -> a <> [] /\ ~ In a keywords /\ ~ In a params) /\ (forall a, In a (all_names m ++ params) -> ~ In a taken)
  /\ (forall a, In a (all_names m ++ params) -> forall r, a <> r ++ chars "_")
  /\ (forall a b p, In a (all_names m ++ params) -> In b (field_names m ++ oneof_names m) -> In p prefixes -> a <> p ++ b)
  /\ (forall a b, In a (all_names m ++ params) -> In b (field_names m) -> a <> capitals b ++ chars "_NAME").

(** Names from outside the class that its functions use: in every class, and for a field of type [t]. *)
Definition used_always : list text := map chars ["uint32_t"; "int32_t"; "snprintf"; "skip_unknown_field"]%string.
Definition used_for (t : ptype) : list text :=
  match t with
  | PScalar (Int64 | SInt64 | SFixed64) => [chars "int64_t"]
  | PScalar (UInt64 | Fixed64) => [chars "uint64_t"]
  | PBytes => [chars "uint8_t"]
  | _ => []
  end.

(** A field with presence is not repeated (protoc sees to that) and its type is not the message itself. *)
Definition no_recursive_presence (parent : path) (m : pmsg) : Prop := forall f, In f (m_fields m) ->
  pf_optional f = true \/ pf_oneof f <> None -> pf_repeated f = false /\ ~ refers f (parent ++ [p_name m]).
