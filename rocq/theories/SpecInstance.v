(** * SpecInstance: the message type that a .proto file declares, and the one that a generated class has.

    Both as a type of Schema.v: field numbers, kinds and types of the fields, with all lengths. *)
From Coq Require Import String.
From Verif Require Import Base Schema Printf Generator GenCode SpecGenerator.
From Coq Require Import List.

(** ** What the .proto file declares *)

(** Fields outside of oneofs (proto3 optional fields are alone in a oneof that protoc invents), and the oneofs. *)
Definition direct (g : pfield) : bool := match pf_oneof g with None => true | Some _ => pf_optional g end.
Definition in_oneof (i : nat) (g : pfield) : bool :=
  match pf_oneof g with Some j => Nat.eqb i j && negb (pf_optional g) | None => false end.
Definition oneof_count (m : pmsg) : nat := let 'PMsg _ _ _ _ oneofs := m in length oneofs.
Definition oneof_groups (m : pmsg) : list (list pfield) :=
  filter (fun l => match l with [] => false | _ => true end)
    (map (fun i => filter (in_oneof i) (m_fields m)) (seq 0 (oneof_count m))).

(** A length: the maxLength option or, without it, what the user gives for the template parameter of that name. *)
Definition name_in (m : pmsg) (g : pfield) (what : text) : text := p_name m ++ chars "_" ++ pf_name g ++ chars "_" ++ what.
Definition length_given (lengths : text -> Z) (m : pmsg) (g : pfield) (what : string) : Z :=
  if pf_max g =? 0 then lengths (name_in m g (chars what)) else pf_max g.

(** [declared lengths s t]: with the lengths of the user, message [s] is [t]. The lengths of the message in field
    f of M are those whose names start with M_f_. *)
Inductive declared_type (declared : (text -> Z) -> path -> ety -> Prop) (lengths : text -> Z) (m : pmsg) (g : pfield) : ety -> Prop :=
| declared_scalar sc : pf_type g = PScalar sc -> declared_type declared lengths m g (EScalar sc)
| declared_string : pf_type g = PString -> declared_type declared lengths m g (EBytes true (length_given lengths m g "LENGTH"))
| declared_bytes : pf_type g = PBytes -> declared_type declared lengths m g (EBytes false (length_given lengths m g "LENGTH"))
| declared_enum T : pf_type g = PEnum T -> declared_type declared lengths m g (EScalar Enumeration)
| declared_message T e : pf_type g = PMessage T -> declared (fun p => lengths (name_in m g p)) T e ->
    declared_type declared lengths m g e.
(** Embedded Proto has no recursive messages: a field with the type of its own message is dropped. *)
Inductive declared_field (declared : (text -> Z) -> path -> ety -> Prop) (lengths : text -> Z) (s : path) (m : pmsg) (g : pfield)
  : fdesc -> Prop :=
| declared_recursive : refers g s -> declared_field declared lengths s m g (pf_number g, KRecursive, EMsg [] [])
| declared_repeated e : ~ refers g s -> pf_repeated g = true -> declared_type declared lengths m g e ->
    declared_field declared lengths s m g (pf_number g, KRep (length_given lengths m g "REP_LENGTH"), e)
| declared_single e : ~ refers g s -> pf_repeated g = false -> declared_type declared lengths m g e ->
    declared_field declared lengths s m g (pf_number g, if pf_optional g then KOpt else KPlain, e).
Inductive declared_member (declared : (text -> Z) -> path -> ety -> Prop) (lengths : text -> Z) (m : pmsg) (g : pfield) : Z * ety -> Prop :=
| declared_in_oneof e : declared_type declared lengths m g e -> declared_member declared lengths m g (pf_number g, e).
Inductive declared (request : list pfile) : (text -> Z) -> path -> ety -> Prop :=
| declared_as lengths s m fs os : message request s m ->
    Forall2 (declared_field (declared request) lengths s m) (filter direct (m_fields m)) fs ->
    Forall2 (Forall2 (declared_member (declared request) lengths m)) (oneof_groups m) os ->
    declared request lengths s (EMsg fs os).

(** ** The class as C++ understands it *)

(** The template parameter [p] has the value [v]. *)
Definition bound (params : list text) (args : list Z) (p : text) (v : Z) : Prop :=
  exists i, nth_error params i = Some p /\ nth_error args i = Some v.
Inductive length_is (params : list text) (args : list Z) : clength -> Z -> Prop :=
| length_const n : length_is params args (LConst n) n
| length_param p v : bound params args p v -> length_is params args (LParam p) v.

(** The type [t] in class [s]: names are looked up, have to be complete types at that place, without templates
    around them, and get the values of their arguments. [instance p vs e]: class [p] with these values is [e]. *)
Definition usable (hs : list header) (s : path) (name p : path) : Prop :=
  stands_for hs s name p /\ plain_scopes hs name p /\ before (script hs) (Declared p) (Uses s).
Inductive type_is (instance : path -> list Z -> ety -> Prop) (hs : list header) (s : path) (params : list text) (args : list Z)
  : ctype -> ety -> Prop :=
| is_scalar sc : type_is instance hs s params args (TyScalar sc) (EScalar sc)
| is_string l n : length_is params args l n -> type_is instance hs s params args (TyString l) (EBytes true n)
| is_bytes l n : length_is params args l n -> type_is instance hs s params args (TyBytes l) (EBytes false n)
| is_enum name p : usable hs s name p -> ~ (exists c, generated hs p c) ->
    type_is instance hs s params args (TyEnum name) (EScalar Enumeration)
| is_message name p targs vs e : usable hs s name p -> Forall2 (bound params args) targs vs -> instance p vs e ->
    type_is instance hs s params args (TyMsg name targs) e.
(** A field of the code: its variable decides the type. *)
Inductive field_is (instance : path -> list Z -> ety -> Prop) (hs : list header) (s : path) (c : class) (args : list Z) (f : code_field)
  : fdesc -> Prop :=
| is_recursive : cf_recursive f = true -> field_is instance hs s c args f (cf_number f, KRecursive, EMsg [] [])
| is_repeated t l n e : cf_recursive f = false -> In (cf_name f, TyRep t l) (c_members c) -> length_is (c_params c) args l n ->
    type_is instance hs s (c_params c) args t e -> field_is instance hs s c args f (cf_number f, KRep n, e)
| is_single t e : cf_recursive f = false -> In (cf_name f, t) (c_members c) -> type_is instance hs s (c_params c) args t e ->
    field_is instance hs s c args f (cf_number f, if cf_optional f then KOpt else KPlain, e).
Inductive member_is (instance : path -> list Z -> ety -> Prop) (hs : list header) (s : path) (c : class) (args : list Z) (f : code_field)
  : Z * ety -> Prop :=
| is_member t e : cf_recursive f = false -> In (cf_name f, t) (c_members c) -> type_is instance hs s (c_params c) args t e ->
    member_is instance hs s c args f (cf_number f, e).
Inductive instance (hs : list header) (code : list (path * class_code)) : path -> list Z -> ety -> Prop :=
| instance_of s c args fields oneofs fs os : generated hs s c -> NoDup (c_params c) ->
    length args = length (c_params c) -> In (s, (fields, oneofs)) code ->
    Forall2 (field_is (instance hs code) hs s c args) fields fs ->
    Forall2 (Forall2 (member_is (instance hs code) hs s c args)) oneofs os ->
    instance hs code s args (EMsg fs os).

(** ** What protoc guarantees about the numbers, and the user about the lengths *)

Definition numbers_legal (request : list pfile) : Prop := forall s m, message request s m ->
  NoDup (map pf_number (m_fields m)) /\ Forall (fun g => 1 <= pf_number g < 2 ^ 29) (m_fields m).
Definition lengths_legal (request : list pfile) : Prop := forall s m g, message request s m -> In g (m_fields m) -> 0 <= pf_max g < 2 ^ 31.

(** Fields of the type of their own message are neither optional nor in a oneof: those give no C++. *)
Definition recursive_plain (request : list pfile) : Prop := forall s m g,
  message request s m -> In g (m_fields m) -> refers g s -> pf_oneof g = None.

(** protoc passes such requests. *)
Definition protoc_ok (request : list pfile) : Prop :=
  legal request /\ imports_first request /\ references request /\ numbers_legal request /\ lengths_legal request.
(** The .proto files avoid what properties C50, C57, C58 and C61 describe as not working. *)
Definition supported (request : list pfile) : Prop :=
  Forall clear_names request /\ no_enclosing request /\ recursive_plain request
  /\ (forall s m, message request s m -> no_clash m)
  /\ (forall s m g T, message request s m -> In g (m_fields m) -> refers g T -> T <> s -> ~ shadowed request s T)
  /\ (forall s m g T, message request s m -> In g (m_fields m) -> pf_type g = PMessage T -> T <> s ->
        ~ templated_scope request s T /\ (pf_repeated g = true -> pf_max g <> 0 -> ~ templated request T)).
