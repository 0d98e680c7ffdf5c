(** * SpecGenerator: what the headers written by the generator have to satisfy.

    The rules of C++ that matter for the declarations of the member variables. *)
From Coq Require Import String.
From Verif Require Import Base Schema Printf Generator.
From Coq Require Import List.

(** ** The messages of a request *)

(** In scope [p], message [m] contains (or is) the message [m'] with the full name [s]. *)
Inductive inside : path -> pmsg -> path -> pmsg -> Prop :=
| inside_self p m : inside p m (p ++ [p_name m]) m
| inside_nested p n nested enums fields oneofs m s m' :
    In m nested -> inside (p ++ [n]) m s m' -> inside p (PMsg n nested enums fields oneofs) s m'.

Definition file_message (f : pfile) (s : path) (m : pmsg) : Prop :=
  exists top, In top (p_msgs f) /\ inside (p_package f) top s m.
Definition message (request : list pfile) (s : path) (m : pmsg) : Prop :=
  exists f, In f request /\ file_message f s m.

Definition m_fields (m : pmsg) : list pfield := let 'PMsg _ _ _ fs _ := m in fs.

(** The full names of the messages and enums of a request. *)
Fixpoint type_names (p : path) (m : pmsg) : list path :=
  match m with
  | PMsg n nested enums _ _ =>
      (p ++ [n]) :: map (fun e => p ++ [n; e]) enums ++ concat (map (type_names (p ++ [n])) nested)
  end.
Definition file_type_names (f : pfile) : list path :=
  map (fun e => p_package f ++ [e]) (p_enums f) ++ concat (map (type_names (p_package f)) (p_msgs f)).

(** What protoc guarantees. Names are not empty and contain no dots; types and fields have different
    names; no type has the name of a package; the fields of a oneof exist, and a proto3 optional field is alone in its
    oneof. *)
Definition identifier (n : text) : Prop := n <> [] /\ ~ In 46 n.

Definition oneofs_ok (fields : list pfield) (oneofs : list text) : Prop :=
  forall f i, In f fields -> pf_oneof f = Some i ->
    (i < length oneofs)%nat
    /\ (pf_optional f = true -> forall g, In g fields -> pf_oneof g = Some i -> g = f).

Fixpoint msg_legal (m : pmsg) : Prop :=
  match m with
  | PMsg n nested enums fields oneofs =>
      identifier n /\ Forall identifier enums /\ NoDup (map pf_name fields) /\ oneofs_ok fields oneofs
      /\ Forall (fun f => pf_repeated f = true -> pf_oneof f = None) fields
      /\ (fix all ms := match ms with [] => True | m' :: ms' => msg_legal m' /\ all ms' end) nested
  end.
Definition prefix (q p : path) : Prop := exists r, p = q ++ r.
Definition legal (request : list pfile) : Prop :=
  Forall (fun f => Forall identifier (p_package f) /\ Forall identifier (p_enums f) /\ Forall msg_legal (p_msgs f)) request
  /\ NoDup (concat (map file_type_names request))
  /\ (forall f p, In f request -> In p (concat (map file_type_names request)) -> ~ prefix p (p_package f)).

(** The type [T] is used by a field. *)
Definition refers (g : pfield) (T : path) : Prop := pf_type g = PMessage T \/ pf_type g = PEnum T.
Definition file_ref (f : pfile) (T : path) : Prop :=
  exists s m g, file_message f s m /\ In g (m_fields m) /\ refers g T.

(** The name of a type in text, with a dot in front of every part. *)
Definition full_name (T : path) : text := concat (map (fun n => 46 :: n) T).

(** Names that the generator does not mix up when it sorts the classes. For the types defined or used in
    the file: the name ".a.b" of a message is not the beginning of the name of a type unless that is
    inside the message; without a package, no type has a name whose parts, written together, are the name of another
    message of the file; no name is used twice in a full name; and no message has a certain name. *)
Definition clear_names (f : pfile) : Prop :=
  let used T := In T (file_type_names f) \/ file_ref f T in
  (forall s m T, file_message f s m -> used T -> (exists r, full_name T = full_name s ++ r) -> prefix s T)
  /\ (p_package f = [] -> forall m T, In m (p_msgs f) -> used T -> concat T = p_name m -> T = [p_name m])
  /\ (forall T, used T -> NoDup T)
  /\ (forall s m, file_message f s m -> p_name m <> chars "FieldErrorRecursive").

(** No field has the type of a message around its own message. *)
Definition no_enclosing (request : list pfile) : Prop := forall s m g T,
  message request s m -> In g (m_fields m) -> refers g T -> prefix T s -> T = s.

(** protoc passes a file after the files it imports. *)
Definition imports_first (request : list pfile) : Prop := forall l1 f l2 s m g T,
  request = l1 ++ f :: l2 -> file_message f s m -> In g (m_fields m) -> refers g T ->
  In T (concat (map file_type_names (l1 ++ [f]))).

(** The type of a field is a message or enum of the request, as the field says. *)
Definition references (request : list pfile) : Prop := forall s m g T, message request s m -> In g (m_fields m) ->
  (pf_type g = PMessage T -> exists mT, message request T mT)
  /\ (pf_type g = PEnum T -> In T (concat (map file_type_names request)) /\ ~ exists mT, message request T mT).

(** The types of every scope of the file can be put in an order such that the types used in a message, and so the types
    around them, come before the message and the messages around it. *)
Definition orderable (f : pfile) : Prop := exists rank : path -> nat, forall s m g T c a b x y,
  file_message f s m -> In g (m_fields m) -> refers g T -> In T (file_type_names f) ->
  s = c ++ a :: x -> T = c ++ b :: y -> a <> b -> (rank (c ++ [b]) < rank (c ++ [a]))%nat.
(** No field has a type that is inside a type inside the message of the field. *)
Definition no_deep (f : pfile) : Prop := forall s m g T a b r,
  file_message f s m -> In g (m_fields m) -> refers g T -> In T (file_type_names f) -> T <> s ++ a :: b :: r.

(** The message has a length that is not given, itself or in the type of a field; not counting fields that have the
    type of a message around the message. *)
Inductive templated (request : list pfile) : path -> Prop :=
| templated_length s m g : message request s m -> In g (m_fields m) -> pf_max g = 0 -> ~ refers g s ->
    (pf_type g = PString \/ pf_type g = PBytes \/ pf_repeated g = true) -> templated request s
| templated_field s m g T : message request s m -> In g (m_fields m) -> pf_repeated g = false ->
    pf_type g = PMessage T -> ~ prefix T s -> templated request T -> templated request s.

(** The names of the fields, followed by an underscore, do not start with each other. *)
Definition no_clash (m : pmsg) : Prop := forall f g r, In f (m_fields m) -> In g (m_fields m) ->
  pf_name g ++ chars "_" = pf_name f ++ chars "_" ++ r -> pf_name f = pf_name g.

(** Names that are declared in the headers: types, and packages as namespaces. *)
Definition declared_name (request : list pfile) (p : path) : Prop :=
  In p (concat (map file_type_names request)) \/ (p <> [] /\ exists f, In f request /\ prefix p (p_package f)).
(** With [c] the scopes that [T] and [s] share: on the way from [s] up to [c], the next part of the name of [T]
    is also the name of something else. *)
Definition shadowed (request : list pfile) (s T : path) : Prop :=
  exists c a rest d1 d2, T = c ++ a :: rest /\ s = c ++ d1 ++ d2 /\ (rest = [] \/ ~ prefix (c ++ [a]) s)
    /\ d1 <> [] /\ declared_name request (c ++ d1 ++ [a]).
(** Between the scopes shared with [s] and [T] itself there is a template. *)
Definition templated_scope (request : list pfile) (s T : path) : Prop :=
  exists x, prefix x T /\ x <> T /\ ~ prefix x s /\ templated request x.

(** ** The classes of the headers *)

Inductive class_inside : path -> class -> path -> class -> Prop :=
| class_self p c : class_inside p c (p ++ [let 'Class _ n _ _ _ := c in n]) c
| class_nested p ps n enums nested members c s c' :
    In c nested -> class_inside (p ++ [n]) c s c' -> class_inside p (Class ps n enums nested members) s c'.
(** The headers contain class [c] under the full name [s]. *)
Definition generated (hs : list header) (s : path) (c : class) : Prop :=
  exists h top, In h hs /\ In top (h_classes h) /\ class_inside (h_package h) top s c.

Definition c_params (c : class) : list text := let 'Class ps _ _ _ _ := c in ps.
Definition c_enums (c : class) : list text := let 'Class _ _ es _ _ := c in es.
Definition c_members (c : class) : list (text * ctype) := let 'Class _ _ _ _ ms := c in ms.

(** Template parameters that occur in a type. *)
Definition length_params (l : clength) : list text := match l with LParam p => [p] | LConst _ => [] end.
Fixpoint params_used (t : ctype) : list text :=
  match t with
  | TyScalar _ | TyEnum _ => []
  | TyString l | TyBytes l => length_params l
  | TyMsg _ args => args
  | TyRep e l => params_used e ++ length_params l
  end.

(** The headers, read from the first to the last: an enum is declared, the member variables of a class are
    declared, a class is complete. Within a class come the enums, the nested classes, the member variables. *)
Inductive event : Type := Declared (p : path) | Uses (s : path).
Fixpoint class_script (p : path) (c : class) : list event :=
  match c with
  | Class _ n enums nested _ =>
      map (fun e => Declared (p ++ [n] ++ [e])) enums ++ concat (map (class_script (p ++ [n])) nested)
      ++ [Uses (p ++ [n]); Declared (p ++ [n])]
  end.
Definition header_script (h : header) : list event :=
  map (fun e => Declared (h_package h ++ [e])) (h_enums h) ++ concat (map (class_script (h_package h)) (h_classes h)).
Definition script (hs : list header) : list event := concat (map header_script hs).
Definition before {A} (l : list A) (x y : A) : Prop := exists l1 l2 l3, l = l1 ++ x :: l2 ++ y :: l3.

(** Names that are declared: namespaces, enums and classes. *)
Inductive entity (hs : list header) : path -> Prop :=
| en_namespace h n : In h hs -> (0 < n <= length (h_package h))%nat -> entity hs (firstn n (h_package h))
| en_enum h e : In h hs -> In e (h_enums h) -> entity hs (h_package h ++ [e])
| en_class s c : generated hs s c -> entity hs s
| en_nested_enum s c e : generated hs s c -> In e (c_enums c) -> entity hs (s ++ [e]).

(** C++ name lookup: in class [s] the name a::b::c stands for [p]. The first name is looked up in
    the innermost scope that declares it. *)
Definition stands_for (hs : list header) (s : path) (name : path) (p : path) : Prop :=
  exists n a rest, (n <= length s)%nat /\ name = a :: rest /\ p = firstn n s ++ name
    /\ entity hs (firstn n s ++ [a])
    /\ forall k, (n < k <= length s)%nat -> ~ entity hs (firstn k s ++ [a]).

(** The type of a field in class [s] is right: [t] is what C++ needs for the field [f] of that class. *)
Definition length_right (params : list text) (max : Z) (l : clength) : Prop :=
  match l with
  | LConst n => n = max /\ max <> 0
  | LParam p => In p params /\ max = 0
  end.
(** The scopes in the name, between [s] and the type itself, are not templates. *)
Definition plain_scopes (hs : list header) (name p : path) : Prop :=
  forall k c, (length p - length name < k < length p)%nat -> generated hs (firstn k p) c -> c_params c = [].
Definition single_right (hs : list header) (s : path) (params : list text) (f : pfield) (t : ctype) : Prop :=
  match pf_type f, t with
  | PScalar sc, TyScalar sc' => sc' = sc
  | PString, TyString l | PBytes, TyBytes l => length_right params (pf_max f) l
  | PEnum ref, TyEnum name =>
      stands_for hs s name ref /\ plain_scopes hs name ref /\ before (script hs) (Declared ref) (Uses s)
  | PMessage ref, TyMsg name args =>
      stands_for hs s name ref /\ plain_scopes hs name ref
      /\ before (script hs) (Declared ref) (Uses s)
      /\ incl args params
      /\ exists c, generated hs ref c /\ length args = length (c_params c)
  | _, _ => False
  end.
Definition type_right (hs : list header) (s : path) (params : list text) (f : pfield) (t : ctype) : Prop :=
  if pf_repeated f
  then match t with TyRep e l => single_right hs s params f e /\ length_right params (pf_max f) l | _ => False end
  else single_right hs s params f t.
