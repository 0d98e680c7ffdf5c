(** * SpecApi: legal API calls, and what they are supposed to do, in terms of what the getters show.

    [acall ty x o e y]: on an object of class [ty] that shows [x], the call [o] may return [e] and leave
    the object showing [y]. Written without the functions of the model (only its data types and the
    type [op] of calls). *)
From Verif Require Import Base Schema Spec Api.

(* ------------------------------------------------------------------------------------------- *)
(** ** Objects *)

(** A well-formed class, a valid object of the class, what its getters show, and the initial value. *)
Definition oty_ok (ty : oty) : Prop :=
  match ty with OElem t => desc_ok t | ORep max t => desc_ok t /\ capacity_ok max end.

Definition owt (ty : oty) (v : value) : Prop :=
  match ty with OElem t => wt t v | ORep max t => wt_field (KRep max) (wt t) v end.

Definition oview (ty : oty) (v : value) : sval :=
  match ty with
  | OElem t => view t v
  | ORep max t => view_field (KRep max) (view t) 0 [] v
  end.

Definition odefault (ty : oty) : sval :=
  match ty with OElem t => sdefault t | ORep _ _ => SvR [] end.

(* ------------------------------------------------------------------------------------------- *)
(** ** Legal calls: the method exists, values have the C++ type of the parameter, pointers point to
       enough data. *)

Definition legal_index (i : Z) : Prop := 0 <= i < 2 ^ 32.

Fixpoint op_ok (ty : oty) (o : op) : Prop :=
  match o, ty with
  | OpScalarSet z, OElem (EScalar sc) => scalar_range sc z
  | OpClear, _ => True
  | OpTouch, _ => True
  | OpAssign src, _ => owt ty src
  | OpSetFrom src, OElem (EBytes st _) => exists max', capacity_ok max' /\ wt (EBytes st max') src
  | OpBytesSet src len, OElem (EBytes _ _) => Forall is_byte src /\ 0 <= len <= zlen src
  | OpCStr None, OElem (EBytes true _) => True
  (* a terminated string, or at least one readable character more than fit *)
  | OpCStr (Some s), OElem (EBytes true max) => Forall is_byte s /\ (In 0 s \/ max < zlen s)
  | OpBytesPut i b, OElem (EBytes _ _) => legal_index i /\ is_byte b
  | OpRepSet i src, ORep _ t => legal_index i /\ wt t src
  | OpRepAdd src, ORep _ t => wt t src
  | OpRepSetData src len, ORep _ t => Forall (wt t) src /\ 0 <= len <= zlen src
  | OpRepAt i o', ORep _ t => legal_index i /\ op_ok (OElem t) o'
  | OpField pos o', OElem (EMsg fs _) =>
      match nth_error fs pos with
      | Some (_, KRecursive, _) => False
      | Some (_, k, t) => op_ok (oty_of k t) o'
      | None => False
      end
  | OpClearField pos, OElem (EMsg fs _) => nth_error fs pos <> None
  | OpOneof pos id o', OElem (EMsg _ os) =>
      match nth_error os pos with
      | Some ms =>
          match lookup ms id with
          (* scalar members only have set_m() *)
          | Some (EScalar sc) => match o' with OpScalarSet z => scalar_range sc z | _ => False end
          | Some t => op_ok (OElem t) o'
          | None => False
          end
      | None => False
      end
  | OpOneofClear pos id, OElem (EMsg _ os) =>
      match nth_error os pos with Some ms => lookup ms id <> None | None => False end
  | OpDeserialize bytes, OElem (EMsg _ _) => Forall is_byte bytes /\ zlen bytes < 2 ^ 32
  | _, _ => False
  end.

(* ------------------------------------------------------------------------------------------- *)
(** ** Effect of a call *)

(** The characters before the terminator. *)
Fixpoint c_string (s : list Z) : list Z :=
  match s with
  | [] => []
  | c :: s' => if c =? 0 then [] else c :: c_string s'
  end.

(** Writing at index [i] of a list that can hold [max] elements: an index that is too large means the
    last one. Behind the end the list grows; what shows up in between is not specified. *)
Inductive put {A} (max : Z) (l : list A) (i : Z) (x : A) : list A -> Prop :=
| put_in k : k = Z.min i (max - 1) -> k < zlen l -> put max l i x (upd (Z.to_nat k) x l)
| put_behind k gap : k = Z.min i (max - 1) -> zlen l <= k -> zlen gap = k - zlen l ->
    put max l i x (l ++ gap ++ [x]).

Inductive acall : oty -> sval -> op -> err -> sval -> Prop :=
| a_scalar sc x z : acall (OElem (EScalar sc)) x (OpScalarSet z) NoErrors (SvZ z)
| a_clear ty x : acall ty x OpClear NoErrors (odefault ty)
| a_touch ty x : acall ty x OpTouch NoErrors x
| a_assign ty x src : acall ty x (OpAssign src) NoErrors (oview ty src)
(* strings and bytes *)
| a_setfrom st max x src bs : view (EBytes st max) src = SvB bs -> zlen bs <= max ->
    acall (OElem (EBytes st max)) x (OpSetFrom src) NoErrors (SvB bs)
| a_setfrom_full st max x src bs : view (EBytes st max) src = SvB bs -> max < zlen bs ->
    acall (OElem (EBytes st max)) x (OpSetFrom src) ArrayFull x
| a_set st max x src len : len <= max ->
    acall (OElem (EBytes st max)) x (OpBytesSet src len) NoErrors (SvB (firstn (Z.to_nat len) src))
| a_set_full st max x src len : max < len ->
    acall (OElem (EBytes st max)) x (OpBytesSet src len) ArrayFull x
| a_cstr_null max x : acall (OElem (EBytes true max)) x (OpCStr None) NoErrors (SvB [])
| a_cstr max x s :
    acall (OElem (EBytes true max)) x (OpCStr (Some s)) NoErrors (SvB (firstn (Z.to_nat max) (c_string s)))
| a_put st max bs i b bs' : put max bs i b bs' ->
    acall (OElem (EBytes st max)) (SvB bs) (OpBytesPut i b) NoErrors (SvB bs')
(* repeated fields *)
| a_rep_set max t l i src l' : put max l i (view t src) l' ->
    acall (ORep max t) (SvR l) (OpRepSet i src) NoErrors (SvR l')
| a_rep_add max t l src : zlen l < max ->
    acall (ORep max t) (SvR l) (OpRepAdd src) NoErrors (SvR (l ++ [view t src]))
| a_rep_add_full max t l src : zlen l = max ->
    acall (ORep max t) (SvR l) (OpRepAdd src) ArrayFull (SvR l)
| a_rep_data max t l src len : len <= max ->
    acall (ORep max t) (SvR l) (OpRepSetData src len) NoErrors (SvR (map (view t) (firstn (Z.to_nat len) src)))
| a_rep_data_full max t l src len : max < len ->
    acall (ORep max t) (SvR l) (OpRepSetData src len) ArrayFull (SvR l)
| a_rep_at max t l i o e x x' k : k = Z.min i (max - 1) -> nth_error l (Z.to_nat k) = Some x ->
    acall (OElem t) x o e x' ->
    acall (ORep max t) (SvR l) (OpRepAt i o) e (SvR (upd (Z.to_nat k) x' l))
| a_rep_at_behind max t l i o e x x' k gap : k = Z.min i (max - 1) -> zlen l <= k -> zlen gap = k - zlen l ->
    acall (OElem t) x o e x' ->
    acall (ORep max t) (SvR l) (OpRepAt i o) e (SvR (l ++ gap ++ [x']))
(* fields of a message *)
| a_plain fs os vs ovs pos num t o e x x' :
    nth_error fs pos = Some (num, KPlain, t) -> nth_error vs pos = Some x -> acall (OElem t) x o e x' ->
    acall (OElem (EMsg fs os)) (SvM vs ovs) (OpField pos o) e (SvM (upd pos x' vs) ovs)
| a_opt fs os vs ovs pos num t o e x x' :
    nth_error fs pos = Some (num, KOpt, t) -> nth_error vs pos = Some (SvSome x) -> acall (OElem t) x o e x' ->
    acall (OElem (EMsg fs os)) (SvM vs ovs) (OpField pos o) e (SvM (upd pos (SvSome x') vs) ovs)
| a_opt_absent fs os vs ovs pos num t o e x' :
    nth_error fs pos = Some (num, KOpt, t) -> nth_error vs pos = Some SvNone -> acall (OElem t) (sdefault t) o e x' ->
    acall (OElem (EMsg fs os)) (SvM vs ovs) (OpField pos o) e (SvM (upd pos (SvSome x') vs) ovs)
| a_repeated fs os vs ovs pos num max t o e x x' :
    nth_error fs pos = Some (num, KRep max, t) -> nth_error vs pos = Some x -> acall (ORep max t) x o e x' ->
    acall (OElem (EMsg fs os)) (SvM vs ovs) (OpField pos o) e (SvM (upd pos x' vs) ovs)
| a_clear_field fs os vs ovs pos num k t :
    nth_error fs pos = Some (num, k, t) ->
    acall (OElem (EMsg fs os)) (SvM vs ovs) (OpClearField pos) NoErrors
          (SvM (upd pos (sdefault_field k (sdefault t)) vs) ovs)
(* oneofs *)
| a_oneof_same fs os vs ovs pos ms id t o e x x' :
    nth_error os pos = Some ms -> lookup ms id = Some t -> nth_error ovs pos = Some (id, SvSome x) ->
    acall (OElem t) x o e x' ->
    acall (OElem (EMsg fs os)) (SvM vs ovs) (OpOneof pos id o) e (SvM vs (upd pos (id, SvSome x') ovs))
| a_oneof_other fs os vs ovs pos ms id t o e which x x' :
    nth_error os pos = Some ms -> lookup ms id = Some t -> nth_error ovs pos = Some (which, x) -> which <> id ->
    acall (OElem t) (sdefault t) o e x' ->
    acall (OElem (EMsg fs os)) (SvM vs ovs) (OpOneof pos id o) e (SvM vs (upd pos (id, SvSome x') ovs))
| a_oneof_clear fs os vs ovs pos id x :
    nth_error ovs pos = Some (id, x) ->
    acall (OElem (EMsg fs os)) (SvM vs ovs) (OpOneofClear pos id) NoErrors (SvM vs (upd pos (0, SvNone) ovs))
| a_oneof_clear_other fs os vs ovs pos id which x :
    nth_error ovs pos = Some (which, x) -> which <> id ->
    acall (OElem (EMsg fs os)) (SvM vs ovs) (OpOneofClear pos id) NoErrors (SvM vs ovs)
(* decoding is the subject of other properties: any outcome is allowed here *)
| a_deserialize fs os x bytes e y : acall (OElem (EMsg fs os)) x (OpDeserialize bytes) e y.

(** A history of calls: the errors they returned are of no interest here. *)
Inductive acalls (ty : oty) : sval -> list op -> sval -> Prop :=
| acalls_nil x : acalls ty x [] x
| acalls_cons x o e y os z : acall ty x o e y -> acalls ty y os z -> acalls ty x (o :: os) z.

(** Does the call decode anything? *)
Fixpoint decodes (o : op) : Prop :=
  match o with
  | OpDeserialize _ => True
  | OpRepAt _ o' | OpField _ o' | OpOneof _ _ o' => decodes o'
  | _ => False
  end.

(* ------------------------------------------------------------------------------------------- *)
(** ** Presence and oneof selection, read off from the calls *)

(** Decoding of the object itself (as opposed to decoding into one of its members). *)
Definition no_decode (o : op) : Prop := match o with OpDeserialize _ => False | _ => True end.

(** has_ of the field at position [pos], and the active member of the oneof at [pos] (0: none), in
    terms of what the getters of a message show. *)
Definition shows_present (x : sval) (pos : nat) : bool :=
  match x with
  | SvM vs _ => match nth_error vs pos with Some (SvSome _) => true | _ => false end
  | _ => false
  end.

Definition shows_which (x : sval) (pos : nat) : Z :=
  match x with
  | SvM _ ovs => match nth_error ovs pos with Some (id, _) => id | None => 0 end
  | _ => 0
  end.

(** A mutable accessor or setter of the field sets has_, clear_ of the field and clear() of the message
    reset it, assignment takes it over, and nothing else changes it. *)
Definition has_after (t : ety) (pos : nat) (has : bool) (o : op) : bool :=
  match o with
  | OpField p _ => if Nat.eqb p pos then true else has
  | OpClearField p => if Nat.eqb p pos then false else has
  | OpClear => false
  | OpAssign src => shows_present (view t src) pos
  | _ => has
  end.

(** The same for the active member of a oneof. *)
Definition which_after (t : ety) (pos : nat) (which : Z) (o : op) : Z :=
  match o with
  | OpOneof p id _ => if Nat.eqb p pos then id else which
  | OpOneofClear p id => if Nat.eqb p pos && (id =? which) then 0 else which
  | OpClear => 0
  | OpAssign src => shows_which (view t src) pos
  | _ => which
  end.
