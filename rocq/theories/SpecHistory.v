(** * SpecHistory: calls that shorten no list of messages, told from what the getters show.

    Two public calls can make a repeated message field shorter without clearing it: set_data() with fewer
    elements, and assignment from an object whose list is shorter. *)
From Verif Require Import Base Schema Spec Api SpecApi.

(** [no_shorter t x y]: no repeated message field has fewer elements in [y] than in [x]. A field that one of
    the two does not show is not compared; lists inside the elements of a list are not compared either. *)
Inductive no_shorter : ety -> sval -> sval -> Prop :=
| ns_scalar sc x y : no_shorter (EScalar sc) x y
| ns_bytes st max x y : no_shorter (EBytes st max) x y
| ns_msg fs os vs ovs vs' ovs' :
    (forall pos num t a b, nth_error fs pos = Some (num, KPlain, t) ->
       nth_error vs pos = Some a -> nth_error vs' pos = Some b -> no_shorter t a b) ->
    (forall pos num t a b, nth_error fs pos = Some (num, KOpt, t) ->
       nth_error vs pos = Some (SvSome a) -> nth_error vs' pos = Some (SvSome b) -> no_shorter t a b) ->
    (forall pos num max fs' os' l l', nth_error fs pos = Some (num, KRep max, EMsg fs' os') ->
       nth_error vs pos = Some (SvR l) -> nth_error vs' pos = Some (SvR l') -> zlen l <= zlen l') ->
    (forall pos ms id t a b, nth_error os pos = Some ms -> lookup ms id = Some t ->
       nth_error ovs pos = Some (id, SvSome a) -> nth_error ovs' pos = Some (id, SvSome b) -> no_shorter t a b) ->
    no_shorter (EMsg fs os) (SvM vs ovs) (SvM vs' ovs').

(** [keeps_lists ty x o]: the call [o] on an object of class [ty] that shows [x] is not one of the two. *)
Fixpoint keeps_lists (ty : oty) (x : sval) (o : op) : Prop :=
  match o, ty with
  | OpAssign src, OElem t => no_shorter t x (view t src)
  | OpAssign src, ORep _ (EMsg _ _) => forall l l', x = SvR l -> oview ty src = SvR l' -> zlen l <= zlen l'
  | OpRepSetData src len, ORep max (EMsg _ _) => forall l, x = SvR l -> zlen l <= len \/ max < len
  | OpField pos o', OElem (EMsg fs _) =>
      forall num k t vs ovs y, nth_error fs pos = Some (num, k, t) -> x = SvM vs ovs -> nth_error vs pos = Some y ->
        match k, y with
        | KOpt, SvSome y' => keeps_lists (OElem t) y' o'
        | KOpt, _ => keeps_lists (OElem t) (sdefault t) o'
        | _, _ => keeps_lists (oty_of k t) y o'
        end
  | OpOneof pos id o', OElem (EMsg _ os) =>
      forall ms t vs ovs which y, nth_error os pos = Some ms -> lookup ms id = Some t -> x = SvM vs ovs ->
        nth_error ovs pos = Some (which, y) ->
        match y with
        | SvSome y' => keeps_lists (OElem t) (if which =? id then y' else sdefault t) o'
        | _ => keeps_lists (OElem t) (sdefault t) o'
        end
  | _, _ => True
  end.

(** All calls of a history are of this kind, each in the state in which it is made. *)
Definition careful (fuel : nat) (ty : oty) (ops : list op) : Prop :=
  forall before o after v, ops = before ++ o :: after ->
    run_ops fuel before ty (construct ty) = Done v -> keeps_lists ty (oview ty v) o.

(** A sufficient condition that needs no states: no set_data() and no assignment of messages or lists,
    anywhere in the call. *)
Fixpoint no_copying (o : op) : Prop :=
  match o with
  | OpAssign _ | OpRepSetData _ _ => False
  | OpField _ o' | OpOneof _ _ o' => no_copying o'
  | _ => True
  end.

Definition fields_of (x : sval) : list sval := match x with SvM vs _ => vs | _ => [] end.
