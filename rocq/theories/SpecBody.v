(** * SpecBody: objects of generated classes, as their variables and as values of Schema.v. *)
From Coq Require Import String.
From Verif Require Import Base Buffers Schema Api Spec SpecApi Printf Generator SpecGenerator SpecInstance GenMembers SpecMembers GenBody.
From Coq Require Import List.

(** What an object with these variables is: [ob] has the presence bits [pres], every variable holds the value of its
    field, and for every oneof the which_ variable has the number and the union holds the value of the member with
    that number. *)
Definition in_union (a : text) (y : value) (x : text) : value := if text_eqb a x then y else VIndet.
Definition field_held (ob : object) (f : field) (v : value) : Prop :=
  recursive f = false -> look (variable_name (f_name f)) (ob_cells ob) = Some (CField v).
Definition oneof_held (ob : object) (o : text * list field) (w : Z * value) : Prop :=
  look (which_name (fst o)) (ob_cells ob) = Some (CNumber (fst w))
  /\ exists a y, look (variable_name (fst o)) (ob_cells ob) = Some (CUnion a y)
       /\ forall f, In f (snd o) -> f_number f = fst w -> in_union a y (variable_name (f_name f)) = snd w.
Definition holds_value (d : mdef) (ob : object) (v : value) : Prop :=
  match v with
  | VM pres vs ovs =>
      ob_presence ob = pres /\ Forall2 (field_held ob) (fields_of d) vs /\ Forall2 (oneof_held ob) (oneofs_of d) ovs
  | _ => False
  end.

(** The code, started on an object that holds [v], ends as the function does that gives [m]: with the same error and the
    same buffer, and an object that holds the new value. *)
Definition same_end {S} (d : mdef) (code : res (err * object * S)) (m : res (err * value * S)) : Prop :=
  match code, m with
  | Done (e, ob, s), Done (e', v, s') => e = e' /\ s = s' /\ holds_value d ob v
  | UB, UB | Fuel, Fuel => True
  | _, _ => False
  end.
Definition same_object (d : mdef) (code : res object) (m : res value) : Prop :=
  match code, m with
  | Done ob, Done v => holds_value d ob v
  | UB, UB | Fuel, Fuel => True
  | _, _ => False
  end.

(** ** The calls of Api.v that the functions of a class stand for *)

(** Field [f], number [i] of the fields outside oneofs, of kind [k] and type [t]: number of parameters, name, parameters. *)
Definition set_op (t : ety) (x : value) : op := match t with EBytes _ _ => OpSetFrom x | _ => OpAssign x end.
Inductive field_call (f : field) (i : nat) (k : fkind) (t : ety) : nat -> text -> frame -> op -> Prop :=
| call_set x : field_call f i k t 1 (pre "set_" (f_name f)) (with_value x) (OpField i (match k with KRep _ => OpAssign x | _ => set_op t x end))
| call_clear fr : field_call f i k t 0 (pre "clear_" (f_name f)) fr (OpClearField i)
| call_set_at n j x : k = KRep n -> field_call f i k t 2 (pre "set_" (f_name f)) (with_index j x) (OpField i (OpRepSet j x))
| call_add n x : k = KRep n -> field_call f i k t 1 (pre "add_" (f_name f)) (with_value x) (OpField i (OpRepAdd x)).
(** Member [f] of oneof number [j]. *)
Inductive member_call (f : field) (j : nat) (t : ety) : nat -> text -> frame -> op -> Prop :=
| mcall_set x : member_call f j t 1 (pre "set_" (f_name f)) (with_value x) (OpOneof j (f_number f) (set_op t x))
| mcall_clear fr : member_call f j t 0 (pre "clear_" (f_name f)) fr (OpOneofClear j (f_number f)).
(** Which fields have a mutable_n(): not the recursive ones and not the enums; in oneofs no scalars. *)
Definition has_mutable (k : fkind) (t : ety) : Prop := k <> KRecursive /\ (t = EScalar Enumeration -> exists n, k = KRep n).
Definition is_scalar (t : ety) : Prop := exists sc, t = EScalar sc.

(** ** Programs that use one object *)

Inductive user_call : Type :=
| UCall (arity : nat) (f : text) (fr : frame)   (* f(...) *)
| UThrough (f : text) (o : op)                  (* f().o *)
| UClear                                        (* clear() *)
| UAssign (rhs : object)                        (* operator=(rhs) *)
| UDeserialize (bytes : list Z).                (* deserialize(), from a ReadBufferFixedSize with these bytes *)
Definition user_run (fuel : nat) (d : mdef) (fs : list fdesc) (os : list odesc) (u : user_call) (ob : object) : res object :=
  match u with
  | UCall arity f fr => code_call d fs os arity f fr ob
  | UThrough f o => code_through fuel d fs os f o ob
  | UClear => code_clear d fs os ob
  | UAssign rhs => code_assign d fs os ob rhs
  | UDeserialize bytes => let* (_, ob', _) := code_deserialize fuel d fs os (rfix_ops (zlen bytes)) ob (rfix_of bytes) in Done ob'
  end.
Fixpoint user_runs (fuel : nat) (d : mdef) (fs : list fdesc) (os : list odesc) (us : list user_call) (ob : object) : res object :=
  match us with [] => Done ob | u :: us' => let* ob' := user_run fuel d fs os u ob in user_runs fuel d fs os us' ob' end.

(** The call of Api.v that it is. *)
Inductive stands_for (d : mdef) (fs : list fdesc) (os : list odesc) : user_call -> op -> Prop :=
| for_field i f num k t arity fn fr o : nth_error (fields_of d) i = Some f -> nth_error fs i = Some (num, k, t) ->
    field_call f i k t arity fn fr o -> stands_for d fs os (UCall arity fn fr) o
| for_mutable i f num k t o : nth_error (fields_of d) i = Some f -> nth_error fs i = Some (num, k, t) -> has_mutable k t ->
    stands_for d fs os (UThrough (pre "mutable_" (f_name f)) o) (OpField i o)
| for_member j n ol i f ms t arity fn fr o : nth_error (oneofs_of d) j = Some (n, ol) -> nth_error os j = Some ms ->
    nth_error ol i = Some f -> nth_error ms i = Some (f_number f, t) ->
    member_call f j t arity fn fr o -> stands_for d fs os (UCall arity fn fr) o
| for_mutable_member j n ol i f ms t o : nth_error (oneofs_of d) j = Some (n, ol) -> nth_error os j = Some ms ->
    nth_error ol i = Some f -> nth_error ms i = Some (f_number f, t) -> ~ is_scalar t ->
    stands_for d fs os (UThrough (pre "mutable_" (f_name f)) o) (OpOneof j (f_number f) o)
| for_clear : stands_for d fs os UClear OpClear
| for_assign rhs x : holds_value d rhs x -> stands_for d fs os (UAssign rhs) (OpAssign x)
| for_deserialize bytes : stands_for d fs os (UDeserialize bytes) (OpDeserialize bytes).

(** ** Classes and getters *)

(** [d] is the class that the generator writes for a message of the request, and [EMsg fs os] the type that the .proto
    file declares for it, with these lengths. Its names do not clash with each other (SpecMembers.v, C61). *)
Definition class_for (request : list pfile) (lengths : text -> Z) (d : mdef) (fs : list fdesc) (os : list odesc) : Prop :=
  exists params parent m, d = define parent m /\ protoc_ok request /\ message request (parent ++ [p_name m])%list m
    /\ clear_members params m /\ no_recursive_presence parent m /\ declared request lengths (parent ++ [p_name m])%list (EMsg fs os).

(** What the functions of the class show of an object: has_n() and get_n() of the fields, get_which_o() of the oneofs and
    has_n() and get_n() of their members. *)
Definition field_shows (d : mdef) (fs : list fdesc) (os : list odesc) (ob : object) (f : field) (k : fkind) (t : ety) (x : sval) : Prop :=
  match k with
  | KPlain | KRep _ => exists v, code_get d fs os ob (pre "get_" (f_name f)) = Done v /\ x = oview (oty_of k t) v
  | KOpt => exists b v, code_has d fs os ob (pre "has_" (f_name f)) = Done b /\ code_get d fs os ob (pre "get_" (f_name f)) = Done v
                /\ x = if b : bool then SvSome (view t v) else SvNone
  | KRecursive => code_get d fs os ob (pre "get_" (f_name f)) = Done (VS 0) /\ x = SvNone
  end.
Definition oneof_shows (d : mdef) (fs : list fdesc) (os : list odesc) (ob : object) (n : text) (ol : list field) (ms : odesc) (x : Z * sval) : Prop :=
  code_which d fs os ob (pre "get_which_" n) = Done (fst x)
  /\ (forall f, In f ol -> code_has d fs os ob (pre "has_" (f_name f)) = Done (f_number f =? fst x))
  /\ ((fst x = 0 /\ snd x = SvNone)
      \/ exists i f t v, nth_error ol i = Some f /\ nth_error ms i = Some (f_number f, t) /\ f_number f = fst x
           /\ code_get d fs os ob (pre "get_" (f_name f)) = Done v /\ snd x = SvSome (view t v)).
Definition shows (d : mdef) (fs : list fdesc) (os : list odesc) (ob : object) (x : sval) : Prop :=
  match x with
  | SvM xs oxs =>
      length xs = length fs /\ length oxs = length os
      /\ (forall i f num k t y, nth_error (fields_of d) i = Some f -> nth_error fs i = Some (num, k, t) -> nth_error xs i = Some y ->
            field_shows d fs os ob f k t y)
      /\ (forall j n ol ms y, nth_error (oneofs_of d) j = Some (n, ol) -> nth_error os j = Some ms -> nth_error oxs j = Some y ->
            oneof_shows d fs os ob n ol ms y)
  | _ => False
  end.

(** The calls that are named after field number [i], and after a member of oneof number [j]. *)
Inductive of_field (d : mdef) (fs : list fdesc) (i : nat) : user_call -> Prop :=
| of_field_call f num k t arity fn fr o : nth_error (fields_of d) i = Some f -> nth_error fs i = Some (num, k, t) ->
    field_call f i k t arity fn fr o -> of_field d fs i (UCall arity fn fr)
| of_field_mutable f num k t o : nth_error (fields_of d) i = Some f -> nth_error fs i = Some (num, k, t) -> has_mutable k t ->
    of_field d fs i (UThrough (pre "mutable_" (f_name f)) o).
Inductive of_oneof (d : mdef) (os : list odesc) (j : nat) : user_call -> Prop :=
| of_member_call n ol i f ms t arity fn fr o : nth_error (oneofs_of d) j = Some (n, ol) -> nth_error os j = Some ms ->
    nth_error ol i = Some f -> nth_error ms i = Some (f_number f, t) -> member_call f j t arity fn fr o -> of_oneof d os j (UCall arity fn fr)
| of_member_mutable n ol i f ms t o : nth_error (oneofs_of d) j = Some (n, ol) -> nth_error os j = Some ms ->
    nth_error ol i = Some f -> nth_error ms i = Some (f_number f, t) -> ~ is_scalar t ->
    of_oneof d os j (UThrough (pre "mutable_" (f_name f)) o).

(** An object whose variables hold values of their types. *)
Definition valid_object (d : mdef) (fs : list fdesc) (os : list odesc) (ob : object) : Prop := exists v, wt (EMsg fs os) v /\ holds_value d ob v.
(** The getters of a field, and those of a oneof, give the same for both objects. get_n() of a member that is not selected
    must not be called. *)
Definition same_field (d : mdef) (fs : list fdesc) (os : list odesc) (ob ob' : object) (g : field) : Prop :=
  code_get d fs os ob' (pre "get_" (f_name g)) = code_get d fs os ob (pre "get_" (f_name g))
  /\ (f_optional g = true -> code_has d fs os ob' (pre "has_" (f_name g)) = code_has d fs os ob (pre "has_" (f_name g))).
Definition same_oneof (d : mdef) (fs : list fdesc) (os : list odesc) (ob ob' : object) (n : text) (ol : list field) : Prop :=
  code_which d fs os ob' (pre "get_which_" n) = code_which d fs os ob (pre "get_which_" n)
  /\ forall f, In f ol -> code_has d fs os ob' (pre "has_" (f_name f)) = code_has d fs os ob (pre "has_" (f_name f))
       /\ (code_has d fs os ob (pre "has_" (f_name f)) = Done true ->
           code_get d fs os ob' (pre "get_" (f_name f)) = code_get d fs os ob (pre "get_" (f_name f))).
