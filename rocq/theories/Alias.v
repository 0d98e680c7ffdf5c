(** * Alias: calls whose argument is a reference into the object that is changed, such as
      `msg.set_b(msg.get_a())`, `msg = msg` or `list.add(list[0])`.

    A place is a sequence of accessors. The members of an object at different places occupy different
    storage, except for the members of one oneof; so while one of them is written the others can be read
    unchanged. A reference names a place: what it refers to is read when the setter reads it, after the
    accessors and the setter have done what they do before (has_ flags, length of lists, init_ of oneofs). *)
From Verif Require Import Base Buffers Wire Schema Fields Message Api.

(** One accessor. *)
Inductive step : Type :=
| SField (pos : nat)             (* get_f(), mutable_f() *)
| SAt (index : Z)                (* [index], get_const(index), get_f(index), mutable_f(index) *)
| SMember (pos : nat) (id : Z).  (* get_m(), mutable_m() of a oneof member *)

(** The object that the const accessors refer to. templates/FieldBasic_GetSet.h:91, FieldString_GetSet.h:85,
    FieldMsg_GetSet.h:100, FieldRepeated_GetSet.h:93-95; src/RepeatedFieldFixedSize.h:119-123. Reading a oneof
    member that is not active is undefined: no such object exists. *)
Fixpoint read_at (ty : oty) (p : list step) (v : value) : res value :=
  match p with
  | [] => Done v
  | SField pos :: p' =>
      match ty, v with
      | OElem (EMsg fs os), VM pres vs ovs =>
          match nth_error fs pos with
          | Some (_, k, t) => let* x := aget vs (Z.of_nat pos) in read_at (oty_of k t) p' x
          | None => UB
          end
      | _, _ => UB
      end
  | SAt index :: p' =>
      match ty, v with
      | ORep max t, VR len data => let* x := rep_get_const data index in read_at (OElem t) p' x
      | _, _ => UB
      end
  | SMember pos id :: p' =>
      match ty, v with
      | OElem (EMsg fs os), VM pres vs ovs =>
          match nth_error os pos with
          | Some ms =>
              let* d := aget ovs (Z.of_nat pos) in
              match find_member (members ms) id with
              | Some (t, _) => if id =? fst d then read_at (OElem t) p' (snd d) else UB
              | None => UB
              end
          | None => UB
          end
      | _, _ => UB
      end
  end.

(** The non-const accessors, and then [g] on the object they refer to; the same code as in [run_op]. *)
Fixpoint update_at (ty : oty) (p : list step) (g : oty -> value -> res (err * value)) (v : value) : res (err * value) :=
  match p with
  | [] => g ty v
  | SField pos :: p' =>
      match ty, v with
      | OElem (EMsg fs os), VM pres vs ovs =>
          match nth_error fs pos with
          | Some (_, k, t) =>
              let* x := aget vs (Z.of_nat pos) in
              let* pres' := (match k with
                             | KOpt => presence_set pres (opt_index fs pos)
                             | _ => Done pres
                             end) in
              let* (e, x') := update_at (oty_of k t) p' g x in
              let* vs' := aset vs (Z.of_nat pos) x' in
              Done (e, VM pres' vs' ovs)
          | None => UB
          end
      | _, _ => UB
      end
  | SAt index :: p' =>
      match ty, v with
      | ORep max t, VR len data =>
          let (i, len') := rep_get len data index in
          let* x := aget data i in
          let* (e, x') := update_at (OElem t) p' g x in
          let* data' := aset data i x' in
          Done (e, VR len' data')
      | _, _ => UB
      end
  | SMember pos id :: p' =>
      match ty, v with
      | OElem (EMsg fs os), VM pres vs ovs =>
          match nth_error os pos with
          | Some ms =>
              match find_member (members ms) id with
              | Some (t, _) =>
                  let* d := aget ovs (Z.of_nat pos) in
                  let d' := if id =? fst d then d else oneof_init (members ms) id d in
                  let* (e, x') := update_at (OElem t) p' g (snd d') in
                  let* ovs' := aset ovs (Z.of_nat pos) (fst d', x') in
                  Done (e, VM pres vs ovs')
              | None => UB
              end
          | None => UB
          end
      | _, _ => UB
      end
  end.

(** Two sequences of accessors lead to the same place. Indices are limited to MAX_LENGTH-1,
    src/RepeatedFieldFixedSize.h:111,121. *)
Fixpoint same_place (ty : oty) (p q : list step) : bool :=
  match p, q with
  | [], [] => true
  | SField a :: p', SField b :: q' =>
      match ty with
      | OElem (EMsg fs os) =>
          match nth_error fs a with Some (_, k, t) => Nat.eqb a b && same_place (oty_of k t) p' q' | None => false end
      | _ => false
      end
  | SAt i :: p', SAt j :: q' =>
      match ty with
      | ORep max t => (Z.min i (max - 1) =? Z.min j (max - 1)) && same_place (OElem t) p' q'
      | _ => false
      end
  | SMember a id :: p', SMember b id' :: q' =>
      match ty with
      | OElem (EMsg fs os) =>
          match nth_error os a with
          | Some ms => match find_member (members ms) id with
                       | Some (t, _) => Nat.eqb a b && (id =? id') && same_place (OElem t) p' q'
                       | None => false
                       end
          | None => false
          end
      | _ => false
      end
  | _, _ => false
  end.

(* ------------------------------------------------------------------------------------------- *)
(** ** An object assigned to itself: every statement of operator= reads what the ones before left. *)

(** set_<field>(rhs) where the field is rhs, FieldString_GetSet.h:58,78,83: FieldStringBytes::set copies
    current_length_ bytes of data_ onto themselves (memcpy with equal pointers, taken to change nothing). *)
Definition elem_self (t : ety) (slf : value -> res value) (v : value) : res value :=
  match t with
  | EBytes _ _ => match v with VB len data => Done (VB len data) | _ => UB end
  | _ => slf v
  end.

(** src/RepeatedFieldFixedSize.h:88-91  data_[i] = data_[i] *)
Fixpoint rep_self_loop (slf : value -> res value) (n : nat) (i : Z) (data : list value) : res (list value) :=
  match n with
  | O => Done data
  | S n' =>
      let* x := aget data i in
      let* x' := slf x in
      let* data' := aset data i x' in
      rep_self_loop slf n' (i + 1) data'
  end.
Definition rep_self (slf : value -> res value) (v : value) : res value :=
  match v with
  | VR len data => let* data' := rep_self_loop slf (Z.to_nat len) 0 data in Done (VR len data')
  | _ => UB
  end.

(** templates/TypeDefMsg.h:102-116 *)
Definition field_self (k : fkind) (t : ety) (slf : value -> res value) (oi : Z) (pres : list Z) (v : value)
  : res (list Z * value) :=
  match k with
  | KPlain => let* v' := elem_self t slf v in Done (pres, v')
  | KOpt =>
      let* has := presence_has pres oi in
      if has then
        let* pres' := presence_set pres oi in
        let* v' := elem_self t slf v in Done (pres', v')
      else field_clear KOpt (clear t) oi pres v
  | KRep _ => let* v' := rep_self slf v in Done (pres, v')
  | KRecursive => Done (pres, v)
  end.
Fixpoint fields_self (fs : list (fkind * ety * (value -> res value))) (oi : Z) (pres : list Z) (vs : list value)
  : res (list Z * list value) :=
  match fs, vs with
  | [], [] => Done (pres, [])
  | (k, t, slf) :: fs', v :: vs' =>
      let* (pres', v') := field_self k t slf oi pres v in
      let* (pres'', vs'') := fields_self fs' (next_opt k oi) pres' vs' in
      Done (pres'', v' :: vs'')
  | _, _ => UB
  end.
(** templates/TypeOneof.h:30-48: which_ is equal to itself, so the oneof is not cleared. *)
Definition oneof_self (ms : list (Z * ety * (value -> res value))) (d : Z * value) : res (Z * value) :=
  match find_member ms (fst d) with
  | Some (t, slf) => let* v' := elem_self t slf (snd d) in Done (fst d, v')
  | None => Done d
  end.
Fixpoint oneofs_self (os : list (list (Z * ety * (value -> res value)))) (ovs : list (Z * value)) : res (list (Z * value)) :=
  match os, ovs with
  | [], [] => Done []
  | ms :: os', d :: ovs' => let* o := oneof_self ms d in let* os'' := oneofs_self os' ovs' in Done (o :: os'')
  | _, _ => UB
  end.
(** operator= with rhs being *this: src/Fields.h:184-188, the implicit one of FieldString and FieldBytes,
    templates/TypeDefMsg.h:100-144. *)
Fixpoint self_assign (t : ety) (v : value) : res value :=
  match t with
  | EScalar _ => match v with VS z => Done (VS z) | _ => UB end
  | EBytes _ _ => match v with VB len data => Done (VB len data) | _ => UB end
  | EMsg fs os =>
      match v with
      | VM pres vs ovs =>
          let* (p', v') := fields_self (map (fun '(_, k, t) => (k, t, self_assign t)) fs) 0 pres vs in
          let* o' := oneofs_self (map (map (fun '(num, t) => (num, t, self_assign t))) os) ovs in
          Done (VM p' v' o')
      | _ => UB
      end
  end.

(* ------------------------------------------------------------------------------------------- *)
(** ** The calls *)

(** The calls with an argument of the type of the target: templates/*_GetSet.h, src/FieldStringBytes.h set(),
    src/RepeatedFieldFixedSize.h add(). *)
Inductive acall_kind : Type :=
| CAssign            (* operator=, set_f() and set_m() of messages and scalars *)
| CSetFrom           (* set(const FieldStringBytes&), set_f() and set_m() of strings and bytes *)
| CAdd               (* add(value), add_f(value) *)
| CSetAt (index : Z). (* set(index, value), set_f(index, value) *)

(** operator= of elements: [self] tells whether both sides are the same object. *)
Definition alias_asg (self : bool) (t : ety) (dst src : value) : res value :=
  if self then self_assign t dst else assign t dst src.

(** The call on the object [d], with a reference to an object that holds [x]. *)
Definition alias_final (c : acall_kind) (self : bool) (x : value) (ty : oty) (d : value) : res (err * value) :=
  match c, ty with
  | CAssign, OElem t => let* v' := alias_asg self t d x in Done (NoErrors, v')
  | CAssign, ORep _ t => let* v' := (if self then rep_self (self_assign t) d else rep_assign (assign t) d x) in Done (NoErrors, v')
  | CSetFrom, OElem (EBytes st max) =>
      if self then let* v' := elem_self (EBytes st max) (self_assign (EBytes st max)) d in Done (NoErrors, v') else bytes_set_from d x
  | CAdd, ORep _ t => rep_add (alias_asg self t) d x
  | CSetAt i, ORep _ t => rep_set (alias_asg self t) d i x
  | _, _ => UB
  end.

(** The place that is assigned to. *)
Definition slot (c : acall_kind) (p : list step) (d : value) : list step :=
  match c with
  | CAssign | CSetFrom => p
  | CAdd => p ++ [SAt (match d with VR len _ => len | _ => 0 end)]
  | CSetAt i => p ++ [SAt i]
  end.

(** The call [c] on the object at place [p], with a reference to the object at place [q] as argument. The
    accessors and init_ come first: in set_m(value) of templates/FieldMsg_GetSet.h:44-51,
    FieldBasic_GetSet.h:44-59, FieldString_GetSet.h:52-59 init_ is called before `value` is read; a reference
    obtained from a getter before is not affected by when it was obtained. *)
Definition alias_call (ty : oty) (p : list step) (c : acall_kind) (q : list step) (v : value) : res (err * value) :=
  let* (_, v1) := update_at ty p (fun _ d => Done (NoErrors, d)) v in
  let* x := read_at ty q v1 in
  update_at ty p (fun tty d => alias_final c (same_place ty (slot c p d) q) x tty d) v1.

(** src/RepeatedFieldFixedSize.h:149-167  set_data(&list[offset], length): the loop reads the elements it
    has not written yet. *)
Fixpoint set_own_data_loop (t : ety) (offset : Z) (n : nat) (i : Z) (data : list value) : res (list value) :=
  match n with
  | O => Done data
  | S n' =>
      let* y := aget data (offset + i) in
      let* x := aget data i in
      let* x' := alias_asg (offset =? 0) t x y in
      let* data' := aset data i x' in
      set_own_data_loop t offset n' (i + 1) data'
  end.
Definition set_own_data (t : ety) (v : value) (offset len : Z) : res (err * value) :=
  match v with
  | VR cur data =>
      if len <=? zlen data then
        let* data' := set_own_data_loop t offset (Z.to_nat len) 0 data in Done (NoErrors, VR len data')
      else Done (ArrayFull, v)
  | _ => UB
  end.
