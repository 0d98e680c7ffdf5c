(** * Api: the mutating public API of message objects (setters, mutable accessors, clear, copy),
      and histories of API calls. *)
From Verif Require Import Base Buffers Wire Schema Fields Message.

(* ------------------------------------------------------------------------------------------- *)
(** ** FieldStringBytes *)

(** src/FieldStringBytes.h:159-172  set(const DATA_TYPE* data, const uint32_t length) *)
Definition bytes_set (v : value) (src : list Z) (len : Z) : res (err * value) :=
  match v with
  | VB cur data =>
      if len <=? zlen data then
        let* data' := memcpy data 0 src len in Done (NoErrors, VB len data')
      else Done (ArrayFull, v)
  | _ => UB
  end.

(** src/FieldStringBytes.h:147-151  set(const FieldStringBytes& rhs) *)
Definition bytes_set_from (v rhs : value) : res (err * value) :=
  match rhs with
  | VB len src => bytes_set v src len
  | _ => UB
  end.

(** src/FieldStringBytes.h:309-315 and 425-430  operator= between fields of any two lengths (RHS_LENGTH): set() from
    the other field's array and length, the error it returns is dropped. *)
Definition bytes_assign_any (v rhs : value) : res value := let* (_, v') := bytes_set_from v rhs in Done v'.

(** src/FieldStringBytes.h:81-89  get(index): limited index and new current_length_. *)
Definition bytes_get (len : Z) (data : list Z) (index : Z) : Z * Z :=
  let limited_index := Z.min index (u32 (zlen data - 1)) in
  (limited_index, if len <=? limited_index then limited_index + 1 else len).

(** `x[index] = b` through get(index). *)
Definition bytes_put (v : value) (index b : Z) : res (err * value) :=
  match v with
  | VB len data =>
      let (i, len') := bytes_get len data index in
      let* data' := aset data i b in Done (NoErrors, VB len' data')
  | _ => UB
  end.

(** src/FieldStringBytes.h:97-101  get_const(index) *)
Definition bytes_get_const (v : value) (index : Z) : res Z :=
  match v with
  | VB len data => aget data (Z.min index (u32 (zlen data - 1)))
  | _ => UB
  end.

(** src/FieldStringBytes.h:109-121  get_const(index, value) *)
Definition bytes_get_const_checked (v : value) (index : Z) : res (err * option Z) :=
  match v with
  | VB len data =>
      if index <? len then let* b := aget data index in Done (NoErrors, Some b)
      else Done (IndexOutOfBound, None)
  | _ => UB
  end.

(** Reading a C string through the pointer returned by get_const() (src/FieldStringBytes.h:71) or by
    the generated `const char* x() const` (templates/FieldString_GetSet.h:86): the characters before the
    first 0. Reading past the end of the array is UB. *)
Fixpoint read_cstr (s : list Z) : res (list Z) :=
  match s with
  | [] => UB
  | c :: s' => if c =? 0 then Done [] else let* l := read_cstr s' in Done (c :: l)
  end.

(** What a program reads through that pointer of a string field, src/FieldStringBytes.h:71. *)
Definition string_c_str (v : value) : res (list Z) :=
  match v with VB _ data => read_cstr data | _ => UB end.

(** src/FieldStringBytes.h:263-267  clear *)
Definition bytes_clear (v : value) : res value :=
  match v with
  | VB _ data => Done (VB 0 (zrepeat 0 (zlen data)))
  | _ => UB
  end.

(** src/FieldStringBytes.h:399-407  strnlen. The C string is the array [s] that contains its
    terminating 0; reading past the array is UB. [n] is len - i. *)
Fixpoint strnlen (n : nat) (i : Z) (s : list Z) : res Z :=
  match n with
  | O => Done i
  | S n' => match s with
            | [] => UB
            | c :: s' => if c =? 0 then Done i else strnlen n' (i + 1) s'
            end
  end.

(** strncpy(dst, src, n): copies up to the terminator and pads with zeros up to n. Reading past the
    end of [src] is UB; the n bytes that are written are returned. *)
Fixpoint strncpy_bytes (n : nat) (src : list Z) : res (list Z) :=
  match n with
  | O => Done []
  | S n' => match src with
            | [] => UB
            | c :: src' =>
                if c =? 0 then Done (zrepeat 0 (Z.of_nat n))
                else let* l := strncpy_bytes n' src' in Done (c :: l)
            end
  end.

(** src/FieldStringBytes.h:335-350  FieldString::set(const char* ). [None] is the null pointer. *)
Definition string_set_cstr (v : value) (str : option (list Z)) : res (err * value) :=
  match v with
  | VB cur data =>
      match str with
      | None => let* v' := bytes_clear v in Done (NoErrors, v')
      | Some s =>
          let max := zlen data in
          let* n := strnlen (Z.to_nat (u32 (max + 1))) 0 s in
          let len := Z.min n max in
          let this_length := if len <? max then len + 1 else len in
          let* l := strncpy_bytes (Z.to_nat this_length) s in
          let* data' := memcpy data 0 l this_length in
          Done (NoErrors, VB len data')
      end
  | _ => UB
  end.

(* ------------------------------------------------------------------------------------------- *)
(** ** clear *)

(** clear() of every element of an array, src/RepeatedFieldFixedSize.h:186-189. *)
Fixpoint map_res {A B} (f : A -> res B) (l : list A) : res (list B) :=
  match l with
  | [] => Done []
  | x :: l' => let* y := f x in let* l'' := map_res f l' in Done (y :: l'')
  end.

(** src/RepeatedFieldFixedSize.h:184-191 *)
Definition rep_clear (clr : value -> res value) (v : value) : res value :=
  match v with
  | VR _ data => let* data' := map_res clr data in Done (VR 0 data')
  | _ => UB
  end.

Notation cfield := (Z * fkind * ety * (value -> res value))%type.

(** clear_<field>() of a generated message: templates/FieldBasic_GetSet.h:65-69,86,
    FieldString_GetSet.h:65-69,81, FieldMsg_GetSet.h:73-77,94, FieldRepeated_GetSet.h:86,
    FieldErrorRecursive_GetSet.h:32. *)
Definition field_clear (k : fkind) (clr : value -> res value) (oi : Z) (pres : list Z) (v : value)
  : res (list Z * value) :=
  match k with
  | KPlain => let* v' := clr v in Done (pres, v')
  | KOpt => let* pres' := presence_clear pres oi in let* v' := clr v in Done (pres', v')
  | KRep _ => let* v' := rep_clear clr v in Done (pres, v')
  | KRecursive => Done (pres, v)
  end.

(** templates/TypeDefMsg.h:240-242 *)
Fixpoint fields_clear (fs : list cfield) (oi : Z) (pres : list Z) (vs : list value)
  : res (list Z * list value) :=
  match fs, vs with
  | [], [] => Done (pres, [])
  | (_, k, _, clr) :: fs', v :: vs' =>
      let* (pres', v') := field_clear k clr oi pres v in
      let* (pres'', vs'') := fields_clear fs' (next_opt k oi) pres' vs' in
      Done (pres'', v' :: vs'')
  | _, _ => UB
  end.

(** templates/TypeDefMsg.h:243-245 *)
Fixpoint oneofs_clear {X} (os : list (list (Z * ety * X))) (ovs : list (Z * value))
  : res (list (Z * value)) :=
  match os, ovs with
  | [], [] => Done []
  | ms :: os', o :: ovs' =>
      let* ovs'' := oneofs_clear os' ovs' in Done (oneof_clear ms o :: ovs'')
  | _, _ => UB
  end.

(** templates/TypeDefMsg.h:238-247; src/Fields.h:225; src/FieldStringBytes.h:263-267 *)
Fixpoint clear (t : ety) (v : value) : res value :=
  match t with
  | EScalar _ => Done (VS 0)
  | EBytes _ _ => bytes_clear v
  | EMsg fs os =>
      match v with
      | VM pres vs ovs =>
          let* (pres', vs') :=
            fields_clear (map (fun '(num, k, t) => (num, k, t, clear t)) fs) 0 pres vs in
          let* ovs' := oneofs_clear (map (map (fun '(num, t) => (num, t, clear t))) os) ovs in
          Done (VM pres' vs' ovs')
      | _ => UB
      end
  end.

(* ------------------------------------------------------------------------------------------- *)
(** ** Assignment *)

(** set_<field>(rhs) on a member: strings and bytes go through FieldStringBytes::set
    (FieldString_GetSet.h:58,78,83), the others through operator=. *)
Definition elem_set (t : ety) (asg : value -> value -> res value) (dst src : value) : res value :=
  match t with
  | EBytes _ _ => let* (_, v') := bytes_set_from dst src in Done v'
  | _ => asg dst src
  end.

(** src/RepeatedFieldFixedSize.h:88-91  data_[i] = rhs.get_const(i) for i < rhs.get_length().
    [n] is the number of elements left. *)
Fixpoint rep_copy (asg : value -> value -> res value) (n : nat) (i : Z) (dst src : list value)
  : res (list value) :=
  match n with
  | O => Done dst
  | S n' =>
      let* y := rep_get_const src i in
      let* x := aget dst i in
      let* x' := asg x y in
      let* dst' := aset dst i x' in
      rep_copy asg n' (i + 1) dst' src
  end.

(** src/RepeatedFieldFixedSize.h:85-95  operator= *)
Definition rep_assign (asg : value -> value -> res value) (dst src : value) : res value :=
  match dst, src with
  | VR _ ddata, VR slen sdata =>
      let* ddata' := rep_copy asg (Z.to_nat slen) 0 ddata sdata in Done (VR slen ddata')
  | _, _ => UB
  end.

Notation afield := (Z * fkind * ety * (value -> value -> res value))%type.
Notation amember := (Z * ety * (value -> value -> res value))%type.

(** One field of the generated operator= and copy constructor, templates/TypeDefMsg.h:40-53,102-116:
    optional fields are set when present in rhs and cleared otherwise. *)
Definition field_assign (k : fkind) (t : ety) (clr : value -> res value)
    (asg : value -> value -> res value) (oi : Z) (pd ps : list Z) (dst src : value)
  : res (list Z * value) :=
  match k with
  | KPlain => let* v' := elem_set t asg dst src in Done (pd, v')
  | KOpt =>
      let* has := presence_has ps oi in
      if has then
        let* pd' := presence_set pd oi in
        let* v' := elem_set t asg dst src in Done (pd', v')
      else field_clear KOpt clr oi pd dst
  | KRep _ => let* v' := rep_assign asg dst src in Done (pd, v')
  | KRecursive => Done (pd, dst)
  end.

(** The loops over the fields, templates/TypeDefMsg.h:40-53,102-116. *)
Fixpoint fields_assign (fs : list afield) (oi : Z) (pd ps : list Z) (dst src : list value)
  : res (list Z * list value) :=
  match fs, dst, src with
  | [], [], [] => Done (pd, [])
  | (_, k, t, asg) :: fs', d :: dst', x :: src' =>
      let* (pd', v') := field_assign k t (clear t) asg oi pd ps d x in
      let* (pd'', vs') := fields_assign fs' (next_opt k oi) pd' ps dst' src' in
      Done (pd'', v' :: vs')
  | _, _, _ => UB
  end.

(** templates/TypeOneof.h:30-48  assign; set_<member> is templates/FieldMsg_GetSet.h:44-51 and its
    equivalents. *)
Definition oneof_assign (ms : list amember) (d s : Z * value) : res (Z * value) :=
  let d1 := if fst s =? fst d then d else oneof_clear ms d in
  match find_member ms (fst s) with
  | Some (t, asg) =>
      let d2 := if fst s =? fst d1 then d1 else oneof_init ms (fst s) d1 in
      let* v' := elem_set t asg (snd d2) (snd s) in Done (fst d2, v')
  | None => Done d1
  end.

(** The loops over the oneofs, templates/TypeDefMsg.h:54-56 and the same in operator=. *)
Fixpoint oneofs_assign (os : list (list amember)) (dst src : list (Z * value))
  : res (list (Z * value)) :=
  match os, dst, src with
  | [], [], [] => Done []
  | ms :: os', d :: dst', x :: src' =>
      let* o := oneof_assign ms d x in
      let* os'' := oneofs_assign os' dst' src' in Done (o :: os'')
  | _, _, _ => UB
  end.

(** operator= of an element class. FieldTemplate: src/Fields.h:184-188. FieldString/FieldBytes: the
    implicit copy assignment (the template operator= of src/FieldStringBytes.h:309-315 is not a copy
    assignment operator, the implicit one is preferred for equal MAX_LENGTH): all members are copied.
    Messages: templates/TypeDefMsg.h:100-144. *)
Fixpoint assign (t : ety) (dst src : value) : res value :=
  match t with
  | EScalar _ => match src with VS z => Done (VS z) | _ => UB end
  | EBytes _ _ => match src with VB _ _ => Done src | _ => UB end
  | EMsg fs os =>
      match dst, src with
      | VM pd vd od, VM ps vs ovs =>
          let* (p', v') :=
            fields_assign (map (fun '(num, k, t) => (num, k, t, assign t)) fs) 0 pd ps vd vs in
          let* o' := oneofs_assign (map (map (fun '(num, t) => (num, t, assign t))) os) od ovs in
          Done (VM p' v' o')
      | _, _ => UB
      end
  end.

(** Copy and move constructors of a message, templates/TypeDefMsg.h:38-80: the same statements as
    operator= on a default-initialised object. *)
Definition copy_construct (t : ety) (src : value) : res value := assign t (default_value t) src.

(* ------------------------------------------------------------------------------------------- *)
(** ** RepeatedFieldFixedSize modifiers *)

(** src/RepeatedFieldFixedSize.h:139-147  set(index, value) *)
Definition rep_set (asg : value -> value -> res value) (v : value) (index : Z) (x : value)
  : res (err * value) :=
  match v with
  | VR len data =>
      let (i, len') := rep_get len data index in
      let* old := aget data i in
      let* x' := asg old x in
      let* data' := aset data i x' in
      Done (NoErrors, VR len' data')
  | _ => UB
  end.

(** src/RepeatedFieldFixedSize.h:169-182  add(value) *)
Definition rep_add (asg : value -> value -> res value) (v : value) (x : value)
  : res (err * value) :=
  match v with
  | VR len data =>
      if len <? zlen data then
        let* old := aget data len in
        let* x' := asg old x in
        let* data' := aset data len x' in
        Done (NoErrors, VR (len + 1) data')
      else Done (ArrayFull, v)
  | _ => UB
  end.

(** src/RepeatedFieldFixedSize.h:149-167  set_data(data, length); the loop is 155-159. *)
Fixpoint rep_set_data_loop (asg : value -> value -> res value) (n : nat) (i : Z)
    (dst src : list value) : res (list value) :=
  match n with
  | O => Done dst
  | S n' =>
      let* y := aget src i in
      let* x := aget dst i in
      let* x' := asg x y in
      let* dst' := aset dst i x' in
      rep_set_data_loop asg n' (i + 1) dst' src
  end.

(** src/RepeatedFieldFixedSize.h:149-167  set_data(data, length). *)
Definition rep_set_data (asg : value -> value -> res value) (v : value) (src : list value) (len : Z)
  : res (err * value) :=
  match v with
  | VR cur data =>
      if len <=? zlen data then
        let* data' := rep_set_data_loop asg (Z.to_nat len) 0 data src in
        Done (NoErrors, VR len data')
      else Done (ArrayFull, v)
  | _ => UB
  end.

(** src/RepeatedFieldFixedSize.h:125-137  get_const(index, value) *)
Definition rep_get_const_checked (v : value) (index : Z) : res (err * option value) :=
  match v with
  | VR len data =>
      if index <? len then let* x := aget data index in Done (NoErrors, Some x)
      else Done (IndexOutOfBound, None)
  | _ => UB
  end.

(** src/RepeatedFieldFixedSize.h:61-66  copy constructor: every element is copy-constructed, also those
    behind current_length_. *)
Definition rep_copy_construct (t : ety) (src : value) : res value :=
  match src with
  | VR slen sdata => let* data := map_res (copy_construct t) sdata in Done (VR slen data)
  | _ => UB
  end.

(** src/RepeatedFieldFixedSize.h:68-74 and 76-82  constructor from a repeated field with a smaller
    MAX_LENGTH: std::copy of all elements of rhs into the default-initialised array of [max]
    elements. *)
Definition rep_construct_from_smaller (t : ety) (max : Z) (src : value) : res value :=
  match src with
  | VR slen sdata =>
      let* data := rep_set_data_loop (assign t) (length sdata) 0 (zrepeat (default_value t) max) sdata in
      Done (VR slen data)
  | _ => UB
  end.

(* ------------------------------------------------------------------------------------------- *)
(** ** Histories of API calls *)

(** The static type of an object an API call can be made on. *)
Inductive oty : Type := OElem (t : ety) | ORep (max : Z) (t : ety).

(** The type of the variable of a field: the class of its type, or RepeatedFieldFixedSize of it (Field.py:504-510).
    *)
Definition oty_of (k : fkind) (t : ety) : oty :=
  match k with KRep max => ORep max t | _ => OElem t end.

(** API calls. Nested calls go through mutable accessors. *)
Inductive op : Type :=
| OpScalarSet (z : Z)                     (* FieldTemplate::set / operator= / write through mutable_ *)
| OpClear                                 (* clear() *)
| OpAssign (src : value)                  (* operator= from an object of the same class *)
| OpSetFrom (src : value)                 (* set(const FieldStringBytes&) *)
| OpBytesSet (src : list Z) (len : Z)     (* set(const DATA_TYPE*, uint32_t) *)
| OpCStr (str : option (list Z))          (* FieldString::set(const char* ) / operator= *)
| OpBytesPut (index b : Z)                (* s[index] = b *)
| OpRepSet (index : Z) (src : value)      (* set(index, value) *)
| OpRepAdd (src : value)                  (* add(value) *)
| OpRepSetData (src : list value) (len : Z)  (* set_data(ptr, length) *)
| OpTouch                                 (* calling a mutable accessor without writing to it *)
| OpRepAt (index : Z) (o : op)            (* rep[index].o / mutable_rep(index).o *)
| OpField (pos : nat) (o : op)            (* mutable_f().o, set_f(..) *)
| OpClearField (pos : nat)                (* clear_f() *)
| OpOneof (pos : nat) (id : Z) (o : op)   (* mutable_m().o, set_m(..) of oneof member with number id *)
| OpOneofClear (pos : nat) (id : Z)       (* clear_m() of a oneof member *)
| OpDeserialize (bytes : list Z).         (* deserialize from a ReadBufferFixedSize holding bytes *)

(** The enumerator of presence::fields for the field at [pos], templates/TypeDefMsg.h:361-367. *)
Fixpoint opt_index (fs : list fdesc) (pos : nat) : Z :=
  match fs, pos with
  | [], _ | _, O => 0
  | (_, k, _) :: fs', S pos' => next_opt k 0 + opt_index fs' pos'
  end.

(** The members of a oneof without functions attached, templates/TypeDefMsg.h:403-415. *)
Definition members (ms : odesc) : list (Z * ety * unit) := map (fun '(num, t) => (num, t, tt)) ms.

(** One API call on an object of static type [ty] in state [v]; returns the Error (NoErrors for
    void functions) and the new state. Calls the class does not have are UB (they do not compile).
    mutable_f()/set_f(): templates/FieldBasic_GetSet.h:44-90, FieldMsg_GetSet.h:44-97,
    FieldString_GetSet.h:44-84, FieldRepeated_GetSet.h:85-92; oneof members: init when another
    member is active. clear_m(): templates/FieldBasic_GetSet.h:36-43 etc. *)
Fixpoint run_op (fuel : nat) (o : op) (ty : oty) (v : value) {struct o} : res (err * value) :=
  match o, ty with
  | OpScalarSet z, OElem (EScalar _) => Done (NoErrors, VS z)
  | OpTouch, _ => Done (NoErrors, v)
  | OpClear, OElem t => let* v' := clear t v in Done (NoErrors, v')
  | OpClear, ORep _ t => let* v' := rep_clear (clear t) v in Done (NoErrors, v')
  | OpAssign src, OElem t => let* v' := assign t v src in Done (NoErrors, v')
  | OpAssign src, ORep _ t => let* v' := rep_assign (assign t) v src in Done (NoErrors, v')
  | OpSetFrom src, OElem (EBytes _ _) => bytes_set_from v src
  | OpBytesSet src len, OElem (EBytes _ _) => bytes_set v src len
  | OpCStr str, OElem (EBytes true _) => string_set_cstr v str
  | OpBytesPut i b, OElem (EBytes _ _) => bytes_put v i b
  | OpRepSet i src, ORep _ t => rep_set (assign t) v i src
  | OpRepAdd src, ORep _ t => rep_add (assign t) v src
  | OpRepSetData src len, ORep _ t => rep_set_data (assign t) v src len
  | OpRepAt index o', ORep _ t =>
      match v with
      | VR len data =>
          let (i, len') := rep_get len data index in
          let* x := aget data i in
          let* (e, x') := run_op fuel o' (OElem t) x in
          let* data' := aset data i x' in
          Done (e, VR len' data')
      | _ => UB
      end
  | OpField pos o', OElem (EMsg fs os) =>
      match nth_error fs pos, v with
      | Some (_, KRecursive, _), _ => Done (NoErrors, v)
      | Some (_, k, t), VM pres vs ovs =>
          let* x := aget vs (Z.of_nat pos) in
          let* pres' := (match k with
                         | KOpt => presence_set pres (opt_index fs pos)
                         | _ => Done pres
                         end) in
          let* (e, x') := run_op fuel o' (oty_of k t) x in
          let* vs' := aset vs (Z.of_nat pos) x' in
          Done (e, VM pres' vs' ovs)
      | _, _ => UB
      end
  | OpClearField pos, OElem (EMsg fs os) =>
      match nth_error fs pos, v with
      | Some (_, k, t), VM pres vs ovs =>
          let* x := aget vs (Z.of_nat pos) in
          let* (pres', x') := field_clear k (clear t) (opt_index fs pos) pres x in
          let* vs' := aset vs (Z.of_nat pos) x' in
          Done (NoErrors, VM pres' vs' ovs)
      | _, _ => UB
      end
  | OpOneof pos id o', OElem (EMsg fs os) =>
      match nth_error os pos, v with
      | Some ms, VM pres vs ovs =>
          match find_member (members ms) id with
          | Some (t, _) =>
              let* d := aget ovs (Z.of_nat pos) in
              let d' := if id =? fst d then d else oneof_init (members ms) id d in
              let* (e, x') := run_op fuel o' (OElem t) (snd d') in
              let* ovs' := aset ovs (Z.of_nat pos) (fst d', x') in
              Done (e, VM pres vs ovs')
          | None => UB
          end
      | _, _ => UB
      end
  | OpOneofClear pos id, OElem (EMsg fs os) =>
      match nth_error os pos, v with
      | Some ms, VM pres vs ovs =>
          let* d := aget ovs (Z.of_nat pos) in
          let d' := match find_member (members ms) id with
                    | Some (t, _) => if id =? fst d then oneof_clear (members ms) d else d
                    | None => d
                    end in
          let* ovs' := aset ovs (Z.of_nat pos) d' in
          Done (NoErrors, VM pres vs ovs')
      | _, _ => UB
      end
  | OpDeserialize bytes, OElem (EMsg fs os) =>
      let* (e, v', _) := deserialize fuel (EMsg fs os) rfix (rfix_ops (zlen bytes)) v (rfix_of bytes) in
      Done (e, v')
  | _, _ => UB
  end.

(** A history: calls one after the other on one object, whatever they return. *)
Fixpoint run_ops (fuel : nat) (ops : list op) (ty : oty) (v : value) : res value :=
  match ops with
  | [] => Done v
  | o :: ops' => let* (_, v') := run_op fuel o ty v in run_ops fuel ops' ty v'
  end.

(* ------------------------------------------------------------------------------------------- *)
(** ** Getters *)

(** has_<field>() of the field at [pos]; templates/FieldBasic_GetSet.h:61-64. Fields without presence
    have no such method. *)
Definition has_field (fs : list fdesc) (v : value) (pos : nat) : res bool :=
  match nth_error fs pos, v with
  | Some (_, KOpt, _), VM pres _ _ => presence_has pres (opt_index fs pos)
  | _, _ => UB
  end.

(** get_which_<oneof>(), templates/TypeDefMsg.h:151 *)
Definition which_oneof (v : value) (pos : nat) : res Z :=
  match v with
  | VM _ _ ovs => let* o := aget ovs (Z.of_nat pos) in Done (fst o)
  | _ => UB
  end.

(** has_<member>() of a oneof member, templates/FieldBasic_GetSet.h:32-35, FieldMsg_GetSet.h:32-35,
    FieldString_GetSet.h:32-35. *)
Definition has_member (v : value) (pos : nat) (id : Z) : res bool :=
  let* which := which_oneof v pos in Done (id =? which).

(** A newly constructed object: src/Fields.h:129, src/FieldStringBytes.h:60,
    src/RepeatedFieldFixedSize.h:58, templates/TypeDefMsg.h:37. *)
Definition construct (ty : oty) : value :=
  match ty with
  | OElem t => default_value t
  | ORep max t => default_field_of (KRep max) (default_value t)
  end.
