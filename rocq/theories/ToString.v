(** * ToString: the to_string() methods (compiled with MSG_TO_STRING). *)
From Verif Require Import Base Buffers Wire Schema Fields Message Api Printf.
From Coq Require Import String.

(** src/Defines.h:76-83  string_view. [sv_pos] is the offset of data from the start of the array the
    user supplied; size is a uint32_t. *)
Record string_view : Type := { sv_pos : Z; sv_size : Z }.

(** The array and the view left_chars. *)
Definition sstate : Type := list Z * string_view.

(** snprintf(data, size, ...) where the arguments produce [text]: nothing is written for size 0;
    otherwise as much of the text as fits and a terminating 0. Writing outside the array is UB. The
    result is the length of the whole text, or negative when that is not an int. *)
Definition snprintf (mem : list Z) (v : string_view) (text : list Z) : res (list Z * Z) :=
  let ret := if zlen text <? 2 ^ 31 then zlen text else -1 in
  if sv_size v =? 0 then Done (mem, ret)
  else
    let k := Z.min (zlen text) (sv_size v - 1) in
    let* mem' := memcpy mem (sv_pos v) (firstn (Z.to_nat k) text ++ [0]) (k + 1) in
    Done (mem', ret).

(** snprintf followed by `if(0 < n_chars_used) { data += n_chars_used; size -= n_chars_used; }`, the
    pattern of all to_string functions (e.g. src/Fields.h:252-257). The result is n_chars_used and the
    new state. Moving the pointer beyond the array is not counted as UB by the model. *)
Definition put (text : list Z) (st : sstate) : res (Z * sstate) :=
  let (mem, v) := st in
  let* (mem', n) := snprintf mem v text in
  Done (n, (mem', if 0 <? n then {| sv_pos := sv_pos v + n; sv_size := u32 (sv_size v - n) |} else v)).

(** src/Fields.h:249-258: the comma after the previous field; same lines in the other functions. *)
Definition put_comma (first_field : bool) (st : sstate) : res sstate :=
  if first_field then Done st else let* (_, st') := put (chars "," ++ newline) st in Done st'.

(** "%*s\"%s\": " and its variants: the start of a field; [name] = None is nullptr. *)
Definition start_text (indent_level : Z) (name : option (list Z)) : list Z :=
  padding (s32 indent_level)
  ++ match name with Some n => quote ++ n ++ quote ++ chars ": " | None => [] end.

(** The text of a scalar, src/Fields.h:281-321. [fmt] is what printf("%f") makes of a float or double
    with the given bits. *)
Definition scalar_text (fmt : scalar -> Z -> list Z) (sc : scalar) (z : Z) : list Z :=
  match sc with
  | Int32 | SInt32 | SFixed32 | Int64 | SInt64 | SFixed64 | UInt32 | Fixed32 | UInt64 | Fixed64 => decimal z
  | Boolean => if z =? 0 then chars "false" else chars "true"
  | Enumeration => decimal (s32 z)
  | FloatFixed | DoubleFixed => fmt sc z
  end.

(** src/Fields.h:244-330  FieldTemplate::to_string *)
Definition scalar_to_string (fmt : scalar -> Z -> list Z) (sc : scalar) (v : value) (st : sstate)
    (indent_level : Z) (name : option (list Z)) (first_field : bool) : res sstate :=
  match v with
  | VS z =>
      let* st1 := put_comma first_field st in
      let* (_, st2) := put (start_text indent_level name) st1 in
      let* (_, st3) := put (scalar_text fmt sc z) st2 in
      Done st3
  | _ => UB
  end.

(** src/FieldStringBytes.h:354-387  FieldString::to_string. The characters are read as a C string. *)
Definition string_to_string (v : value) (st : sstate) (indent_level : Z) (name : option (list Z))
    (first_field : bool) : res sstate :=
  match v with
  | VB _ data =>
      let* st1 := put_comma first_field st in
      let* s := read_cstr data in
      let* (_, st2) := put (start_text indent_level name ++ quote ++ s ++ quote) st1 in
      Done st2
  | _ => UB
  end.

(** The loop over elements that share one to_string function, src/FieldStringBytes.h:467-471 and
    src/RepeatedField.h:287-290. [i] counts from 0, [n] is the number of elements left. *)
Fixpoint elements_to_string (get : Z -> res value) (ts : value -> sstate -> Z -> option (list Z) -> bool -> res sstate)
    (n : nat) (i : Z) (indent_level : Z) (st : sstate) : res sstate :=
  match n with
  | O => Done st
  | S n' =>
      let* x := get i in
      let* st' := ts x st indent_level None (i =? 0) in
      elements_to_string get ts n' (i + 1) indent_level st'
  end.

(** src/FieldStringBytes.h:434-482  FieldBytes::to_string and src/RepeatedField.h:262-301
    RepeatedField::to_string: the elements are indented by the length of the line before them. *)
Definition list_to_string (get : Z -> res value) (ts : value -> sstate -> Z -> option (list Z) -> bool -> res sstate)
    (len : Z) (st : sstate) (indent_level : Z) (name : option (list Z)) (first_field : bool) : res sstate :=
  let* st1 := put_comma first_field st in
  let* (n_chars_used, st2) := put (start_text indent_level name ++ chars "[" ++ newline) st1 in
  let* st3 := elements_to_string get ts (Z.to_nat len) 0 (u32 n_chars_used) st2 in
  let* (_, st4) := put (newline ++ padding (s32 (n_chars_used - 2)) ++ chars "]") st3 in
  Done st4.

(** src/FieldStringBytes.h:434-482  FieldBytes::to_string: every byte is printed as a uint32 field (467-471). *)
Definition bytes_to_string (fmt : scalar -> Z -> list Z) (v : value) : sstate -> Z -> option (list Z) -> bool -> res sstate :=
  match v with
  | VB len data =>
      list_to_string (fun i => let* b := bytes_get_const v i in Done (VS b)) (scalar_to_string fmt UInt32) len
  | _ => fun _ _ _ _ => UB
  end.

(** RepeatedField::to_string passes name to %s without checking it. *)
Definition rep_to_string (ts : value -> sstate -> Z -> option (list Z) -> bool -> res sstate) (v : value)
    (st : sstate) (indent_level : Z) (name : option (list Z)) (first_field : bool) : res sstate :=
  match v, name with
  | VR len data, Some _ => list_to_string (rep_get_const data) ts len st indent_level name first_field
  | _, _ => UB
  end.

(** to_string of an element class, with the names of the fields of nested messages found under a path
    of field numbers (the constants <FIELD>_NAME of the generated class,
    generator/EmbeddedProto/templates/TypeDefMsg.h:328). *)
Notation tostring := (list Z -> value -> sstate -> Z -> option (list Z) -> bool -> res sstate).

(** generator/EmbeddedProto/templates/TypeDefMsg.h:325-330: first_field is loop.first, also when the
    first field is left out because of recursion. Optional fields are written whether present or
    not. *)
Fixpoint fields_to_string (nm : list Z -> list Z) (path : list Z) (indent_level : Z)
    (fs : list (Z * fkind * tostring)) (first : bool) (vs : list value) (st : sstate) : res sstate :=
  match fs, vs with
  | [], [] => Done st
  | (num, k, ts) :: fs', v :: vs' =>
      let p := path ++ [num] in
      let* st' :=
        match k with
        | KPlain | KOpt => ts p v st indent_level (Some (nm p)) first
        | KRep _ => rep_to_string (ts p) v st indent_level (Some (nm p)) first
        | KRecursive => Done st
        end in
      fields_to_string nm path indent_level fs' false vs' st'
  | _, _ => UB
  end.

(** The case of the switch of to_string_<oneof>, generator/EmbeddedProto/templates/TypeOneof.h:142-160. *)
Fixpoint find_printer {X} (ms : list (Z * X)) (id : Z) : option X :=
  match ms with
  | [] => None
  | (num, x) :: ms' => if num =? id then Some x else find_printer ms' id
  end.

(** generator/EmbeddedProto/templates/TypeDefMsg.h:331-333 *)
Fixpoint oneofs_to_string (nm : list Z -> list Z) (path : list Z) (indent_level : Z)
    (os : list (list (Z * tostring))) (first : bool) (ovs : list (Z * value)) (st : sstate) : res sstate :=
  match os, ovs with
  | [], [] => Done st
  | ms :: os', (which, v) :: ovs' =>
      let* st' :=
        match find_printer ms which with
        | Some ts => ts (path ++ [which]) v st indent_level (Some (nm (path ++ [which]))) first
        | None => Done st
        end in
      oneofs_to_string nm path indent_level os' false ovs' st'
  | _, _ => UB
  end.

(** generator/EmbeddedProto/templates/TypeDefMsg.h:297-316: no spaces are written at indent level 0. *)
Definition msg_start_text (indent_level : Z) (name : option (list Z)) : list Z :=
  (if indent_level =? 0 then [] else padding (s32 indent_level))
  ++ match name with Some n => quote ++ n ++ quote ++ chars ": " | None => [] end
  ++ chars "{" ++ newline.
(** TypeDefMsg.h:334-341 *)
Definition msg_end_text (indent_level : Z) : list Z :=
  newline ++ (if indent_level =? 0 then [] else padding (s32 indent_level)) ++ chars "}".

(** generator/EmbeddedProto/templates/TypeDefMsg.h:280-350 *)
Definition msg_to_string (nm : list Z -> list Z) (fs : list (Z * fkind * tostring))
    (os : list (list (Z * tostring))) : tostring :=
  fun path v st indent_level name first_field =>
  match v with
  | VM _ vs ovs =>
      let* st1 := put_comma first_field st in
      let* (_, st2) := put (msg_start_text indent_level name) st1 in
      let* st3 := fields_to_string nm path (u32 (indent_level + 2)) fs true vs st2 in
      let* st4 := oneofs_to_string nm path (u32 (indent_level + 2)) os
                    (match fs with [] => true | _ => false end) ovs st3 in
      let* (_, st5) := put (msg_end_text indent_level) st4 in
      Done st5
  | _ => UB
  end.

(** to_string of the class of a type: src/Fields.h:244, src/FieldStringBytes.h:354,434,
    templates/TypeDefMsg.h:280-350. *)
Fixpoint elem_to_string (fmt : scalar -> Z -> list Z) (nm : list Z -> list Z) (t : ety) : tostring :=
  match t with
  | EScalar sc => fun _ => scalar_to_string fmt sc
  | EBytes true _ => fun _ => string_to_string
  | EBytes false _ => fun _ => bytes_to_string fmt
  | EMsg fs os =>
      msg_to_string nm (List.map (fun '(num, k, t) => (num, k, elem_to_string fmt nm t)) fs)
                       (List.map (List.map (fun '(num, t) => (num, elem_to_string fmt nm t))) os)
  end.

(** generator/EmbeddedProto/templates/TypeDefMsg.h:275-278  to_string(str) *)
Definition to_string (fmt : scalar -> Z -> list Z) (nm : list Z -> list Z) (t : ety) (v : value) (st : sstate)
  : res sstate := elem_to_string fmt nm t [] v st 0 None true.
