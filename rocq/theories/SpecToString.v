(** * SpecToString: what to_string() is supposed to print.

    The layout of the text, and the JSON grammar. *)
From Verif Require Import Base Schema Spec Printf.
From Coq Require Import String.

(** A document: the tree the text shows. An object has one slot per field and per oneof of the message
    class; slots of fields that are not printed (recursive fields and unset oneofs) are empty. *)
Inductive doc : Type :=
| DInt (z : Z)
| DBool (b : bool)
| DReal (text : list Z)
| DStr (s : list Z)
| DList (elements : list doc)
| DObj (slots : list (option (list Z * doc))).

(** ** Layout *)

(** A quotation mark and the end of a line. *)
Definition mark : list Z := [34].
Definition line_end : list Z := [10].

(** Items behind each other; a comma in front of every item that is not in the first slot. *)
Fixpoint separate (first : bool) (items : list (option (list Z))) : list Z :=
  match items with
  | [] => []
  | None :: items' => separate false items'
  | Some s :: items' => (if first then [] else chars "," ++ line_end) ++ s ++ separate false items'
  end.

(** Start of a line: spaces and the name. *)
Definition key (name : option (list Z)) : list Z :=
  match name with Some n => mark ++ n ++ mark ++ chars ": " | None => [] end.
Definition indent (i : Z) : list Z := zrepeat 32 i.

(** A value at indentation [i], with the name of the field it belongs to. Elements of lists are
    indented by the length of the line that opens the list, members of objects by two more than the
    object. Only an object can be at indentation 0. *)
Fixpoint layout (d : doc) (i : Z) (name : option (list Z)) : list Z :=
  match d with
  | DInt z => indent i ++ key name ++ decimal z
  | DBool b => indent i ++ key name ++ chars (if b then "true" else "false")
  | DReal s => indent i ++ key name ++ s
  | DStr s => indent i ++ key name ++ mark ++ s ++ mark
  | DList ds =>
      let line := indent i ++ key name ++ chars "[" ++ line_end in
      line ++ separate true (map (fun d => Some (layout d (zlen line) None)) ds)
      ++ line_end ++ indent (zlen line - 2) ++ chars "]"
  | DObj slots =>
      indent i ++ key name ++ chars "{" ++ line_end
      ++ separate true (map (option_map (fun '(n, d) => layout d (i + 2) (Some n))) slots)
      ++ line_end ++ indent i ++ chars "}"
  end.

(** ** The document of a message object *)

(** The characters before the first 0. *)
Fixpoint until_zero (s : list Z) : list Z :=
  match s with
  | [] => []
  | c :: s' => if c =? 0 then [] else c :: until_zero s'
  end.

Definition scalar_doc (fmt : scalar -> Z -> list Z) (sc : scalar) (z : Z) : doc :=
  match sc with
  | Boolean => DBool (negb (z =? 0))
  | Enumeration => DInt (to_signed 32 z)
  | FloatFixed | DoubleFixed => DReal (fmt sc z)
  | _ => DInt z
  end.

Definition field_slot (k : fkind) (name : list Z) (d : value -> doc) (v : value) : option (list Z * doc) :=
  match k with
  | KPlain | KOpt => Some (name, d v)
  | KRep _ => match v with
              | VR len data => Some (name, DList (map d (firstn (Z.to_nat len) data)))
              | _ => None
              end
  | KRecursive => None
  end.

Fixpoint field_slots (nm : Z -> list Z) (fs : list (Z * fkind * (value -> doc))) (vs : list value)
  : list (option (list Z * doc)) :=
  match fs, vs with
  | (num, k, d) :: fs', v :: vs' => field_slot k (nm num) d v :: field_slots nm fs' vs'
  | _, _ => []
  end.

Definition oneof_slot (nm : Z -> list Z) (ms : list (Z * (value -> doc))) (o : Z * value) : option (list Z * doc) :=
  match lookup ms (fst o) with
  | Some d => Some (nm (fst o), d (snd o))
  | None => None
  end.

Fixpoint oneof_slots (nm : Z -> list Z) (os : list (list (Z * (value -> doc)))) (ovs : list (Z * value))
  : list (option (list Z * doc)) :=
  match os, ovs with
  | ms :: os', o :: ovs' => oneof_slot nm ms o :: oneof_slots nm os' ovs'
  | _, _ => []
  end.

(** [fmt] is the text of floats and doubles, [nm] gives the name of a field from the field numbers that
    lead to it. *)
Fixpoint document (fmt : scalar -> Z -> list Z) (nm : list Z -> list Z) (t : ety) (path : list Z) (v : value) : doc :=
  match t, v with
  | EScalar sc, VS z => scalar_doc fmt sc z
  | EBytes true _, VB len data => DStr (until_zero data)
  | EBytes false _, VB len data => DList (map DInt (firstn (Z.to_nat len) data))
  | EMsg fs os, VM _ vs ovs =>
      DObj (field_slots (fun num => nm (path ++ [num]))
              (map (fun '(num, k, t) => (num, k, document fmt nm t (path ++ [num]))) fs) vs
            ++ oneof_slots (fun num => nm (path ++ [num]))
                 (map (map (fun '(num, t) => (num, document fmt nm t (path ++ [num])))) os) ovs)
  | _, _ => DObj []
  end.

(** The same from what the getters show ([sval], Spec.v); an absent optional field shows its default. *)
Definition sfield_slot (k : fkind) (name : list Z) (t : ety) (d : sval -> doc) (v : sval) : option (list Z * doc) :=
  match k with
  | KPlain => Some (name, d v)
  | KOpt => Some (name, match v with SvSome x => d x | _ => d (sdefault t) end)
  | KRep _ => match v with SvR xs => Some (name, DList (map d xs)) | _ => None end
  | KRecursive => None
  end.

Fixpoint sfield_slots (nm : Z -> list Z) (fs : list (Z * fkind * ety * (sval -> doc))) (vs : list sval)
  : list (option (list Z * doc)) :=
  match fs, vs with
  | (num, k, t, d) :: fs', v :: vs' => sfield_slot k (nm num) t d v :: sfield_slots nm fs' vs'
  | _, _ => []
  end.

Definition soneof_slot (nm : Z -> list Z) (ms : list (Z * (sval -> doc))) (o : Z * sval) : option (list Z * doc) :=
  match o with
  | (num, SvSome x) => match lookup ms num with Some d => Some (nm num, d x) | None => None end
  | _ => None
  end.

Fixpoint soneof_slots (nm : Z -> list Z) (os : list (list (Z * (sval -> doc)))) (ovs : list (Z * sval))
  : list (option (list Z * doc)) :=
  match os, ovs with
  | ms :: os', o :: ovs' => soneof_slot nm ms o :: soneof_slots nm os' ovs'
  | _, _ => []
  end.

Fixpoint sdocument (fmt : scalar -> Z -> list Z) (nm : list Z -> list Z) (t : ety) (path : list Z) (v : sval) : doc :=
  match t, v with
  | EScalar sc, SvZ z => scalar_doc fmt sc z
  | EBytes true _, SvB bs => DStr bs
  | EBytes false _, SvB bs => DList (map DInt bs)
  | EMsg fs os, SvM vs ovs =>
      DObj (sfield_slots (fun num => nm (path ++ [num]))
              (map (fun '(num, k, t) => (num, k, t, sdocument fmt nm t (path ++ [num]))) fs) vs
            ++ soneof_slots (fun num => nm (path ++ [num]))
                 (map (map (fun '(num, t) => (num, sdocument fmt nm t (path ++ [num])))) os) ovs)
  | _, _ => DObj []
  end.

(** ** Strings that are printed *)

(** [P] holds of every string object that to_string shows. *)
Definition strings_field (k : fkind) (s : value -> Prop) (v : value) : Prop :=
  match k with
  | KPlain | KOpt => s v
  | KRep _ => match v with VR len data => all s (firstn (Z.to_nat len) data) | _ => True end
  | KRecursive => True
  end.
Definition strings_oneof (ms : list (Z * (value -> Prop))) (o : Z * value) : Prop :=
  match lookup ms (fst o) with Some s => s (snd o) | None => True end.

Fixpoint strings (P : Z -> list Z -> Prop) (t : ety) (v : value) : Prop :=
  match t, v with
  | EBytes true _, VB len data => P len data
  | EMsg fs os, VM _ vs ovs =>
      all2 (fun '(_, k, t) => strings_field k (strings P t)) fs vs
      /\ all2 (fun ms => strings_oneof (map (fun '(num, t) => (num, strings P t)) ms)) os ovs
  | _, _ => True
  end.

(** There is a terminating 0 in the array. *)
Definition terminated (len : Z) (data : list Z) : Prop := In 0 data.

(** Read as a C string it is the content. *)
Definition reads_back (len : Z) (data : list Z) : Prop := until_zero data = firstn (Z.to_nat len) data.

(** ** JSON (RFC 8259) *)

Definition white (s : list Z) : Prop := Forall (fun c => c = 32 \/ c = 9 \/ c = 10 \/ c = 13) s.
(** Characters that stand for themselves in a string: not a quote, a backslash or a control character. *)
Definition plain_char (c : Z) : Prop := 32 <= c /\ c <> 34 /\ c <> 92.
Definition digit (c : Z) : Prop := 48 <= c <= 57.

(** The number a digit sequence stands for, most significant first. *)
Definition digits_value (s : list Z) : Z := fold_left (fun a c => 10 * a + (c - 48)) s 0.
(** No superfluous leading zeros. *)
Definition natural_text (s : list Z) : Prop := Forall digit s /\ s <> [] /\ (hd 0 s = 48 -> s = [48]).
Inductive integer_text : list Z -> Z -> Prop :=
| it_nonneg s : natural_text s -> integer_text s (digits_value s)
| it_neg s : natural_text s -> integer_text (45 :: s) (- digits_value s).

(** Numbers: an integer, then optionally a fraction and an exponent. *)
Definition fraction_text (f : list Z) : Prop := f = [] \/ exists s, f = [46] ++ s /\ Forall digit s /\ s <> [].
Definition exponent_text (x : list Z) : Prop :=
  x = [] \/ exists e sign s, x = [e] ++ sign ++ s /\ (e = 101 \/ e = 69) /\ (sign = [] \/ sign = [43] \/ sign = [45])
            /\ Forall digit s /\ s <> [].
Inductive number_text : list Z -> Prop :=
| nt s z f x : integer_text s z -> fraction_text f -> exponent_text x -> number_text (s ++ f ++ x).

(** Strings: the text between the quotes and the bytes it stands for. A character stands for itself or is
    written as an escape sequence; \u sequences stand for the UTF-8 encoding of a code point, those beyond
    16 bits are written as two surrogates. *)
Definition short_escape (e c : Z) : Prop :=
  In (e, c) [(34, 34); (92, 92); (47, 47); (98, 8); (102, 12); (110, 10); (114, 13); (116, 9)].
Definition hex (c v : Z) : Prop :=
  (48 <= c <= 57 /\ v = c - 48) \/ (65 <= c <= 70 /\ v = c - 55) \/ (97 <= c <= 102 /\ v = c - 87).
Inductive unit_text : list Z -> Z -> Prop :=
| ut a b c d va vb vc vd : hex a va -> hex b vb -> hex c vc -> hex d vd ->
    unit_text [92; 117; a; b; c; d] (4096 * va + 256 * vb + 16 * vc + vd).
Definition utf8 (c : Z) : list Z :=
  if c <? 128 then [c]
  else if c <? 2048 then [192 + c / 64; 128 + c mod 64]
  else if c <? 65536 then [224 + c / 4096; 128 + c / 64 mod 64; 128 + c mod 64]
  else [240 + c / 262144; 128 + c / 4096 mod 64; 128 + c / 64 mod 64; 128 + c mod 64].
Inductive string_text : list Z -> list Z -> Prop :=
| st_end : string_text [] []
| st_plain c s x : plain_char c -> string_text s x -> string_text (c :: s) (c :: x)
| st_short e c s x : short_escape e c -> string_text s x -> string_text ([92; e] ++ s) ([c] ++ x)
| st_unit u c s x : unit_text u c -> ~ (55296 <= c < 57344) -> string_text s x -> string_text (u ++ s) (utf8 c ++ x)
| st_pair u1 c1 u2 c2 s x : unit_text u1 c1 -> 55296 <= c1 < 56320 -> unit_text u2 c2 -> 56320 <= c2 < 57344 ->
    string_text s x ->
    string_text (u1 ++ u2 ++ s) (utf8 (65536 + 1024 * (c1 - 55296) + (c2 - 56320)) ++ x).

(** The members that are there. *)
Fixpoint members (slots : list (option (list Z * doc))) : list (list Z * doc) :=
  match slots with
  | [] => []
  | None :: slots' => members slots'
  | Some m :: slots' => m :: members slots'
  end.

Inductive value_text : list Z -> doc -> Prop :=
| vt_int s (z : Z) : integer_text s z -> value_text s (DInt z)
| vt_bool (b : bool) : value_text (chars (if b then "true" else "false")) (DBool b)
| vt_real s : number_text s -> value_text s (DReal s)
| vt_str s x : string_text s x -> value_text (mark ++ s ++ mark) (DStr x)
| vt_list s ds : elements_text s ds -> value_text ([91] ++ s ++ [93]) (DList ds)
| vt_obj s slots : members_text s (members slots) -> value_text ([123] ++ s ++ [125]) (DObj slots)
(** What is between the brackets of a list. *)
with elements_text : list Z -> list doc -> Prop :=
| el_none w : white w -> elements_text w []
| el_one w1 s w2 d : white w1 -> value_text s d -> white w2 -> elements_text (w1 ++ s ++ w2) [d]
| el_more w1 s w2 d s' d' ds : white w1 -> value_text s d -> white w2 -> elements_text s' (d' :: ds) ->
    elements_text (w1 ++ s ++ w2 ++ [44] ++ s') (d :: d' :: ds)
(** What is between the braces of an object. *)
with members_text : list Z -> list (list Z * doc) -> Prop :=
| mb_none w : white w -> members_text w []
| mb_one s m : member_text s m -> members_text s [m]
| mb_more s m s' m' ms : member_text s m -> members_text s' (m' :: ms) ->
    members_text (s ++ [44] ++ s') (m :: m' :: ms)
with member_text : list Z -> list Z * doc -> Prop :=
| mt w1 e n w2 w3 s w4 d : white w1 -> string_text e n -> white w2 -> white w3 -> value_text s d -> white w4 ->
    member_text (w1 ++ mark ++ e ++ mark ++ w2 ++ [58] ++ w3 ++ s ++ w4) (n, d).

(** A JSON text. *)
Definition json_text (s : list Z) (d : doc) : Prop :=
  exists w1 v w2, s = w1 ++ v ++ w2 /\ white w1 /\ value_text v d /\ white w2.

(** ** What has to hold for the text to be JSON *)

(** The text starts with a member (or there is none): the first slot is filled unless all are empty. *)
Definition well_started (slots : list (option (list Z * doc))) : Prop :=
  match slots with None :: _ => members slots = [] | _ => True end.

Fixpoint doc_ok (d : doc) : Prop :=
  match d with
  | DInt _ | DBool _ => True
  | DReal s => number_text s
  | DStr s => Forall plain_char s
  | DList ds => all doc_ok ds
  | DObj slots =>
      well_started slots
      /\ all (fun o => match o with Some (n, d) => Forall plain_char n /\ doc_ok d | None => True end) slots
  end.
