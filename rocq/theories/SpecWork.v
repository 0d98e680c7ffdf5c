(** * SpecWork: counting the calls made to a buffer.

    [counted_reader R] is the read buffer [R] with a counter beside it: every call of one of the functions
    that change the buffer (pop, advance, advance(N)) adds one to it, and nothing else changes. A user could
    write such a class around any ReadBufferInterface (src/ReadBufferInterface.h:43-92). *)
From Verif Require Import Base Buffers Schema Spec.

Definition counted_reader {S} (R : rops S) : rops (S * Z) := {|
  r_get_size := fun s => r_get_size R (fst s);
  r_get_max_size := fun s => r_get_max_size R (fst s);
  r_peek := fun s => r_peek R (fst s);
  r_advance := fun s => let* (ok, s') := r_advance R (fst s) in Done (ok, (s', snd s + 1));
  r_advance_n := fun s n => let* (ok, s') := r_advance_n R (fst s) n in Done (ok, (s', snd s + 1));
  r_pop := fun s => let* (ob, s') := r_pop R (fst s) in Done (ob, (s', snd s + 1))
|}.

(** The same for a write buffer (src/WriteBufferInterface.h:46-81): both push() functions are counted. *)
Definition counted_writer {S} (W : wops S) : wops (S * Z) := {|
  w_clear := fun s => (w_clear W (fst s), snd s);
  w_get_size := fun s => w_get_size W (fst s);
  w_get_max_size := fun s => w_get_max_size W (fst s);
  w_get_available_size := fun s => w_get_available_size W (fst s);
  w_push := fun s b => let* (ok, s') := w_push W (fst s) b in Done (ok, (s', snd s + 1));
  w_pushn := fun s src len => let* (ok, s') := w_pushn W (fst s) src len in Done (ok, (s', snd s + 1))
|}.

(** [work t x]: how many calls of push() it takes to write the value [x], those made to find out sizes
    included. Every byte of a tag, a length or a number is one call, the content of a string is one call.
    A message in a message is gone through twice (once for its size), a list of numbers as well, a message or
    string in a list four times (the size of the list, and in both passes the size of the element). *)
Definition header (num : Z) (p : list Z) : Z := zlen (tag num LENDEL) + zlen (varint (zlen p)).
Definition again (p : list Z) (n : Z) : Z := match p with [] => 0 | _ => n end.

Definition work_elem (num : Z) (t : ety) (p : list Z) (w : Z) : Z :=
  match t with
  | EScalar sc => zlen (tag num (scalar_wiretype sc)) + zlen p
  | EBytes _ _ => header num p + again p 1
  | EMsg _ _ => w + header num p + w
  end.

Definition work_item (num : Z) (e : sval -> list Z) (w : sval -> Z) (x : sval) : Z :=
  w x + header num (e x) + again (e x) (w x).

Definition zsum (l : list Z) : Z := fold_right Z.add 0 l.

Definition work_field (num : Z) (k : fkind) (t : ety) (e : sval -> list Z) (w : sval -> Z) (v : sval) : Z :=
  match k, v with
  | KPlain, _ =>
      match t, v with
      | EScalar sc, SvZ z => if is_zero sc z then 0 else work_elem num t (e v) (w v)
      | EBytes _ _, _ => again (e v) (work_elem num t (e v) (w v))
      | _, _ => match e v with [] => w v | _ => work_elem num t (e v) (w v) end
      end
  | KOpt, SvSome x => work_elem num t (e x) (w x)
  | KRep _, SvR l =>
      match t with
      | EScalar _ => let p := flat_map e l in zlen p + again p (header num p + zlen p)
      | _ => 2 * zsum (map (work_item num e w) l)
      end
  | _, _ => 0
  end.

Fixpoint work_fields (fs : list (Z * fkind * ety * (sval -> list Z) * (sval -> Z))) (vs : list sval) : Z :=
  match fs, vs with
  | (num, k, t, e, w) :: fs', v :: vs' => work_field num k t e w v + work_fields fs' vs'
  | _, _ => 0
  end.

Definition work_oneof (ms : list (Z * (ety * (sval -> list Z) * (sval -> Z)))) (o : Z * sval) : Z :=
  match lookup ms (fst o), snd o with
  | Some (t, e, w), SvSome x => work_elem (fst o) t (e x) (w x)
  | _, _ => 0
  end.

Fixpoint work_oneofs (os : list (list (Z * (ety * (sval -> list Z) * (sval -> Z))))) (vs : list (Z * sval)) : Z :=
  match os, vs with
  | ms :: os', o :: vs' => work_oneof ms o + work_oneofs os' vs'
  | _, _ => 0
  end.

Fixpoint work (t : ety) (v : sval) : Z :=
  match t with
  | EScalar _ => zlen (enc t v)
  | EBytes _ _ => 1
  | EMsg fs os =>
      match v with
      | SvM vs ovs =>
          work_fields (map (fun '(num, k, t) => (num, k, t, enc t, work t)) fs) vs
          + work_oneofs (map (map (fun '(num, t) => (num, (t, enc t, work t)))) os) ovs
      | _ => 0
      end
  end.

(** How deep messages are nested in each other. *)
Fixpoint depth (t : ety) : Z :=
  match t with
  | EMsg fs os => 1 + Z.max (fold_right Z.max 0 (map (fun f => depth (snd f)) fs))
                            (fold_right Z.max 0 (map (fun ms => fold_right Z.max 0 (map (fun m => depth (snd m)) ms)) os))
  | _ => 0
  end.

(** How often the bytes of a field are gone through at most: numbers and strings once, lists of numbers twice, lists of
    strings three times (an empty one is written in two bytes and takes six calls), messages twice and messages in lists four
    times as often as on their own. *)
Definition passes_field (k : fkind) (t : ety) (c : Z) : Z :=
  match k, t with
  | KRep _, EScalar _ => 2
  | KRep _, EBytes _ _ => 3
  | KRep _, EMsg _ _ => 4 * c
  | _, EMsg _ _ => 2 * c
  | _, _ => 1
  end.
(** The same for a message: the largest of its fields. *)
Fixpoint passes (t : ety) : Z :=
  match t with
  | EMsg fs os => Z.max 1 (Z.max (fold_right Z.max 0 (map (fun f : fdesc => passes_field (snd (fst f)) (snd f) (passes (snd f))) fs))
                                 (fold_right Z.max 0 (map (fun ms : odesc => fold_right Z.max 0 (map (fun m : Z * ety => passes_field KPlain (snd m) (passes (snd m))) ms)) os)))
  | _ => 1
  end.

(** Messages nested [n] deep around `message M0 { uint32 u = 1; }`: `message Mn { Mn-1 m = 1; }`, or
    `message Mn { repeated Mn-1 m = 1; }` with one element. The innermost number is 1. *)
Fixpoint nest (rep : bool) (n : nat) : ety :=
  match n with
  | O => EMsg [(1, KPlain, EScalar UInt32)] []
  | S n' => EMsg [(1, if rep then KRep 1 else KPlain, nest rep n')] []
  end.
Fixpoint nest_v (rep : bool) (n : nat) : value :=
  match n with
  | O => VM [] [VS 1] []
  | S n' => VM [] [if rep then VR 1 [nest_v rep n'] else nest_v rep n'] []
  end.
