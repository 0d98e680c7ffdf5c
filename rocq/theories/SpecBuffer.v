(** * SpecBuffer: abstract behaviour of the buffers, and sequences of calls on them. *)
From Verif Require Import Base Buffers.

(* ------------------------------------------------------------------------------------------- *)
(** ** Write buffer: a log of bytes *)

(** Calls on a write buffer. [WPushN src len] pushes the first [len] bytes of the array [src]. *)
Inductive wcall : Type := WPush (b : Z) | WPushN (src : list Z) (len : Z) | WClear.

(** Legal arguments: bytes, and a length that does not exceed the array behind the pointer. *)
Definition wcall_legal (c : wcall) : Prop :=
  match c with
  | WPush b => is_byte b
  | WPushN src len => Forall is_byte src /\ 0 <= len <= zlen src
  | WClear => True
  end.

(** Run the calls; returns the booleans returned by each call (clear counts as true). *)
Fixpoint run_wcalls {S} (W : wops S) (cs : list wcall) (s : S) : res (list bool * S) :=
  match cs with
  | [] => Done ([], s)
  | c :: cs' =>
      let* (ok, s1) := match c with
                       | WPush b => w_push W s b
                       | WPushN src len => w_pushn W s src len
                       | WClear => Done (true, w_clear W s)
                       end in
      let* (oks, s2) := run_wcalls W cs' s1 in
      Done (ok :: oks, s2)
  end.

(** The bytes accepted since the last clear, in order. *)
Fixpoint log (cs : list wcall) (oks : list bool) (acc : list Z) : list Z :=
  match cs, oks with
  | WPush b :: cs', true :: oks' => log cs' oks' (acc ++ [b])
  | WPushN src len :: cs', true :: oks' => log cs' oks' (acc ++ firstn (Z.to_nat len) src)
  | WClear :: cs', _ :: oks' => log cs' oks' []
  | _ :: cs', _ :: oks' => log cs' oks' acc
  | _, _ => acc
  end.

(* ------------------------------------------------------------------------------------------- *)
(** ** Read buffer: a queue *)

(** Calls on a read buffer (push and clear only on the fixed-size class). *)
Inductive rcall : Type := RPush (b : Z) | RPop | RPeek | RAdvance | RAdvanceN (n : Z) | RClear.

(** What a call returns: a boolean, or a boolean with a byte. *)
Inductive rout : Type := OBool (b : bool) | OByte (o : option Z).

(** Run on a fixed-size read buffer. *)
Definition rfix_call (cap : Z) (c : rcall) (s : rfix) : res (rout * rfix) :=
  match c with
  | RPush b => let* (ok, s') := rfix_push cap s b in Done (OBool ok, s')
  | RPop => let* (o, s') := rfix_pop s in Done (OByte o, s')
  | RPeek => let* o := rfix_peek s in Done (OByte o, s)
  | RAdvance => let* (ok, s') := rfix_advance s in Done (OBool ok, s')
  | RAdvanceN n => let* (ok, s') := rfix_advance_n s n in Done (OBool ok, s')
  | RClear => Done (OBool true, rfix_clear s)
  end.

Fixpoint run_rfix (cap : Z) (cs : list rcall) (s : rfix) : res (list rout * rfix) :=
  match cs with
  | [] => Done ([], s)
  | c :: cs' => let* (o, s1) := rfix_call cap c s in
                let* (os, s2) := run_rfix cap cs' s1 in Done (o :: os, s2)
  end.

(** The abstract queue: how many bytes were pushed since the last clear, and the unread ones. *)
Definition queue_call (cap : Z) (c : rcall) (st : Z * list Z) : rout * (Z * list Z) :=
  let (pushed, q) := st in
  match c with
  | RPush b => if pushed <? cap then (OBool true, (pushed + 1, q ++ [b])) else (OBool false, st)
  | RPop => match q with [] => (OByte None, st) | b :: q' => (OByte (Some b), (pushed, q')) end
  | RPeek => match q with [] => (OByte None, st) | b :: _ => (OByte (Some b), st) end
  | RAdvance => match q with [] => (OBool false, st) | _ :: q' => (OBool true, (pushed, q')) end
  | RAdvanceN n => if n <=? zlen q then (OBool true, (pushed, skipn (Z.to_nat n) q)) else (OBool false, st)
  | RClear => (OBool true, (0, []))
  end.

Fixpoint run_queue (cap : Z) (cs : list rcall) (st : Z * list Z) : list rout * (Z * list Z) :=
  match cs with
  | [] => ([], st)
  | c :: cs' => let (o, st1) := queue_call cap c st in
                let (os, st2) := run_queue cap cs' st1 in (o :: os, st2)
  end.

(* ------------------------------------------------------------------------------------------- *)
(** ** Section: a window on a parent *)

(** Calls on any read buffer through its interface (no push, no clear: these return [None]). *)
Definition reader_call {S} (R : rops S) (c : rcall) (s : S) : res (rout * S) :=
  match c with
  | RPop => let* (o, s') := r_pop R s in Done (OByte o, s')
  | RPeek => let* o := r_peek R s in Done (OByte o, s)
  | RAdvance => let* (ok, s') := r_advance R s in Done (OBool ok, s')
  | RAdvanceN n => let* (ok, s') := r_advance_n R s n in Done (OBool ok, s')
  | RPush _ | RClear => UB
  end.

Fixpoint run_reader {S} (R : rops S) (cs : list rcall) (s : S) : res (list rout * S) :=
  match cs with
  | [] => Done ([], s)
  | c :: cs' => let* (o, s1) := reader_call R c s in
                let* (os, s2) := run_reader R cs' s1 in Done (o :: os, s2)
  end.

(** The window as a list: pop, peek and advance() as in a queue; advance(N) skips N bytes or all that
    are left. The boolean of advance(N) is the subject of another property: [None] in the trace. *)
Definition window_call (c : rcall) (w : list Z) : option rout * list Z :=
  match c with
  | RPop => match w with [] => (Some (OByte None), []) | b :: w' => (Some (OByte (Some b)), w') end
  | RPeek => match w with [] => (Some (OByte None), []) | b :: _ => (Some (OByte (Some b)), w) end
  | RAdvance => match w with [] => (Some (OBool false), []) | _ :: w' => (Some (OBool true), w') end
  | RAdvanceN n => (None, skipn (Z.to_nat n) w)
  | RPush _ | RClear => (None, w)
  end.

Fixpoint run_window (cs : list rcall) (w : list Z) : list (option rout) * list Z :=
  match cs with
  | [] => ([], w)
  | c :: cs' => let (o, w1) := window_call c w in
                let (os, w2) := run_window cs' w1 in (o :: os, w2)
  end.

(** Observed outputs agree with the expected ones wherever these say something. *)
Definition agree (expected : option rout) (got : rout) : Prop :=
  match expected with Some o => got = o | None => True end.

(** Calls a user can make on a section: no push or clear, and unsigned arguments. *)
Definition section_call (c : rcall) : Prop :=
  match c with RPush _ | RClear => False | RAdvanceN n => 0 <= n < 2 ^ 32 | _ => True end.

(** The same, where an advance(N) never asks for more than the window holds at that point. *)
Fixpoint within (cs : list rcall) (w : list Z) : Prop :=
  match cs with
  | [] => True
  | c :: cs' => match c with RAdvanceN n => n <= zlen w | _ => True end
                /\ within cs' (snd (window_call c w))
  end.

(* ------------------------------------------------------------------------------------------- *)
(** ** The state of a read buffer *)

(** A fixed-size read buffer of [cap] bytes into which [old ++ l] was pushed and from which [old] was consumed. *)
Definition rfix_at (cap : Z) (b : rfix) (old l : list Z) : Prop :=
  zlen (rf_data b) = cap /\ cap < 2 ^ 32 /\ Forall is_byte (rf_data b)
  /\ rf_r b = zlen old /\ rf_w b = zlen (old ++ l) /\ firstn (Z.to_nat (rf_w b)) (rf_data b) = old ++ l.

(** The buffer with the consumed bytes in view. As the queue, except that an advance(N) for which the consumed
    bytes and N together reach 2^32 goes back among the consumed bytes. *)
Definition tape_call (cap : Z) (c : rcall) (st : list Z * list Z) : rout * (list Z * list Z) :=
  let (old, l) := st in
  match c with
  | RPush b => if zlen old + zlen l <? cap then (OBool true, (old, l ++ [b])) else (OBool false, st)
  | RPop => match l with [] => (OByte None, st) | b :: l' => (OByte (Some b), (old ++ [b], l')) end
  | RPeek => match l with [] => (OByte None, st) | b :: _ => (OByte (Some b), st) end
  | RAdvance => match l with [] => (OBool false, st) | b :: l' => (OBool true, (old ++ [b], l')) end
  | RAdvanceN n =>
      if 2 ^ 32 <=? zlen old + n then
        let k := Z.to_nat (zlen old + n - 2 ^ 32) in (OBool true, (firstn k old, skipn k old ++ l))
      else if n <=? zlen l then (OBool true, (old ++ firstn (Z.to_nat n) l, skipn (Z.to_nat n) l))
      else (OBool false, st)
  | RClear => (OBool true, ([], []))
  end.

Fixpoint run_tape (cap : Z) (cs : list rcall) (st : list Z * list Z) : list rout * (list Z * list Z) :=
  match cs with
  | [] => ([], st)
  | c :: cs' => let (o, st1) := tape_call cap c st in
                let (os, st2) := run_tape cap cs' st1 in (o :: os, st2)
  end.
