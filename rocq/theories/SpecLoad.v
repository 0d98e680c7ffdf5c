(** * SpecLoad: filling a ReadBufferFixedSize through get_data() and set_bytes_written(), mixed with the
    other calls. *)
From Verif Require Import Base Buffers SpecBuffer.

(** src/ReadBufferFixedSize.h:112-116  the caller copies [bytes] to the start of the array get_data()
    points to; the array keeps its other bytes. Only meaningful for at most BUFFER_SIZE bytes. *)
Definition rfix_write_data (b : rfix) (bytes : list Z) : rfix :=
  {| rf_data := bytes ++ skipn (length bytes) (rf_data b); rf_w := rf_w b; rf_r := rf_r b |}.

(** A call of the interface, or memcpy(get_data(), bytes) followed by set_bytes_written(n). *)
Inductive lcall : Type := LCall (c : rcall) | LLoad (bytes : list Z) (n : Z).

Definition run_lcall (cap : Z) (c : lcall) (b : rfix) : res (rout * rfix) :=
  match c with
  | LCall c => rfix_call cap c b
  | LLoad bytes n => Done (OBool true, rfix_set_bytes_written cap (rfix_write_data b bytes) n)
  end.

Fixpoint run_lcalls (cap : Z) (cs : list lcall) (b : rfix) : res (list rout * rfix) :=
  match cs with
  | [] => Done ([], b)
  | c :: cs' => let* (o, b1) := run_lcall cap c b in
                let* (os, b2) := run_lcalls cap cs' b1 in Done (o :: os, b2)
  end.

(** Legal arguments: bytes, uint32_t numbers, no copy beyond the array. *)
Definition lcall_legal (cap : Z) (c : lcall) : Prop :=
  match c with
  | LCall (RPush b) => is_byte b
  | LCall (RAdvanceN n) => 0 <= n < 2 ^ 32
  | LCall _ => True
  | LLoad bytes n => Forall is_byte bytes /\ zlen bytes <= cap /\ 0 <= n < 2 ^ 32
  end.

(** Calls after which the content is known: set_bytes_written() gets the number of bytes copied, and
    an advance(N) does not wrap around. *)
Definition lcall_plain (cap : Z) (c : lcall) : Prop :=
  lcall_legal cap c /\ match c with LCall (RAdvanceN n) => cap + n < 2 ^ 32 | LLoad bytes n => n = zlen bytes | _ => True end.

(** The buffer as a list [l] of bytes stored since the last clear and the number [k] of them that were
    read. [keep]: whether loading new bytes keeps [k] (the class does) or starts again at 0. *)
Definition tape_call (keep : bool) (cap : Z) (c : lcall) (st : list Z * nat) : rout * (list Z * nat) :=
  let (l, k) := st in
  match c with
  | LCall (RPush b) => if zlen l <? cap then (OBool true, (l ++ [b], k)) else (OBool false, st)
  | LCall RPop => match skipn k l with [] => (OByte None, st) | b :: _ => (OByte (Some b), (l, S k)) end
  | LCall RPeek => match skipn k l with [] => (OByte None, st) | b :: _ => (OByte (Some b), st) end
  | LCall RAdvance => match skipn k l with [] => (OBool false, st) | _ => (OBool true, (l, S k)) end
  | LCall (RAdvanceN n) => if Z.of_nat k + n <=? zlen l then (OBool true, (l, (k + Z.to_nat n)%nat)) else (OBool false, st)
  | LCall RClear => (OBool true, ([], O))
  | LLoad bytes _ => (OBool true, (bytes, if keep then k else O))
  end.

Fixpoint run_tape (keep : bool) (cap : Z) (cs : list lcall) (st : list Z * nat) : list rout * (list Z * nat) :=
  match cs with
  | [] => ([], st)
  | c :: cs' => let (o, st1) := tape_call keep cap c st in
                let (os, st2) := run_tape keep cap cs' st1 in (o :: os, st2)
  end.

(** The bytes that can still be read. *)
Definition unread (st : list Z * nat) : list Z := skipn (snd st) (fst st).

(** Bytes are loaded only when nothing was read since the last clear. *)
Fixpoint loads_unread (cap : Z) (cs : list lcall) (st : list Z * nat) : Prop :=
  match cs with
  | [] => True
  | c :: cs' => match c with LLoad _ _ => snd st = O | _ => True end
                /\ loads_unread cap cs' (snd (tape_call false cap c st))
  end.

(** [filled cap b bytes]: some history of calls on a new buffer leads to [b], with [bytes] unread. *)
Definition filled (cap : Z) (b : rfix) (bytes : list Z) : Prop :=
  0 <= cap < 2 ^ 32 /\ exists cs outs, Forall (lcall_plain cap) cs /\ loads_unread cap cs ([], O)
    /\ run_lcalls cap cs (rfix_init cap) = Done (outs, b)
    /\ unread (snd (run_tape false cap cs ([], O))) = bytes.
