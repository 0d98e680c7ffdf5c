(** * SpecStream: messages with their length in front. *)
From Verif Require Import Base Schema Fields Message Api Spec.

(** A message that the writer can be asked to write. *)
Definition sendable '((t, v) : ety * value) : Prop :=
  match t with EMsg _ _ => desc_ok t /\ wt t v /\ zlen (enc t (view t v)) < 2 ^ 32 | _ => False end.

(** The bytes of a list of messages. *)
Definition framed '((t, v) : ety * value) : list Z := varint (zlen (enc t (view t v))) ++ enc t (view t v).

(** An object to read into, and the frame that is in the input: any bytes [p], with any legal form [l] of their number
    in front. *)
Definition frame_ok '(((t, v), (l, p)) : (ety * value) * (list Z * list Z)) : Prop :=
  match t with EMsg _ _ => desc_ok t /\ wt t v /\ varint32 l (zlen p) | _ => False end.

Definition frame_bytes (f : (ety * value) * (list Z * list Z)) : list Z := fst (snd f) ++ snd (snd f).

(** What has to come of the frame: a valid object, and if the frame is a sequence of records of the message, their merge
    into what was in the object before. *)
Definition frame_read '(((t, v), (l, p)) : (ety * value) * (list Z * list Z)) '((e, v') : err * value) : Prop :=
  match t with
  | EMsg fs os => wt t v' /\ forall new, clean t v -> mdec fs os (view t v) p new -> e = NoErrors /\ clean t v' /\ view t v' = new
  | _ => False
  end.

(** A message, and the object it is received in: new or cleared. *)
Definition receivable '((t, v, v0) : ety * value * value) : Prop :=
  sendable (t, v) /\ (v0 = default_value t \/ exists w, wt t w /\ clear t w = Done v0).

(** The getters of the object received show what the getters of the object sent showed, up to the sign of a zero. *)
Definition received '((t, v, v0) : ety * value * value) '((e, v') : err * value) : Prop :=
  e = NoErrors /\ wt t v' /\ view t v' = norm t (view t v) /\ (no_neg_zero t (view t v) -> view t v' = view t v).
