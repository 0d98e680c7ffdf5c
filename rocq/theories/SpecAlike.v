(** * Specification: buffers that answer alike (C74)

    Two buffers, possibly of different classes, seen only through the functions of
    src/WriteBufferInterface.h:38-95 and src/ReadBufferInterface.h:43-92. [q s1 s2] relates their states; it is
    a bisimulation: related states give the same answers and lead to related states. *)
From Verif Require Import Base Buffers.

(** The two calls end the same way, with the same answer, in related states. *)
Definition alike {A S1 S2} (q : S1 -> S2 -> Prop) (r1 : res (A * S1)) (r2 : res (A * S2)) : Prop :=
  match r1, r2 with
  | Done (a1, s1), Done (a2, s2) => a1 = a2 /\ q s1 s2
  | UB, UB => True
  | Fuel, Fuel => True
  | _, _ => False
  end.

(** Two write buffers that answer alike to push(byte), push(bytes, length) and get_available_size(). What the
    other functions of the interface, get_size(), get_max_size() and clear(), answer does not matter. *)
Definition same_writer {S1 S2} (W1 : wops S1) (W2 : wops S2) (q : S1 -> S2 -> Prop) : Prop :=
  forall s1 s2, q s1 s2 ->
    w_get_available_size W1 s1 = w_get_available_size W2 s2
    /\ (forall b, 0 <= b < 256 -> alike q (w_push W1 s1 b) (w_push W2 s2 b))
    /\ (forall src len, alike q (w_pushn W1 s1 src len) (w_pushn W2 s2 src len)).

(** Two read buffers that answer alike to pop(byte), advance(N) and get_size(). What peek(), advance() and
    get_max_size() answer does not matter. *)
Definition same_reader {S1 S2} (R1 : rops S1) (R2 : rops S2) (q : S1 -> S2 -> Prop) : Prop :=
  forall s1 s2, q s1 s2 ->
    r_get_size R1 s1 = r_get_size R2 s2
    /\ alike q (r_pop R1 s1) (r_pop R2 s2)
    /\ (forall n, 0 <= n < 2 ^ 32 -> alike q (r_advance_n R1 s1 n) (r_advance_n R2 s2 n)).
