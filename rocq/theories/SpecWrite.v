(** * Specification: write buffers that refuse bytes (C45)

    Nothing here refers to the serializer: what a write buffer answers to the bytes offered to it,
    through the interface src/WriteBufferInterface.h:38-95 ([wops], Buffers.v). *)
From Verif Require Import Base Buffers.

(** A write buffer that remembers whether it refused anything. *)
Definition track {S} (W : wops S) : wops (S * bool) := {|
  w_clear := fun s => (w_clear W (fst s), snd s);
  w_get_size := fun s => w_get_size W (fst s);
  w_get_max_size := fun s => w_get_max_size W (fst s);
  w_get_available_size := fun s => w_get_available_size W (fst s);
  w_push := fun s b => let* (ok, s') := w_push W (fst s) b in Done (ok, (s', snd s || negb ok));
  w_pushn := fun s src len => let* (ok, s') := w_pushn W (fst s) src len in Done (ok, (s', snd s || negb ok))
|}.

(** A buffer that has refused a byte refuses the next one too. *)
Definition sticky {S} (W : wops S) : Prop := forall s b s' b' ok s'',
  w_push W s b = Done (false, s') -> w_push W s' b' = Done (ok, s'') -> ok = false.

(** A buffer that refuses exactly the second byte offered to it; its state counts the offers. *)
Definition flaky_ops : wops Z := {|
  w_clear := fun _ => 0;
  w_get_size := fun s => s;
  w_get_max_size := fun _ => 100;
  w_get_available_size := fun _ => 100;
  w_push := fun s _ => Done (negb (s =? 1), s + 1);
  w_pushn := fun s _ len => Done (true, s + len)
|}.

(** [takes W s bs s']: offered the bytes [bs] one by one, the buffer accepts every one of them and is
    then in state [s']. *)
Inductive takes {S} (W : wops S) : S -> list Z -> S -> Prop :=
  | takes_nil s : takes W s [] s
  | takes_cons s b s1 bs s2 : w_push W s b = Done (true, s1) -> takes W s1 bs s2 -> takes W s (b :: bs) s2.
