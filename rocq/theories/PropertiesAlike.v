(** * Property C74: messages know a buffer only by its answers.

    [same_writer W1 W2 q], [same_reader R1 R2 q], [alike] (SpecAlike.v): two buffers, of whatever classes, that give
    the same answers to a few functions as long as their states are related by [q]. No contract is assumed of the
    buffers: they may refuse, lie about their sizes or have undefined behaviour. *)
From Verif Require Import Base Buffers Wire Schema Fields Message Spec SpecWrite SpecWork SpecAlike Samples DecodeSamples AlikeProps.

(** C74: serialize() of any object of any type returns the same for two buffers that answer alike to push(byte),
    push(bytes, length) and get_available_size(), and leaves them in related states. *)
Theorem C74_serialize : forall S1 S2 (W1 : wops S1) (W2 : wops S2) q, same_writer W1 W2 q ->
  forall t v s1 s2, q s1 s2 -> alike q (serialize t v S1 W1 s1) (serialize t v S2 W2 s2).
Proof. exact serialize_same. Qed.
Print Assumptions C74_serialize.

(** deserialize() into any object of any type returns the same error and the same object for two buffers that answer
    alike to pop(byte), advance(N) and get_size(), and leaves them in related states. *)
Theorem C74_deserialize : forall S1 S2 (R1 : rops S1) (R2 : rops S2) q, same_reader R1 R2 q ->
  forall t fuel v s1 s2, q s1 s2 -> alike q (deserialize fuel t S1 R1 v s1) (deserialize fuel t S2 R2 v s2).
Proof. exact deserialize_same. Qed.
Print Assumptions C74_deserialize.

(** A fixed-size buffer, and one of another class that counts and whose peek(), advance() and get_max_size() answer
    nonsense; a write buffer of which only the three functions mean anything. *)
Definition mute_reader : rops (rfix * Z) := {|
  r_get_size := r_get_size (counted_reader (rfix_ops 53));
  r_get_max_size := fun _ => 7;
  r_peek := fun _ => UB;
  r_advance := fun _ => UB;
  r_advance_n := r_advance_n (counted_reader (rfix_ops 53));
  r_pop := r_pop (counted_reader (rfix_ops 53))
|}.
Definition mute_writer : wops (wfix * bool) := {|
  w_clear := fun s => s;
  w_get_size := fun _ => 7;
  w_get_max_size := fun _ => 7;
  w_get_available_size := w_get_available_size (track (wfix_ops 60));
  w_push := w_push (track (wfix_ops 60));
  w_pushn := w_pushn (track (wfix_ops 60))
|}.

Example C74_applies : same_reader mute_reader (rfix_ops 53) (fun s1 s2 => fst s1 = s2)
  /\ same_writer mute_writer (wfix_ops 60) (fun s1 s2 => fst s1 = s2)
  /\ (exists b, serialize Outer outer_v _ mute_writer (wfix_init 60, false) = Done (NoErrors, (b, false))
       /\ serialize Outer outer_v _ (wfix_ops 60) (wfix_init 60) = Done (NoErrors, b))
  /\ (exists v' b k, deserialize 54 Outer _ mute_reader (default_value Outer) (rfix_of (enc Outer (view Outer outer_v)), 0) = Done (NoErrors, v', (b, k))
       /\ deserialize 54 Outer _ (rfix_ops 53) (default_value Outer) (rfix_of (enc Outer (view Outer outer_v))) = Done (NoErrors, v', b)).
Proof.
  split; [exact (counted_same_reader (rfix_ops 53))|]. split; [exact (track_same (wfix_ops 60))|].
  split; [eexists; split; vm_compute; reflexivity|]. do 3 eexists. split; vm_compute; reflexivity.
Qed.
