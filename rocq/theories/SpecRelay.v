(** * SpecRelay: a program that reads a message and sends it on. *)
From Verif Require Import Base Buffers Schema Fields Message Api Spec Contracts BufferProofs.

(** serialize() of the object [v] into a WriteBufferFixedSize, whatever is in it before, succeeds and adds [bytes]. *)
Definition wrote_message (t : ety) (v : value) (bytes : list Z) : Prop :=
  exists cap b c n b', wfix_rel cap b c (Some n) /\ serialize t v _ (wfix_ops cap) b = Done (NoErrors, b')
    /\ wfix_content b' = wfix_content b ++ bytes.

(** deserialize() of the input [bytes], from some read buffer that keeps its contract, into a new object succeeds and
    leaves the object [v]. *)
Definition read_message (t : ety) (bytes : list Z) (v : value) : Prop :=
  exists S (R : rops S) rel s fuel s', reader_ok R rel /\ rel s bytes /\ (length bytes < fuel)%nat
    /\ deserialize fuel t S R (default_value t) s = Done (NoErrors, v, s').

(** What the fields of a message show. *)
Definition field_values (s : sval) : list sval := match s with SvM vs _ => vs | _ => [] end.
Definition oneof_values (s : sval) : list (Z * sval) := match s with SvM _ ovs => ovs | _ => [] end.
