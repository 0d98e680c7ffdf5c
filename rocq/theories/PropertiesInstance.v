(** Property C64: the class that is generated for a message has the fields, numbers, types and lengths that the
    .proto file declares. [declared] and [instance] are defined in SpecInstance.v. *)
From Coq Require Import String.
From Verif Require Import Base Buffers Schema Fields Message Api Spec SpecBuffer SpecLoad Contracts Printf Generator GenCode
  SpecGenerator SpecInstance GenSamples GenInstance GenInstanceSamples GenInstanceWire.
From Coq Require Import List.

(** For every choice of the lengths, the message is declared to be exactly one type, and C++ understands the generated
    class, with these lengths as template arguments, as exactly this type. Missing: .proto files that
    are not [supported]; what happens with them is in C50, C57, C58 and C61. *)
Theorem C64_schema_partial : forall limit request hs s m lengths,
  protoc_ok request -> supported request -> generate limit request = Some hs -> message request s m ->
  exists t, (forall t', declared request lengths s t' <-> t' = t)
    /\ forall c, generated hs s c -> forall t', instance hs (generate_code request) s (map lengths (c_params c)) t' <-> t' = t.
Proof. exact generated_schema. Qed.
Print Assumptions C64_schema_partial.

(** Such a type is one that the properties of messages (C16 to C55) are about. *)
Theorem C64_legal_partial : forall limit request hs s c lengths t,
  protoc_ok request -> supported request -> generate limit request = Some hs -> generated hs s c -> (forall p, capacity_ok (lengths p)) ->
  instance hs (generate_code request) s (map lengths (c_params c)) t -> declared request lengths s t /\ desc_ok t.
Proof. exact instance_declared. Qed.
Print Assumptions C64_legal_partial.

(** From the .proto file to the bytes and back: an object of the generated class is written as the encoding of the
    declared type, and an object of that class reads it again. *)
Theorem C64_wire_partial : forall limit request hs s c lengths t v v0 cap b content n b',
  protoc_ok request -> supported request -> generate limit request = Some hs -> generated hs s c -> (forall p, capacity_ok (lengths p)) ->
  instance hs (generate_code request) s (map lengths (c_params c)) t ->
  wt t v -> zlen (enc t (view t v)) < 2 ^ 32 ->
  v0 = default_value t \/ (exists w, wt t w /\ clear t w = Done v0) ->
  wfix_rel cap b content (Some n) -> serialize t v _ (wfix_ops cap) b = Done (NoErrors, b') ->
  exists t0, declared request lengths s t0 /\ wfix_content b' = wfix_content b ++ enc t0 (view t0 v)
    /\ forall cap' r, filled cap' r (enc t0 (view t0 v)) -> forall fuel, (length (enc t0 (view t0 v)) < fuel)%nat ->
       exists v' r', deserialize fuel t rfix (rfix_ops cap') v0 r = Done (NoErrors, v', r')
         /\ view t0 v' = norm t0 (view t0 v) /\ (no_neg_zero t0 (view t0 v) -> view t0 v' = view t0 v).
Proof. exact schema_wire. Qed.
Print Assumptions C64_wire_partial.

Example C64_applies : protoc_ok screens /\ supported screens /\ generate 10 screens = Some screen_headers
  /\ (exists m, message screens (pa ["app"; "Screen"]%string) m)
  /\ (exists c, generated screen_headers (pa ["app"; "Screen"]%string) c /\ length (c_params c) = 5%nat
        /\ instance screen_headers (generate_code screens) (pa ["app"; "Screen"]%string) (map name_length (c_params c)) Screen_type)
  /\ (forall t, declared screens name_length (pa ["app"; "Screen"]%string) t <-> t = Screen_type).
Proof. exact screens_apply. Qed.
