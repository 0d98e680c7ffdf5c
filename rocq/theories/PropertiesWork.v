(** * Properties C71 and C72: the cost of deserialize() and serialize().

    Costs are numbers of calls made to the buffer. [counted_reader], [counted_writer], [work], [depth] and
    [nest]: SpecWork.v. [metered_serialize] (Metered.v) is serialize() with a counter of the calls of push()
    on the buffer and on the size calculators it creates. [reader_safe R inv True]: a read buffer in state [s]
    with [inv s m] delivers at most [m] more bytes and never moves backwards (Contracts.v). [sticky]: a buffer
    that refused a byte refuses the next (SpecWrite.v). *)
From Verif Require Import Base Buffers Wire Schema Fields Message Spec Contracts BufferProofs Samples
  DecodeSamples SerProps SafetyProps SpecWork Metered WorkProofs MeteredProps MeteredPasses AlikeProps.

(** C71: from every read buffer that does not move backwards, a message of any type is decoded with at most two
    calls per byte left in the buffer and one more, whatever the bytes are, how deep messages are nested in them
    and what lengths they announce. The counter does not change what is decoded. *)
Theorem C71_linear : forall fs os v, let t := EMsg fs os in desc_ok t -> wt t v ->
  forall S (R : rops S) inv, reader_safe R inv True -> (forall s m, inv s m -> r_get_size R s < 2 ^ 32) ->
  forall s m fuel, inv s m -> (m < fuel)%nat ->
  exists e v' s' k, deserialize fuel t S R v s = Done (e, v', s')
    /\ deserialize fuel t (S * Z)%type (counted_reader R) v (s, 0) = Done (e, v', (s', k)) /\ k <= 2 * Z.of_nat m + 1.
Proof. exact decode_linear. Qed.
Print Assumptions C71_linear.

(** The fixed-size read buffer moves backwards when a length makes its index wrap (C13). With such bytes there is
    no bound: at most ten bytes keep deserialize() calling for ever (C28). *)
Theorem C71_linear_fixed_refuted : forall fs os num, 0 < num < 2 ^ 29 -> ~ In num (field_numbers fs os) ->
  exists bytes, Forall is_byte bytes /\ zlen bytes <= 10 /\
  forall v fuel, wt (EMsg fs os) v ->
    deserialize fuel (EMsg fs os) (rfix * Z)%type (counted_reader (rfix_ops (zlen bytes))) v (rfix_of bytes, 0) = Fuel.
Proof. exact decode_unbounded. Qed.
Print Assumptions C71_linear_fixed_refuted.

(** What holds of the fixed-size buffer: the bound, for bytes in which no length makes the index wrap. *)
Theorem C71_linear_fixed_partial : forall fs os v bytes fuel, let t := EMsg fs os in desc_ok t -> wt t v ->
  zlen bytes < 2 ^ 31 -> Forall is_byte bytes ->
  (forall pre l post, bytes = pre ++ l ++ post -> varint_wf 5 l ->
     zlen pre + zlen l + varint_value l mod 2 ^ 32 < 2 ^ 32) ->
  (length bytes < fuel)%nat ->
  exists e v' s' k, deserialize fuel t rfix (rfix_ops (zlen bytes)) v (rfix_of bytes) = Done (e, v', s')
    /\ deserialize fuel t (rfix * Z)%type (counted_reader (rfix_ops (zlen bytes))) v (rfix_of bytes, 0) = Done (e, v', (s', k))
    /\ k <= 2 * zlen bytes + 1.
Proof. exact decode_linear_fixed. Qed.
Print Assumptions C71_linear_fixed_partial.

(** Counting is only observing, for every buffer. *)
Theorem C71_observes : forall S (R : rops S) t fuel v s k,
  match deserialize fuel t (S * Z)%type (counted_reader R) v (s, k) with
  | Done (e, v', (s', _)) => deserialize fuel t S R v s = Done (e, v', s')
  | UB => deserialize fuel t S R v s = UB
  | Fuel => deserialize fuel t S R v s = Fuel
  end.
Proof. exact counted_observes. Qed.
Print Assumptions C71_observes.

(** Six bytes, three messages cut short in each other: nine calls. The 53 bytes of a full object: 54 calls.
    And an input on which the count runs away. *)
Example C71_applies : desc_ok (nest false 3) /\ wt (nest false 3) (nest_v false 3) /\ desc_ok Outer /\ wt Outer outer_v
  /\ nowrap [10; 127; 10; 127; 10; 127]
  /\ (exists v' s', deserialize 10 (nest false 3) (rfix * Z)%type (counted_reader (rfix_ops 6)) (nest_v false 3)
       (rfix_of [10; 127; 10; 127; 10; 127], 0) = Done (NoErrors, v', (s', 9)))
  /\ (exists v' s', deserialize 54 Outer (rfix * Z)%type (counted_reader (rfix_ops 53)) (default_value Outer)
       (rfix_of (enc Outer (view Outer outer_v)), 0) = Done (NoErrors, v', (s', 54)))
  /\ deserialize 1000 Outer (rfix * Z)%type (counted_reader (rfix_ops 6)) outer_v (rfix_of [74; 250; 255; 255; 255; 15], 0) = Fuel.
Proof.
  split; [exact (nest_ok false 3)|]. split; [exact (nest_wt false 3)|]. split; [exact Outer_ok|]. split; [exact outer_v_wt|].
  split; [apply nowrapb_ok; vm_compute; reflexivity|].
  split; [do 2 eexists; vm_compute; reflexivity|]. split; [do 2 eexists; vm_compute; reflexivity|]. vm_compute. reflexivity.
Qed.

(** C72: false. Messages nested n+1 deep, written in at most 6n+8 bytes, take at least 2^n calls of push() when the
    messages are plain fields and 4^n when they are elements of lists, with every buffer, even one that has no
    room at all. *)
Theorem C72_linear_refuted : forall (rep : bool) n, Z.of_nat n < 2 ^ 28 ->
  let t := nest rep (S n) in let v := nest_v rep (S n) in
  desc_ok t /\ wt t v /\ zlen (enc t (view t v)) <= 6 * Z.of_nat n + 8 /\
  forall S (W : wops S) s e s' k, metered_serialize t v S W (s, 0) = Done (e, (s', k)) -> (if rep then 4 else 2) ^ Z.of_nat n <= k.
Proof. exact serialize_exponential. Qed.
Print Assumptions C72_linear_refuted.

(** In every message type: what a message field that is not empty costs is paid twice, in a list four times. *)
Theorem C72_twice_refuted : forall fs os vs ovs num ifs ios v,
  In ((num, KPlain, EMsg ifs ios), v) (combine fs vs) -> enc (EMsg ifs ios) v <> [] ->
  2 * work (EMsg ifs ios) v + 2 <= work (EMsg fs os) (SvM vs ovs).
Proof. exact work_twice. Qed.
Print Assumptions C72_twice_refuted.

Theorem C72_four_times_refuted : forall fs os vs ovs num max ifs ios l v,
  In ((num, KRep max, EMsg ifs ios), SvR l) (combine fs vs) -> In v l -> enc (EMsg ifs ios) v <> [] ->
  4 * work (EMsg ifs ios) v + 4 <= work (EMsg fs os) (SvM vs ovs).
Proof. exact work_four_times. Qed.
Print Assumptions C72_four_times_refuted.

(** What holds: the exact number of calls for every object and every buffer (an upper bound when the buffer
    refuses something), *)
Theorem C72_count_partial : forall t v, wt t v -> desc_ok t -> zlen (enc t (view t v)) < 2 ^ 32 ->
  forall S (W : wops S) s,
  match metered_serialize t v S W (s, 0) with
  | Done (e, (s', k)) => serialize t v S W s = Done (e, s') /\ 0 <= k <= work t (view t v)
      /\ (sticky W -> e = NoErrors -> k = work t (view t v))
  | UB => serialize t v S W s = UB
  | Fuel => serialize t v S W s = Fuel
  end.
Proof. exact serialize_count. Qed.
Print Assumptions C72_count_partial.

(** and a bound that is linear in the size for every fixed message type: 4^depth calls per byte. *)
Theorem C72_bound_partial : forall fs os x, work (EMsg fs os) x <= 4 ^ depth (EMsg fs os) * zlen (enc (EMsg fs os) x).
Proof. exact work_bound. Qed.
Print Assumptions C72_bound_partial.

(** and one that looks at how lists and messages are nested: no more than one call per byte for a message of numbers, strings and
    bytes, two with lists of numbers, three with lists of strings, and twice (in a list, four times) as many around a message. It holds for
    the calls that are really made, whatever buffer is given. *)
Theorem C72_passes_partial : forall fs os v, let t := EMsg fs os in wt t v -> desc_ok t -> zlen (enc t (view t v)) < 2 ^ 32 ->
  forall S (W : wops S) s e s' k, metered_serialize t v S W (s, 0) = Done (e, (s', k)) -> k <= passes t * zlen (enc t (view t v)).
Proof. exact calls_passes. Qed.
Print Assumptions C72_passes_partial.

(** Flat messages, lists of numbers and of strings, and three levels of messages with and without lists. *)
Example C72_passes_applies : passes (EMsg [(1, KPlain, EScalar SInt32); (2, KOpt, EBytes true 9)] [[(3, EScalar Boolean)]]) = 1
  /\ passes (EMsg [(1, KRep 4, EScalar SInt32)] []) = 2 /\ passes (EMsg [(1, KRep 4, EBytes true 9)] []) = 3
  /\ passes (nest false 2) = 4 /\ passes (nest true 2) = 16 /\ passes Outer = 4.
Proof. repeat split; vm_compute; reflexivity. Qed.

(** The 53 bytes of a full object take 93 calls, 18 bytes nested nine deep take 218452. *)
Example C72_applies : wt Outer outer_v /\ desc_ok Outer /\ zlen (enc Outer (view Outer outer_v)) = 53 /\ depth Outer = 2
  /\ work Outer (view Outer outer_v) = 93 /\ sticky (wfix_ops 100)
  /\ (exists s', metered_serialize Outer outer_v wfix (wfix_ops 100) (wfix_init 100, 0) = Done (NoErrors, (s', 93)))
  /\ zlen (enc (nest true 8) (view (nest true 8) (nest_v true 8))) = 18
  /\ (exists s', metered_serialize (nest true 8) (nest_v true 8) wfix (wfix_ops 18) (wfix_init 18, 0) = Done (NoErrors, (s', 218452))).
Proof.
  split; [exact outer_v_wt|]. split; [exact Outer_ok|]. split; [vm_compute; reflexivity|]. split; [vm_compute; reflexivity|].
  split; [vm_compute; reflexivity|]. split; [apply wfix_sticky|]. split; [eexists; vm_compute; reflexivity|].
  split; [vm_compute; reflexivity|]. eexists; vm_compute; reflexivity.
Qed.

(** The hypotheses of the two lower bounds: outer_v has a message field and a list of messages, neither empty. *)
Example C72_twice_applies : exists vs ovs l v w, view Outer outer_v = SvM vs ovs
  /\ In ((6, KPlain, Inner), v) (combine outer_fields vs) /\ enc Inner v <> []
  /\ In ((4, KRep 3, Inner), SvR l) (combine outer_fields vs) /\ In w l /\ enc Inner w <> [].
Proof.
  do 5 eexists. split; [vm_compute; reflexivity|]. split; [do 5 right; left; reflexivity|]. split; [vm_compute; discriminate|].
  split; [do 3 right; left; reflexivity|]. split; [left; reflexivity|]. vm_compute; discriminate.
Qed.
