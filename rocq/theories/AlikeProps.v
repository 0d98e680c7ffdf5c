(** Consequences of AlikeProofs.v, and the law of SerializeVarint with a buffer that refuses a byte (C45, C74). *)
From Verif Require Import Base Buffers Wire Schema Fields Message Spec Contracts BitLemmas
  SpecWrite SpecWork SpecAlike AlikeProofs.
From Coq Require Import ZifyBool ZifyNat ZifyN.
Ltac Zify.zify_post_hook ::= Z.div_mod_to_equations.

Theorem serialize_same : forall S1 S2 (W1 : wops S1) (W2 : wops S2) q, same_writer W1 W2 q ->
  forall t v s1 s2, q s1 s2 -> alike q (serialize t v S1 W1 s1) (serialize t v S2 W2 s2).
Proof. intros. now apply serialize_alike. Qed.

Theorem deserialize_same : forall S1 S2 (R1 : rops S1) (R2 : rops S2) q, same_reader R1 R2 q ->
  forall t fuel v s1 s2, q s1 s2 -> alike q (deserialize fuel t S1 R1 v s1) (deserialize fuel t S2 R2 v s2).
Proof. intros. now apply deserialize_alike. Qed.

Lemma track_same {S} (W : wops S) : same_writer (track W) W (fun s1 s2 => fst s1 = s2).
Proof.
  intros [s f] s2 <-. cbn [track w_get_available_size w_push w_pushn fst snd]. split; [reflexivity|]. split.
  - intros b _. destruct (w_push W s b) as [[ok s']| |]; cbn [bind alike fst]; auto.
  - intros src len. destruct (w_pushn W s src len) as [[ok s']| |]; cbn [bind alike fst]; auto.
Qed.

Lemma counted_same_writer {S} (W : wops S) : same_writer (counted_writer W) W (fun s1 s2 => fst s1 = s2).
Proof.
  intros [s f] s2 <-. cbn [counted_writer w_get_available_size w_push w_pushn fst snd]. split; [reflexivity|]. split.
  - intros b _. destruct (w_push W s b) as [[ok s']| |]; cbn [bind alike fst]; auto.
  - intros src len. destruct (w_pushn W s src len) as [[ok s']| |]; cbn [bind alike fst]; auto.
Qed.

Lemma counted_same_reader {S} (R : rops S) : same_reader (counted_reader R) R (fun s1 s2 => fst s1 = s2).
Proof.
  intros [s f] s2 <-. cbn [counted_reader r_get_size r_pop r_advance_n fst snd]. split; [reflexivity|]. split.
  - destruct (r_pop R s) as [[ok s']| |]; cbn [bind alike fst]; auto.
  - intros n _. destruct (r_advance_n R s n) as [[ok s']| |]; cbn [bind alike fst]; auto.
Qed.

Theorem track_observes : forall S (W : wops S) t v s f,
  match serialize t v _ (track W) (s, f) with
  | Done (e, (s', _)) => serialize t v S W s = Done (e, s')
  | UB => serialize t v S W s = UB
  | Fuel => serialize t v S W s = Fuel
  end.
Proof.
  intros S W t v s f. pose proof (serialize_same _ _ _ _ _ (track_same W) t v (s, f) s eq_refl) as H.
  destruct (serialize t v _ (track W) (s, f)) as [[e [s' f']]| |], (serialize t v S W s) as [[e2 s2]| |]; cbn [alike fst] in H; try contradiction; auto.
  destruct H as [-> ->]. reflexivity.
Qed.

Theorem counted_observes : forall S (R : rops S) t fuel v s k,
  match deserialize fuel t _ (counted_reader R) v (s, k) with
  | Done (e, v', (s', _)) => deserialize fuel t S R v s = Done (e, v', s')
  | UB => deserialize fuel t S R v s = UB
  | Fuel => deserialize fuel t S R v s = Fuel
  end.
Proof.
  intros S R t fuel v s k. pose proof (deserialize_same _ _ _ _ _ (counted_same_reader R) t fuel v (s, k) s eq_refl) as H.
  destruct (deserialize fuel t _ (counted_reader R) v (s, k)) as [[[e v'] [s' f']]| |], (deserialize fuel t S R v s) as [[[e2 v2] s2]| |];
    cbn [alike fst] in H; try contradiction; auto.
  destruct H as [[= -> ->] ->]. reflexivity.
Qed.

(** A byte of a varint that is refused, and not the last one. *)
Lemma varint_loop_refused {S} (W : wops S) : forall n x pre b c post s s1 s2, 0 <= x ->
  varint_groups n x = pre ++ b :: c :: post -> takes W s pre s1 -> w_push W s1 b = Done (false, s2) ->
  SerializeVarint_loop W n x true s = Done (x / 128 ^ (zlen pre + 1), false, s2).
Proof.
  induction n as [|n IH]; intros x pre b c post s s1 s2 Hx E Ht Hp; cbn [varint_groups] in E.
  - destruct pre; discriminate E.
  - cbn [SerializeVarint_loop]. unfold VARINT_MSB_BYTE, VARINT_SHIFT_N_BITS. destruct (Z.ltb_spec x 128) as [Hl|Hl].
    { destruct pre as [|? [|]]; discriminate E. }
    destruct (Z.leb_spec 128 x); [|lia]. cbn [andb]. rewrite u8_lor_128 by exact Hx.
    rewrite Z.shiftr_div_pow2 by lia. change (2 ^ 7) with 128. set (g := 128 + x mod 128) in *.
    destruct pre as [|a pre]; cbn [app] in E; injection E as Ea E.
    + inversion Ht; subst s1 b. rewrite Hp. cbn [bind].
      replace (x / 128 ^ (zlen (@nil Z) + 1)) with (x / 128) by reflexivity.
      destruct n; cbn [SerializeVarint_loop]; rewrite andb_false_r; reflexivity.
    + inversion Ht as [|? ? s0 ? ? Hp0 Ht']; subst. rewrite Hp0. cbn [bind].
      rewrite (IH (x / 128) pre b c post s0 s1 s2); auto; [|lia]. f_equal. f_equal. f_equal.
      rewrite Z.div_div by (unfold zlen; lia). f_equal.
      replace (zlen (g :: pre) + 1) with (1 + (zlen pre + 1)) by (unfold zlen; cbn [length]; lia).
      rewrite (Z.pow_add_r 128 1) by (unfold zlen; lia). reflexivity.
Qed.

Theorem varint_refused : forall S (W : wops S) x pre b c post s s1 s2 ok s3, 0 <= x < 2 ^ 64 ->
  varint x = pre ++ b :: c :: post -> takes W s pre s1 -> w_push W s1 b = Done (false, s2) ->
  w_push W s2 (x / 128 ^ (zlen pre + 1) mod 256) = Done (ok, s3) ->
  SerializeVarint W x s = Done (if ok then NoErrors else BufferFull, s3).
Proof.
  intros S W x pre b c post s s1 s2 ok s3 Hx E Ht Hp Hp2. unfold SerializeVarint.
  rewrite (varint_loop_refused W 10 x pre b c post s s1 s2); [|lia|exact E|exact Ht|exact Hp]. cbn [bind].
  unfold u8, uw. change (2 ^ 8) with 256. rewrite Hp2. reflexivity.
Qed.
