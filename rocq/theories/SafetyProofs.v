(** Memory safety, termination and confinement of decoding, for arbitrary input (C27, C28, C46). *)
From Verif Require Import Base Buffers Wire Schema Fields Message Spec Contracts BitLemmas
  ReadProofs ScalarProofs BufferProofs Struct SerProofs Tables DecodeProofs ClearProofs.
From Coq Require Import ZifyBool ZifyNat ZifyN.
Ltac Zify.zify_post_hook ::= Z.div_mod_to_equations.

(** What the decoder needs from a read buffer. [inv s m]: invariant with a measure. Sections are
    never longer than [bound]; jumps of up to [bound] bytes do not raise the measure. *)
Record decoder_safe {S : Type} (R : rops S) (inv : S -> nat -> Prop) (strict : Prop) (bound : Z) : Prop := {
  ds_size : forall s m, inv s m -> r_get_size R s <= bound < 2 ^ 32;
  ds_pop : forall s m, inv s m -> exists ob s' m', r_pop R s = Done (ob, s') /\ inv s' m'
    /\ match ob with
       | Some b => is_byte b /\ (strict -> (m' < m)%nat)
       | None => strict -> (m' <= m)%nat
       end;
  ds_advance_n : forall s m n, inv s m -> 0 <= n < 2 ^ 32 ->
    exists ok s' m', r_advance_n R s n = Done (ok, s') /\ inv s' m'
      /\ (strict -> n <= bound -> (m' <= m)%nat);
  ds_skip : forall s m, inv s m -> exists e s' m', skip_length_delimited R s = Done (e, s') /\ inv s' m'
    /\ (strict -> (m' <= m)%nat)
}.

Section Reads.
Context {S : Type} {R : rops S} {inv : S -> nat -> Prop} {strict : Prop}.
Hypothesis pop_ok : forall s m, inv s m -> exists ob s' m', r_pop R s = Done (ob, s') /\ inv s' m'
    /\ match ob with
       | Some b => is_byte b /\ (strict -> (m' < m)%nat)
       | None => strict -> (m' <= m)%nat
       end.

(** The last thing that happened to the buffer is a failed pop. *)
Definition ended (s' : S) : Prop := exists s0 m0, inv s0 m0 /\ r_pop R s0 = Done (None, s').

Definition read_ok {A} (m : nat) (r : res (err * option A * S)) (P : A -> Prop) : Prop :=
  exists e o s' m', r = Done (e, o, s') /\ inv s' m' /\ (strict -> (m' <= m)%nat)
    /\ (strict -> e = NoErrors -> (m' < m)%nat) /\ (e = EndOfBuffer -> ended s')
    /\ match e with NoErrors => exists x, o = Some x /\ P x | _ => o = None end.

Lemma lor_bound a b w : 0 <= w -> 0 <= a < 2 ^ w -> 0 <= b < 2 ^ w -> 0 <= Z.lor a b < 2 ^ w.
Proof.
  intros Hw Ha Hb. assert (0 <= Z.lor a b) by (apply Z.lor_nonneg; lia). split; [assumption|].
  destruct (Z.eq_dec (Z.lor a b) 0) as [->|Hn]; [lia|].
  apply Z.log2_lt_pow2; [lia|]. rewrite Z.log2_lor by lia.
  assert (Hl : forall x, 0 <= x < 2 ^ w -> 0 < w -> Z.log2 x < w).
  { intros x Hx Hw0. destruct (Z.eq_dec x 0) as [->|Hx0]; [cbn; lia|]. apply Z.log2_lt_pow2; lia. }
  destruct (Z.eq_dec w 0) as [->|Hw0].
  { assert (a = 0) by lia. assert (b = 0) by lia. subst. cbn in Hn. lia. }
  pose proof (Hl a Ha ltac:(lia)). pose proof (Hl b Hb ltac:(lia)). lia.
Qed.

Lemma DV_loop_safe w : width w -> forall n i temp byte s m,
  inv s m -> 0 <= i -> i < n_bytes_in_varint w -> n_bytes_in_varint w - i <= Z.of_nat n -> 0 <= temp < 2 ^ w ->
  exists r byte' temp' s' m', DeserializeVarint_loop R n w i temp byte s = Done (r, byte', temp', s') /\ inv s' m'
    /\ 0 <= temp' < 2 ^ w /\ (strict -> (m' <= m)%nat) /\ (strict -> r = true -> (m' < m)%nat) /\ (r = false -> ended s').
Proof.
  intros Hw. induction n as [|n IH]; intros i temp byte s m Hi H0 H1 H2 Ht; [exfalso; lia|].
  cbn [DeserializeVarint_loop]. destruct (pop_ok s m Hi) as (ob & s' & m' & E & Hi' & Hm). rewrite E. cbn [bind].
  assert (Hw0 : 0 < w) by (destruct Hw; lia). assert (Hp : 0 < 2 ^ w) by (apply Z.pow_pos_nonneg; lia).
  destruct ob as [b|].
  - destruct Hm as [Hb Hm].
    set (temp' := Z.lor temp _). assert (Ht' : 0 <= temp' < 2 ^ w).
    { apply lor_bound; [lia|lia|]. unfold uw. apply Z.mod_pos_bound. lia. }
    destruct (negb _ && (i + 1 <? n_bytes_in_varint w) && true) eqn:Ec.
    + destruct (IH (i + 1) temp' b s' m' Hi') as (r & b2 & t2 & s2 & m2 & E2 & Hi2 & Ht2 & Hs2 & Hr2 & He2); try lia.
      exists r, b2, t2, s2, m2. split; [exact E2|]. split; [exact Hi2|]. split; [exact Ht2|].
      split; [|split; [|exact He2]]; intros; pose proof (Hm ltac:(assumption)); pose proof (Hs2 ltac:(assumption)); lia.
    + exists true, b, temp', s', m'. split; [reflexivity|]. split; [exact Hi'|]. split; [exact Ht'|].
      split; [|split; [|discriminate]]; intros; pose proof (Hm ltac:(assumption)); lia.
  - rewrite andb_false_r. exists false, byte, temp, s', m'. split; [reflexivity|]. split; [exact Hi'|]. split; [exact Ht|].
    split; [exact Hm|]. split; [discriminate|]. intros _. exists s, m. auto.
Qed.

Lemma varint_safe w s m : width w -> inv s m ->
  read_ok m (DeserializeVarint R w s) (fun n => 0 <= n < 2 ^ w).
Proof.
  intros Hw Hi. unfold DeserializeVarint.
  assert (Hn : 0 < n_bytes_in_varint w <= 10 /\ 0 < 2 ^ w) by (destruct Hw as [-> | ->]; vm_compute; intuition congruence).
  destruct (DV_loop_safe w Hw 10 0 0 0 s m Hi) as (r & b & t & s' & m' & E & Hi' & Ht & Hs & Hr & He); try lia.
  rewrite E. cbn [bind]. unfold read_ok. destruct r.
  - destruct (negb _).
    + do 4 eexists. split; [reflexivity|]. split; [exact Hi'|]. split; [exact Hs|]. repeat split; discriminate.
    + do 4 eexists. split; [reflexivity|]. split; [exact Hi'|]. split; [exact Hs|]. split; [auto|]. split; [discriminate|]. eauto.
  - do 4 eexists. split; [reflexivity|]. split; [exact Hi'|]. split; [exact Hs|]. split; [discriminate|]. split; [auto|]. reflexivity.
Qed.

Lemma DF_loop_safe w : forall n i temp s m, inv s m -> 0 <= w -> 0 <= temp < 2 ^ w ->
  exists r temp' s' m', DeserializeFixed_loop R n w i temp s = Done (r, temp', s') /\ inv s' m'
    /\ 0 <= temp' < 2 ^ w /\ (strict -> (m' <= m)%nat) /\ (strict -> (0 < n)%nat -> r = true -> (m' < m)%nat)
    /\ (r = false -> ended s').
Proof.
  induction n as [|n IH]; intros i temp s m Hi Hw Ht; cbn [DeserializeFixed_loop].
  - exists true, temp, s, m. repeat split; auto; try lia; discriminate.
  - destruct (pop_ok s m Hi) as (ob & s' & m' & E & Hi' & Hm). rewrite E. cbn [bind]. destruct ob as [b|].
    + destruct Hm as [Hb Hm]. set (temp' := Z.lor temp _). assert (Hp : 0 < 2 ^ w) by (apply Z.pow_pos_nonneg; lia).
      assert (Ht' : 0 <= temp' < 2 ^ w). { apply lor_bound; [lia|lia|]. unfold uw. apply Z.mod_pos_bound. lia. }
      destruct (IH (i + 8) temp' s' m' Hi' Hw Ht') as (r & t2 & s2 & m2 & E2 & Hi2 & Ht2 & Hs2 & Hr2 & He2).
      exists r, t2, s2, m2. split; [exact E2|]. split; [exact Hi2|]. split; [exact Ht2|].
      split; [|split; [|exact He2]]; intros; pose proof (Hm ltac:(assumption)); pose proof (Hs2 ltac:(assumption)); lia.
    + exists false, temp, s', m'. split; [reflexivity|]. split; [exact Hi'|]. split; [exact Ht|].
      split; [exact Hm|]. split; [discriminate|]. intros _. exists s, m. auto.
Qed.

Lemma fixed_safe w s m : width w -> inv s m -> read_ok m (DeserializeFixed R w s) (fun n => 0 <= n < 2 ^ w).
Proof.
  intros Hw Hi. unfold DeserializeFixed.
  assert (Hn : (0 < Z.to_nat (w / 8))%nat /\ 0 < 2 ^ w /\ 0 <= w) by (destruct Hw as [-> | ->]; cbn; lia).
  destruct (DF_loop_safe w (Z.to_nat (w / 8)) 0 0 s m Hi) as (r & t & s' & m' & E & Hi' & Ht & Hs & Hr & He); try lia.
  rewrite E. cbn [bind]. unfold read_ok. destruct r; do 4 eexists; (split; [reflexivity|]); (split; [exact Hi'|]); (split; [exact Hs|]).
  - split; [intros; apply Hr; tauto|]. split; [discriminate|]. eauto.
  - split; [discriminate|]. split; [auto|]. reflexivity.
Qed.

Lemma read_ok_map {A B} m r (P : A -> Prop) (Q : B -> Prop) (f : A -> B) : read_ok m r P -> (forall x, P x -> Q (f x)) ->
  read_ok m (let* (e, ov, s') := r in match e with NoErrors => Done (e, option_map f ov, s') | _ => Done (e, None, s') end) Q.
Proof.
  intros (e & o & s' & m' & -> & Hi & Hs & Hr & He & Ho) H. cbn [bind].
  destruct e; [destruct Ho as (x & -> & Hx); cbn [option_map]|..];
    (do 4 eexists; split; [reflexivity|]; split; [exact Hi|]; split; [exact Hs|]; split; [exact Hr|]; split; [exact He|]); eauto.
Qed.

Lemma read_ok_weaken {A} m r (P Q : A -> Prop) : read_ok m r P -> (forall x, P x -> Q x) -> read_ok m r Q.
Proof.
  intros (e & o & s' & m' & -> & Hi & Hs & Hr & He & Ho) H. exists e, o, s', m'. do 5 (split; [auto|]).
  destruct e; auto. destruct Ho as (x & -> & Hx). eauto.
Qed.

Lemma scalar_safe sc s m : inv s m -> read_ok m (scalar_deserialize_z sc R s) (scalar_range sc).
Proof.
  intros Hi. assert (H32 : width 32) by (left; reflexivity). assert (H64 : width 64) by (right; reflexivity).
  destruct sc; cbn [scalar_deserialize_z scalar_range];
    unfold DeserializeInt, DeserializeUInt, DeserializeSInt, DeserializeSFixed, DeserializeFloat, DeserializeDouble;
    try (apply varint_safe; assumption); try (apply fixed_safe; assumption).
  - eapply read_ok_map; [apply varint_safe; eassumption|]. intros x _. rewrite sw_to_signed. apply (to_signed_range 32); lia.
  - eapply read_ok_map; [apply varint_safe; eassumption|]. intros x _. rewrite sw_to_signed. apply (to_signed_range 64); lia.
  - eapply read_ok_map; [apply varint_safe; eassumption|]. intros x _.
    rewrite ZigZagDecode_spec; [apply (unzigzag_range 32)|..]; try lia; unfold uw; apply Z.mod_pos_bound; lia.
  - eapply read_ok_map; [apply varint_safe; eassumption|]. intros x _.
    rewrite ZigZagDecode_spec; [apply (unzigzag_range 64)|..]; try lia; unfold uw; apply Z.mod_pos_bound; lia.
  - unfold DeserializeBool. destruct (pop_ok s m Hi) as (ob & s' & m' & E & Hi' & Hm). rewrite E. cbn [bind]. unfold read_ok.
    destruct ob as [b|].
    + destruct Hm as [_ Hm]. do 4 eexists. split; [reflexivity|]. split; [exact Hi'|].
      split; [intros Hst; specialize (Hm Hst); lia|]. split; [auto|]. split; [discriminate|]. eexists. split; [reflexivity|]. cbn [scalar_range]; destruct (b =? 0); lia.
    + do 4 eexists. split; [reflexivity|]. split; [exact Hi'|]. split; [exact Hm|]. split; [discriminate|]. split; [|reflexivity].
      intros _. exists s, m. auto.
  - eapply read_ok_map; [apply fixed_safe; eassumption|]. intros x _. rewrite sw_to_signed. apply (to_signed_range 32); lia.
  - eapply read_ok_map; [apply fixed_safe; eassumption|]. intros x _. rewrite sw_to_signed. apply (to_signed_range 64); lia.
Qed.

Lemma tag_safe s m : inv s m -> read_ok m (DeserializeTag R s) (fun _ => True).
Proof.
  intros Hi. unfold DeserializeTag. destruct (varint_safe 32 s m (or_introl eq_refl) Hi) as (e & o & s' & m' & -> & Hi' & Hs & Hr & He & Ho).
  cbn [bind]. unfold read_ok. destruct e; [destruct Ho as (x & -> & Hx)|..];
    [destruct (_ <=? _)|..]; do 4 eexists; (split; [reflexivity|]); (split; [exact Hi'|]); (split; [exact Hs|]);
    (split; [first [exact Hr|discriminate]|]); (split; [first [exact He|discriminate]|]); eauto.
Qed.

(** The loop of the string decoder. *)
Lemma bytes_loop_safe : forall n len data s m, inv s m -> 0 <= len -> len + Z.of_nat n <= zlen data -> Forall is_byte data ->
  exists len' data' s' m', bytes_deserialize_loop R n len data s = Done (len', data', s') /\ inv s' m'
    /\ (strict -> (m' <= m)%nat) /\ len <= len' <= len + Z.of_nat n /\ zlen data' = zlen data /\ Forall is_byte data'.
Proof.
  induction n as [|n IH]; intros len data s m Hi H0 H1 Hd; cbn [bytes_deserialize_loop].
  - exists len, data, s, m. repeat split; auto; lia.
  - destruct (pop_ok s m Hi) as (ob & s' & m' & E & Hi' & Hm). rewrite E. cbn [bind]. destruct ob as [b|].
    + destruct Hm as [Hb Hm]. rewrite aset_ok by lia. cbn [bind].
      destruct (IH (len + 1) (upd (Z.to_nat len) b data) s' m' Hi') as (l2 & d2 & s2 & m2 & E2 & Hi2 & Hs2 & Hl2 & Hz2 & Hd2);
        [lia|rewrite zlen_upd; lia|apply Forall_upd; assumption|].
      rewrite zlen_upd in Hz2. exists l2, d2, s2, m2. split; [exact E2|]. split; [exact Hi2|].
      split; [intros Hst; specialize (Hm Hst); specialize (Hs2 Hst); lia|]. repeat split; auto; lia.
    + exists len, data, s', m'. repeat split; auto; lia.
Qed.
End Reads.

(* ------------------------------------------------------------------------------------------- *)
(** ** Instances *)

Lemma skip_from_advance {S} (R : rops S) (inv : S -> nat -> Prop) (strict : Prop) :
  (forall s m, inv s m -> exists ob s' m', r_pop R s = Done (ob, s') /\ inv s' m'
    /\ match ob with
       | Some b => is_byte b /\ (strict -> (m' < m)%nat)
       | None => strict -> (m' <= m)%nat
       end) ->
  (forall s m n, inv s m -> 0 <= n < 2 ^ 32 ->
    exists ok s' m', r_advance_n R s n = Done (ok, s') /\ inv s' m' /\ (strict -> (m' <= m)%nat)) ->
  forall s m, inv s m -> exists e s' m', skip_length_delimited R s = Done (e, s') /\ inv s' m'
    /\ (strict -> (m' <= m)%nat).
Proof.
  intros Hp Ha s m Hi. unfold skip_length_delimited.
  destruct (varint_safe Hp 32 s m (or_introl eq_refl) Hi) as (e & o & s1 & m1 & -> & Hi1 & Hs1 & _ & _ & Ho). cbn [bind].
  destruct e; [destruct Ho as (n & -> & Hn)|subst o..]; try (do 3 eexists; split; [reflexivity|]; split; [exact Hi1|exact Hs1]).
  destruct (Ha s1 m1 n Hi1 Hn) as (k & s2 & m2 & -> & Hi2 & Hs2). cbn [bind]. exists NoErrors, s2, m2. split; [reflexivity|].
  split; [exact Hi2|]. intros Hst. specialize (Hs1 Hst). specialize (Hs2 Hst). lia.
Qed.

(** Any buffer with the weak contract of Contracts.v and a 32-bit get_size(). *)
Lemma reader_safe_decoder {S} (R : rops S) inv strict : reader_safe R inv strict ->
  (forall s m, inv s m -> r_get_size R s < 2 ^ 32) -> decoder_safe R inv strict (2 ^ 32 - 1).
Proof.
  intros ok Hz. constructor.
  - intros s m Hi. specialize (Hz s m Hi). lia.
  - apply (rs_pop _ _ _ ok).
  - intros s m n Hi Hn. destruct (rs_advance_n _ _ _ ok s m n Hi Hn) as (k & s' & m' & H). exists k, s', m'. tauto.
  - apply skip_from_advance; [apply (rs_pop _ _ _ ok)|apply (rs_advance_n _ _ _ ok)].
Qed.

(** Sections, with the measure of the parent and with their own size as the measure. *)
Section Sec.
Context {S : Type} {R : rops S} {inv : S -> nat -> Prop} {strict : Prop} {bound : Z} (ok : decoder_safe R inv strict bound).

Definition dsec_inv (b : section S) (m : nat) : Prop := inv (sec_parent b) m /\ sec_size b <= bound.

Lemma dsec_safe : decoder_safe (sec_ops R) dsec_inv strict (2 ^ 32 - 1).
Proof.
  assert (Hp : forall s m, dsec_inv s m -> exists ob s' m', sec_pop R s = Done (ob, s') /\ dsec_inv s' m'
    /\ match ob with Some b => is_byte b /\ (strict -> (m' < m)%nat) | None => strict -> (m' <= m)%nat end).
  { intros s m (H & Hs). unfold sec_pop. destruct (Z.ltb_spec 0 (sec_size s)).
    + destruct (ds_pop _ _ _ _ ok _ _ H) as (ob & s' & m' & -> & H' & Hm). cbn [bind].
      exists ob. eexists. exists m'. split; [reflexivity|]. split; [split; [exact H'|cbn; lia]|exact Hm].
    + exists None, s, m. split; [reflexivity|]. split; [split; auto|lia]. }
  assert (Ha : forall s m n, dsec_inv s m -> 0 <= n < 2 ^ 32 ->
    exists k s' m', sec_advance_n R s n = Done (k, s') /\ dsec_inv s' m' /\ (strict -> (m' <= m)%nat)).
  { intros s m n (H & Hs) Hn. unfold sec_advance_n. pose proof (ds_size _ _ _ _ ok _ _ H). destruct (Z.ltb_spec 0 (sec_size s)).
    + set (k := if n <=? sec_size s then n else sec_size s).
      assert (Hk : 0 <= k <= sec_size s) by (unfold k; destruct (Z.leb_spec n (sec_size s)); lia).
      destruct (ds_advance_n _ _ _ _ ok _ _ k H) as (o & s' & m' & -> & H' & Hm); [lia|]. cbn [bind].
      exists o. eexists. exists m'. split; [reflexivity|]. split; [split; [exact H'|cbn; lia]|]. intros Hst. apply Hm; [exact Hst|lia].
    + exists false, s, m. split; [reflexivity|]. split; [split; auto|lia]. }
  constructor; cbn [sec_ops r_pop r_advance_n r_get_size].
  - intros s m (H & Hs). pose proof (ds_size _ _ _ _ ok _ _ H). lia.
  - exact Hp.
  - intros s m n Hi Hn. destruct (Ha s m n Hi Hn) as (k & s' & m' & H). exists k, s', m'. tauto.
  - apply (skip_from_advance (sec_ops R)); [exact Hp|exact Ha].
Qed.

Definition dsec_inv_window (b : section S) (m : nat) : Prop :=
  (exists mp, inv (sec_parent b) mp) /\ sec_size b <= bound /\ sec_size b <= Z.of_nat m.

Lemma dsec_safe_window : decoder_safe (sec_ops R) dsec_inv_window True (2 ^ 32 - 1).
Proof.
  assert (Hp : forall s m, dsec_inv_window s m -> exists ob s' m', sec_pop R s = Done (ob, s') /\ dsec_inv_window s' m'
    /\ match ob with Some b => is_byte b /\ (True -> (m' < m)%nat) | None => True -> (m' <= m)%nat end).
  { intros s m ((mp & H) & Hs & Hm). unfold sec_pop. destruct (Z.ltb_spec 0 (sec_size s)).
    + destruct (ds_pop _ _ _ _ ok _ _ H) as (ob & s' & m' & -> & H' & Hm'). cbn [bind].
      exists ob. eexists. exists (m - 1)%nat. split; [reflexivity|]. split.
      * split; [exists m'; exact H'|]. cbn [sec_size]. lia.
      * destruct ob; [split; [tauto|lia]|lia].
    + exists None, s, m. split; [reflexivity|]. split; [|lia]. split; [exists mp; exact H|]. lia. }
  assert (Ha : forall s m n, dsec_inv_window s m -> 0 <= n < 2 ^ 32 ->
    exists k s' m', sec_advance_n R s n = Done (k, s') /\ dsec_inv_window s' m' /\ (True -> (m' <= m)%nat)).
  { intros s m n ((mp & H) & Hs & Hm) Hn. unfold sec_advance_n. pose proof (ds_size _ _ _ _ ok _ _ H). destruct (Z.ltb_spec 0 (sec_size s)).
    + set (k := if n <=? sec_size s then n else sec_size s).
      assert (Hk : 0 <= k <= sec_size s) by (unfold k; destruct (Z.leb_spec n (sec_size s)); lia).
      destruct (ds_advance_n _ _ _ _ ok _ _ k H) as (o & s' & m' & -> & H' & Hm'); [lia|]. cbn [bind].
      exists o. eexists. exists m. split; [reflexivity|]. split; [|lia].
      split; [exists m'; exact H'|]. cbn [sec_size]. lia.
    + exists false, s, m. split; [reflexivity|]. split; [|lia]. split; [exists mp; exact H|]. lia. }
  constructor; cbn [sec_ops r_pop r_advance_n r_get_size].
  - intros s m ((mp & H) & Hs & Hm). pose proof (ds_size _ _ _ _ ok _ _ H). lia.
  - exact Hp.
  - intros s m n Hi Hn. destruct (Ha s m n Hi Hn) as (k & s' & m' & H). exists k, s', m'. tauto.
  - apply (skip_from_advance (sec_ops R)); [exact Hp|exact Ha].
Qed.
End Sec.

(** The fixed buffer: safe, without a bound on the number of steps. *)
Lemma rfix_decoder cap : decoder_safe (rfix_ops cap) (rfix_inv cap) False (2 ^ 32 - 1).
Proof.
  apply reader_safe_decoder; [apply rfix_safe|]. intros s m (H1 & H2 & H3 & H4 & _). cbn [rfix_ops r_get_size]. lia.
Qed.
