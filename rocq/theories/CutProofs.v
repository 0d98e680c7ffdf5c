(** Nested values that announce more bytes than the buffer has left (C46). *)
From Verif Require Import Base Buffers Wire Schema Fields Message Spec Contracts BitLemmas ReadProofs ScalarProofs
  BufferProofs Struct SerProofs Tables DecodeProofs ClearProofs SafetyProofs SafetyMsg SafetyProps ConfinedLaws.
From Coq Require Import ZifyBool ZifyNat ZifyN.
Ltac Zify.zify_post_hook ::= Z.div_mod_to_equations.

Lemma rfix_jump cap s l n : rfix_rel cap s l -> cap < 2 ^ 31 -> 0 <= n < 2 ^ 31 ->
  exists o s' k, rfix_advance_n s n = Done (o, s') /\ rfix_rel cap s' (skipn k l).
Proof.
  intros H Hc Hn. pose proof (rfix_bytes_left _ _ _ H) as Hl.
  assert (Hd : n <= zlen l \/ zlen l < n) by lia. destruct Hd.
  - destruct (ro_advance_n _ _ (rfix_ok cap) s l n H ltac:(lia)) as (o & s' & E & H' & _). exists o, s', (Z.to_nat n). split; [exact E|exact H'].
  - exists false, s, O. split; [|exact H]. unfold rfix_advance_n. destruct H as (_ & _ & H2 & H3 & _).
    assert (Hu : u32 (rf_r s + n) = rf_r s + n).
    { apply u32_small. lia. }
    rewrite Hu. destruct (Z.leb_spec (rf_r s + n) (rf_w s)); [lia|reflexivity].
Qed.

Section Cut.
Variable cap : Z.
Hypothesis Hcap : cap < 2 ^ 31.

Definition cut_inv (p : list Z) (b : section rfix) (m : nat) : Prop :=
  exists used rest, p = used ++ rest /\ rfix_rel cap (sec_parent b) rest /\ sec_size b < 2 ^ 31 /\ m = length rest.

Lemma cut_pop p s m : cut_inv p s m -> exists ob s' m', sec_pop (rfix_ops cap) s = Done (ob, s') /\ cut_inv p s' m'
    /\ match ob with Some b => is_byte b /\ (True -> (m' < m)%nat) | None => True -> (m' <= m)%nat end.
Proof.
  intros (used & rest & E & H & Hs & ->). unfold sec_pop. destruct (Z.ltb_spec 0 (sec_size s)).
  - destruct rest as [|b rest].
    + destruct (ro_pop_nil _ _ (rfix_ok cap) _ H) as (s' & -> & H'). cbn [bind]. do 3 eexists. split; [reflexivity|]. split; [|auto].
      exists used, []. cbn [sec_parent sec_size]. split; [auto|]; split; [assumption|]; split; [lia|auto].
    + destruct (ro_pop_cons _ _ (rfix_ok cap) _ _ _ H) as (s' & -> & H'). cbn [bind]. do 3 eexists. split; [reflexivity|]. split.
      * exists (used ++ [b]), rest. cbn [sec_parent sec_size]. rewrite <- app_assoc. split; [auto|]; split; [assumption|]; split; [lia|auto].
      * split; [|cbn; lia]. pose proof (ro_bytes _ _ (rfix_ok cap) _ _ H) as Hf. inversion Hf; assumption.
  - exists None, s, (length rest). split; [reflexivity|]. split; [|auto]. exists used, rest. auto.
Qed.

Lemma cut_decoder p : decoder_safe (sec_ops (rfix_ops cap)) (cut_inv p) True (2 ^ 32 - 1).
Proof.
  assert (Ha : forall s m n, cut_inv p s m -> 0 <= n < 2 ^ 32 ->
    exists k s' m', sec_advance_n (rfix_ops cap) s n = Done (k, s') /\ cut_inv p s' m' /\ (True -> (m' <= m)%nat)).
  { intros s m n (used & rest & E & H & Hs & ->) Hn. unfold sec_advance_n. destruct (Z.ltb_spec 0 (sec_size s)).
    - set (k := if n <=? sec_size s then n else sec_size s).
      assert (Hk : 0 <= k <= sec_size s) by (unfold k; destruct (Z.leb_spec n (sec_size s)); lia).
      destruct (rfix_jump cap _ _ k H Hcap ltac:(lia)) as (o & s' & j & E' & H'). cbn [rfix_ops r_advance_n]. rewrite E'.
      cbn [bind]. do 3 eexists. split; [reflexivity|]. split.
      + exists (used ++ firstn j rest), (skipn j rest). cbn [sec_parent sec_size].
        rewrite <- app_assoc, firstn_skipn. split; [auto|]; split; [assumption|]; split; [lia|auto].
      + intros _. rewrite skipn_length. lia.
    - exists false, s, (length rest). split; [reflexivity|]. split; [|auto]. exists used, rest. auto. }
  constructor; cbn [sec_ops r_pop r_advance_n r_get_size].
  - intros s m (_ & _ & _ & _ & H & _). lia.
  - apply cut_pop.
  - intros s m n Hi Hn. destruct (Ha s m n Hi Hn) as (k & s' & m' & H). exists k, s', m'. tauto.
  - apply (skip_from_advance (sec_ops (rfix_ops cap))); [apply cut_pop|exact Ha].
Qed.

Lemma cut_start s p n : rfix_rel cap s p -> cut_inv p (mk_section (rfix_ops cap) s n) (length p).
Proof.
  intros H. exists [], p. split; [reflexivity|]. split; [exact H|]. split; [|reflexivity].
  destruct H as (_ & _ & _ & H & _). cbn [mk_section sec_size rfix_ops r_get_size]. lia.
Qed.

Definition within (p : list Z) (s' : rfix) : Prop := exists used rest, p = used ++ rest /\ rfix_rel cap s' rest.

Lemma msg_cut fuel fs os v s p n : desc_ok (EMsg fs os) -> wt (EMsg fs os) v -> rfix_rel cap s p ->
  match deserialize fuel (EMsg fs os) (section rfix) (sec_ops (rfix_ops cap)) v (mk_section (rfix_ops cap) s n) with
  | Done (e, _, sec) => within p (sec_parent sec)
  | UB => False
  | Fuel => (fuel <= length p)%nat
  end.
Proof.
  intros Hok Hw H. pose proof (deserialize_safe fuel (EMsg fs os) Hok _ _ _ _ _ (cut_decoder p) v _ _ (cut_start s p n H) Hw) as Q.
  destruct (deserialize fuel (EMsg fs os) _ _ v (mk_section (rfix_ops cap) s n)) as [[[e v'] sec]| |]; cbn [out_ok] in Q; auto.
  destruct Q as (_ & m' & (used & rest & E & Hr & _) & _). exists used, rest. auto.
Qed.

Lemma loop_cut : forall n len data s p, rfix_rel cap s p -> (length p < n)%nat -> 0 <= len -> len + zlen p <= zlen data ->
  exists data' s', bytes_deserialize_loop (rfix_ops cap) n len data s = Done (len + zlen p, data', s') /\ rfix_rel cap s' [].
Proof.
  induction n as [|n IH]; intros len data s p H Hl H0 Hz; [lia|]. cbn [bytes_deserialize_loop]. destruct p as [|b p].
  - destruct (ro_pop_nil _ _ (rfix_ok cap) _ H) as (s' & -> & H'). cbn [bind]. exists data, s'. split; [|exact H'].
    change (zlen []) with 0. rewrite Z.add_0_r. reflexivity.
  - destruct (ro_pop_cons _ _ (rfix_ok cap) _ _ _ H) as (s' & -> & H'). cbn [bind]. rewrite zlen_cons in *. pose proof (zlen_nonneg p).
    rewrite aset_ok by lia. cbn [bind].
    destruct (IH (len + 1) (upd (Z.to_nat len) b data) s' p H') as (d & s2 & E2 & H2); [cbn in Hl; lia|lia|rewrite zlen_upd; lia|].
    exists d, s2. rewrite E2. split; [|exact H2]. do 3 f_equal. lia.
Qed.

Lemma bytes_cut max v s l n p : varint32 l n -> zlen p < n -> rfix_rel cap s (l ++ p) -> capacity_ok max ->
  exists e v' s', bytes_deserialize max rfix (rfix_ops cap) v s = Done (e, v', s') /\ within p s' /\ e <> NoErrors.
Proof.
  intros [Hwf Hv] Hn H Hm. unfold bytes_deserialize, capacity_ok in *.
  destruct (DeserializeVarint_wf (rfix_ok cap) 32 _ _ _ (or_introl eq_refl) Hwf H) as (s1 & -> & H1). cbn [bind]. rewrite Hv.
  destruct (Z.leb_spec n max).
  - destruct (loop_cut (Z.to_nat n) 0 (zrepeat 0 max) s1 p H1) as (d & s2 & -> & H2);
      [unfold zlen in *; lia|lia|pose proof (zlen_nonneg p); rewrite zlen_zrepeat by lia; lia|].
    cbn [bind]. do 3 eexists. split; [reflexivity|]. split; [exists p, []; rewrite app_nil_r; auto|].
    destruct (Z.eqb_spec (0 + zlen p) n); [lia|discriminate].
  - do 3 eexists. split; [reflexivity|]. split; [exists [], p; auto|discriminate].
Qed.

Theorem elem_cut fuel t v s l n p : desc_ok t -> is_packed t = false -> wt t v -> varint32 l n -> zlen p < n -> rfix_rel cap s (l ++ p) ->
  (length p < fuel)%nat ->
  exists e v' s' used rest, elem_deserialize_check_type t (deserialize fuel t) LENDEL rfix (rfix_ops cap) v s = Done (e, v', s')
    /\ p = used ++ rest /\ rfix_rel cap s' rest /\ (e = NoErrors -> exists fs os, t = EMsg fs os).
Proof.
  intros Hok Hpk Hw [Hwf Hv] Hn H Hf.
  destruct t as [sc|st max|fs os]; [discriminate|..]; unfold elem_deserialize_check_type; cbn [wt_eqb].
  - cbn [deserialize]. destruct (bytes_cut max v s l n p (conj Hwf Hv) Hn H Hok) as (e & v' & s' & -> & (used & rest & Hc) & He).
    exists e, v', s', used, rest. split; [reflexivity|]. tauto.
  - unfold deserialize_section. destruct (DeserializeVarint_wf (rfix_ok cap) 32 _ _ _ (or_introl eq_refl) Hwf H) as (s1 & -> & H1). cbn [bind]. rewrite Hv.
    pose proof (msg_cut fuel fs os v s1 p n Hok Hw H1) as Q.
    destruct (deserialize fuel (EMsg fs os) _ _ v _) as [[[e v'] sec]| |]; cbn [bind]; [|contradiction|lia].
    destruct Q as (used & rest & E & Hr). exists e, v', (sec_parent sec), used, rest. split; [reflexivity|]. split; [exact E|]. split; [exact Hr|].
    intros _. eexists _, _. reflexivity.
Qed.

(** Packed numbers are read with pop() only. *)
Definition pops {S} (R : rops S) : rops S :=
  {| r_get_size := r_get_size R; r_get_max_size := r_get_max_size R; r_peek := r_peek R; r_advance := r_advance R;
     r_advance_n := fun s n => Done (false, s); r_pop := r_pop R |}.

Lemma packed_pops {S} (R : rops S) sc : forall fuel x len data s, rep_packed_loop sc fuel x len data (pops R) s = rep_packed_loop sc fuel x len data R s.
Proof.
  induction fuel as [|fuel IH]; intros; cbn [rep_packed_loop]; [reflexivity|].
  change (scalar_deserialize sc S (pops R) x s) with (scalar_deserialize sc S R x s).
  destruct (scalar_deserialize sc S R x s) as [[[e x'] s1]| |]; cbn [bind]; [|reflexivity|reflexivity]. destruct (is_ok e); [|reflexivity].
  destruct (rep_add_scalar len data x') as [[[e' len'] data']| |]; cbn [bind]; [|reflexivity|reflexivity]. destruct (is_ok e'); [apply IH|reflexivity].
Qed.

Definition packed_inv (p : list Z) (b : section rfix) (m : nat) : Prop :=
  exists used rest, p = used ++ rest /\ rfix_rel cap (sec_parent b) rest /\ zlen rest <= sec_size b < 2 ^ 31 /\ m = length rest.

Lemma packed_pop p s m : packed_inv p s m -> exists ob s' m', sec_pop (rfix_ops cap) s = Done (ob, s') /\ packed_inv p s' m'
    /\ match ob with Some b => is_byte b /\ (True -> (m' < m)%nat) | None => True -> (m' <= m)%nat end.
Proof.
  intros (used & rest & E & H & Hs & ->). unfold sec_pop. destruct (Z.ltb_spec 0 (sec_size s)).
  - destruct rest as [|b rest].
    + destruct (ro_pop_nil _ _ (rfix_ok cap) _ H) as (s' & -> & H'). cbn [bind]. do 3 eexists. split; [reflexivity|]. split; [|auto].
      exists used, []. cbn [sec_parent sec_size]. change (zlen []) with 0 in *. split; [auto|]; split; [assumption|]; split; [lia|auto].
    + destruct (ro_pop_cons _ _ (rfix_ok cap) _ _ _ H) as (s' & -> & H'). cbn [bind]. do 3 eexists. split; [reflexivity|]. split.
      * exists (used ++ [b]), rest. cbn [sec_parent sec_size]. rewrite zlen_cons in Hs. rewrite <- app_assoc. split; [auto|]; split; [assumption|]; split; [lia|auto].
      * split; [|cbn; lia]. pose proof (ro_bytes _ _ (rfix_ok cap) _ _ H) as Hf. inversion Hf; assumption.
  - exists None, s, (length rest). split; [reflexivity|]. split; [|auto]. exists used, rest. auto.
Qed.

Lemma packed_decoder p : decoder_safe (pops (sec_ops (rfix_ops cap))) (packed_inv p) True (2 ^ 32 - 1).
Proof.
  constructor; cbn [pops sec_ops r_pop r_advance_n r_get_size].
  - intros s m (used & rest & _ & _ & H & _). lia.
  - apply packed_pop.
  - intros s m n Hi Hn. exists false, s, m. auto.
  - apply (skip_from_advance (pops (sec_ops (rfix_ops cap)))); [apply packed_pop|].
    intros s m n Hi Hn. cbn [pops r_advance_n]. exists false, s, m. auto.
Qed.

Lemma packed_cut fuel sc max v s l n p : capacity_ok max -> wt_field (KRep max) (wt (EScalar sc)) v ->
  varint32 l n -> zlen p < n -> rfix_rel cap s (l ++ p) ->
  match rep_deserialize_packed fuel sc rfix (rfix_ops cap) v s with
  | Done (e, _, s') => exists used rest, p = used ++ rest /\ rfix_rel cap s' rest /\ (e = NoErrors -> rest = [])
  | UB => False
  | Fuel => (fuel <= length p)%nat
  end.
Proof.
  intros Hm Hw [Hwf Hv] Hn H.
  destruct v as [| | |len data|]; try contradiction. destruct Hw as (Hl & Hz' & Hw). unfold capacity_ok in Hm. cbn [rep_deserialize_packed].
  destruct (DeserializeVarint_wf (rfix_ok cap) 32 _ _ _ (or_introl eq_refl) Hwf H) as (s1 & -> & H1). cbn [bind]. rewrite Hv.
  assert (Hst : packed_inv p (mk_section (rfix_ops cap) s1 n) (length p)).
  { exists [], p. split; [reflexivity|]. split; [exact H1|]. split; [|reflexivity].
    pose proof (rfix_bytes_left _ _ _ H1). pose proof H1 as (_ & _ & G1 & G2 & _). cbn [mk_section sec_size rfix_ops r_get_size]. lia. }
  pose proof (rep_packed_loop_safe _ _ _ _ (packed_decoder p) sc max ltac:(lia) fuel VIndet len data _ _ Hst Hl Hz' Hw) as Q.
  rewrite packed_pops in Q.
  destruct (rep_packed_loop sc fuel VIndet len data (sec_ops (rfix_ops cap)) (mk_section (rfix_ops cap) s1 n)) as [[[[e len'] data'] sec]| |]; cbn [bind]; auto.
  destruct Q as (_ & _ & _ & Hne & Hend & m' & (used & rest & E & Hr & _) & _).
  exists used, rest. split; [exact E|]. split; [exact Hr|]. intros He. destruct e; try discriminate; try contradiction.
  destruct (Hend eq_refl) as (s0 & m0 & (u0 & r0 & E0 & Hr0 & Hs0 & _) & Hp). cbn [pops sec_ops r_pop] in Hp. unfold sec_pop in Hp.
  destruct r0 as [|b r0].
  - assert (Hx : rfix_rel cap (sec_parent sec) []).
    { destruct (Z.ltb_spec 0 (sec_size s0)); [|injection Hp as <-; exact Hr0].
      destruct (ro_pop_nil _ _ (rfix_ok cap) _ Hr0) as (s' & E' & H'). rewrite E' in Hp. cbn [bind] in Hp. injection Hp as <-. exact H'. }
    pose proof (rfix_bytes_left _ _ _ Hx) as Z1. pose proof (rfix_bytes_left _ _ _ Hr) as Z2. change (zlen []) with 0 in Z1.
    destruct rest; [reflexivity|rewrite zlen_cons in Z2; pose proof (zlen_nonneg rest); lia].
  - exfalso. rewrite zlen_cons in Hs0. pose proof (zlen_nonneg r0). destruct (Z.ltb_spec 0 (sec_size s0)); [|lia].
    destruct (ro_pop_cons _ _ (rfix_ok cap) _ _ _ Hr0) as (s' & E' & _). rewrite E' in Hp. discriminate.
Qed.

Theorem rep_cut fuel t max v s l n p : desc_ok t -> capacity_ok max -> wt_field (KRep max) (wt t) v ->
  varint32 l n -> zlen p < n -> rfix_rel cap s (l ++ p) -> (length p < fuel)%nat ->
  exists e v' s', rep_deserialize_check_type fuel t (deserialize fuel t) LENDEL rfix (rfix_ops cap) v s = Done (e, v', s')
    /\ ((exists used rest, p = used ++ rest /\ rfix_rel cap s' rest
          /\ (e = NoErrors -> match t with EScalar _ => rest = [] | EBytes _ _ => False | EMsg _ _ => True end))
        \/ (e = ArrayFull /\ s' = s)).
Proof.
  intros Hok Hm Hw Hl Hn H Hf. unfold rep_deserialize_check_type. cbn [wt_eqb].
  destruct t as [sc|st mx|fs os].
  - pose proof (packed_cut fuel sc max v s l n p Hm Hw Hl Hn H) as Q.
    destruct (rep_deserialize_packed fuel sc _ _ v s) as [[[e v'] s']| |]; [|contradiction|lia].
    exists e, v', s'. split; [reflexivity|]. left. exact Q.
  - destruct v as [| | |len data|]; try contradiction. destruct Hw as (Hlen & Hz' & Hw). unfold capacity_ok in *. cbn [rep_deserialize_unpacked].
    destruct (Z.ltb_spec len (zlen data)); [|do 3 eexists; split; [reflexivity|right; auto]].
    unfold rep_get. rewrite u32_small, Z.min_l by lia. destruct (aget_ok data len) as (x & -> & Hx); [lia|]. cbn [bind deserialize].
    destruct (bytes_cut mx x s l n p Hl Hn H Hok) as (e & v' & s' & -> & (used & rest & E & Hr) & He). cbn [bind]. rewrite aset_ok by lia. cbn [bind].
    do 3 eexists. split; [reflexivity|]. left. exists used, rest. auto.
  - destruct v as [| | |len data|]; try contradiction. destruct Hw as (Hlen & Hz' & Hw). unfold capacity_ok in *. cbn [rep_deserialize_unpacked].
    destruct (Z.ltb_spec len (zlen data)); [|do 3 eexists; split; [reflexivity|right; auto]].
    unfold rep_get. rewrite u32_small, Z.min_l by lia. destruct (aget_ok data len) as (x & -> & Hx); [lia|]. cbn [bind].
    destruct Hl as [Hwf Hv].
    destruct (DeserializeVarint_wf (rfix_ok cap) 32 _ _ _ (or_introl eq_refl) Hwf H) as (s1 & -> & H1). cbn [bind]. rewrite Hv.
    assert (Hwx : wt (EMsg fs os) x). { apply all_Forall in Hw. eapply Forall_forall in Hw; [exact Hw|]. eapply nth_error_In; eauto. }
    pose proof (msg_cut fuel fs os x s1 p n Hok Hwx H1) as Q.
    destruct (deserialize fuel (EMsg fs os) _ _ x _) as [[[e v'] sec]| |]; cbn [bind]; [|contradiction|lia]. rewrite aset_ok by lia. cbn [bind].
    destruct Q as (used & rest & E & Hr). do 3 eexists. split; [reflexivity|]. left. exists used, rest. auto.
Qed.
End Cut.
