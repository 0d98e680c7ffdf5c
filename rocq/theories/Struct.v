(** Structural lemmas: induction over types, presence bits, positions of fields. *)
From Verif Require Import Base Buffers Wire Schema Fields Message Spec BitLemmas.
From Coq Require Import ZifyBool ZifyNat ZifyN.
Ltac Zify.zify_post_hook ::= Z.div_mod_to_equations.

Section EtyInd.
Variable P : ety -> Prop.
Hypothesis Hs : forall sc, P (EScalar sc).
Hypothesis Hb : forall st max, P (EBytes st max).
Hypothesis Hm : forall fs os, Forall (fun f : fdesc => P (snd f)) fs ->
                  Forall (Forall (fun m : Z * ety => P (snd m))) os -> P (EMsg fs os).

Fixpoint ety_ind' (t : ety) : P t :=
  match t with
  | EScalar sc => Hs sc
  | EBytes st max => Hb st max
  | EMsg fs os =>
      Hm fs os
        ((fix go (l : list fdesc) : Forall (fun f => P (snd f)) l :=
            match l with
            | [] => Forall_nil _
            | f :: l' => @Forall_cons fdesc (fun f => P (snd f)) f l' (ety_ind' (snd f)) (go l')
            end) fs)
        ((fix goo (l : list odesc) : Forall (Forall (fun m => P (snd m))) l :=
            match l with
            | [] => Forall_nil _
            | ms :: l' =>
                @Forall_cons odesc (Forall (fun m => P (snd m))) ms l'
                  ((fix go (l : odesc) : Forall (fun m => P (snd m)) l :=
                      match l with
                      | [] => Forall_nil _
                      | m :: l' => @Forall_cons _ (fun m => P (snd m)) m l' (ety_ind' (snd m)) (go l')
                      end) ms) (goo l')
            end) os)
  end.
End EtyInd.

(** Presence bits. *)
Lemma presence_size_bound i n : 0 <= i < n -> 0 <= i / 32 < presence_size n.
Proof. intros H. unfold presence_size. destruct (Z.ltb_spec 0 (n mod 32)); lia. Qed.

Lemma presence_mask_spec i : presence_mask i = 2 ^ (i mod 32).
Proof.
  unfold presence_mask. rewrite Z.shiftl_1_l. apply u32_small.
  pose proof (Z.mod_pos_bound i 32 ltac:(lia)). split; [apply Z.pow_nonneg; lia|].
  apply Z.pow_lt_mono_r; lia.
Qed.

Lemma land_pow2 k w : 0 <= k -> (Z.land (2 ^ k) w =? 0) = negb (Z.testbit w k).
Proof.
  intros Hk. destruct (Z.testbit w k) eqn:E; cbn [negb].
  - apply Z.eqb_neq. intros E0. assert (H : Z.testbit (Z.land (2 ^ k) w) k = false) by (rewrite E0; apply Z.bits_0).
    rewrite Z.land_spec, Z.pow2_bits_true, E in H by lia. discriminate.
  - apply Z.eqb_eq. apply Z.bits_inj'. intros n Hn. rewrite Z.land_spec, Z.bits_0, Z.pow2_bits_eqb by lia.
    destruct (Z.eqb_spec k n); [subst; now rewrite E|reflexivity].
Qed.

Lemma nth_of_nth_error {A} (l : list A) n x d : nth_error l n = Some x -> nth n l d = x.
Proof. revert n. induction l; intros [|n] H; cbn in *; try congruence. now apply IHl. Qed.

Lemma presence_has_ok pres i n : 0 <= i < n -> zlen pres = presence_size n ->
  presence_has pres i = Done (present pres i).
Proof.
  intros Hi Hl. unfold presence_has, present, presence_index.
  destruct (aget_ok pres (i / 32)) as (w & -> & En); [rewrite Hl; now apply presence_size_bound|].
  cbn [bind]. rewrite presence_mask_spec, land_pow2 by lia. rewrite negb_involutive.
  now rewrite (nth_of_nth_error _ _ _ _ En).
Qed.

Lemma nth_upd {A} n m (x d : A) l : (n < length l)%nat -> nth m (upd n x l) d = if (n =? m)%nat then x else nth m l d.
Proof.
  revert n m. induction l as [|y l IH]; intros [|n] [|m] H; cbn in *; try lia; auto.
  apply IH. lia.
Qed.

Lemma is_u32_testbit x k : is_u32 x -> 32 <= k -> Z.testbit x k = false.
Proof. intros Hx Hk. apply (testbit_small x 32 k); auto. Qed.

Lemma testbit_is_u32 x : 0 <= x -> (forall k, 32 <= k -> Z.testbit x k = false) -> is_u32 x.
Proof.
  intros H0 Hb. split; [exact H0|]. destruct (Z.lt_ge_cases x (2 ^ 32)) as [|Hge]; [assumption|exfalso].
  assert (Hl : 32 <= Z.log2 x) by (apply Z.log2_le_pow2; lia).
  specialize (Hb (Z.log2 x) Hl). rewrite Z.bit_log2 in Hb; [discriminate|lia].
Qed.

Lemma presence_upd_spec (b : bool) pres i n w w' :
  0 <= i < n -> zlen pres = presence_size n -> Forall is_u32 pres ->
  nth_error pres (Z.to_nat (i / 32)) = Some w ->
  0 <= w' -> (forall k, 0 <= k -> Z.testbit w' k = if k =? i mod 32 then b else Z.testbit w k) ->
  let pres' := upd (Z.to_nat (i / 32)) w' pres in
  aset pres (i / 32) w' = Done pres' /\ zlen pres' = presence_size n /\ Forall is_u32 pres'
  /\ (forall j, 0 <= j -> present pres' j = if j =? i then b else present pres j).
Proof.
  intros Hi Hl Hu Hn H0 Hb pres'. pose proof (presence_size_bound i n Hi) as Hs.
  assert (Hlt : (Z.to_nat (i / 32) < length pres)%nat) by (unfold zlen in Hl; lia).
  split; [apply aset_ok; lia|]. split; [unfold pres'; now rewrite zlen_upd|]. split.
  - apply Forall_upd; auto. apply testbit_is_u32; auto. intros k Hk. rewrite Hb by lia.
    destruct (Z.eqb_spec k (i mod 32)); [lia|]. apply is_u32_testbit; auto.
    eapply Forall_forall in Hu; [exact Hu|]. eapply nth_error_In; eauto.
  - intros j Hj. unfold present, pres'. rewrite nth_upd by assumption.
    destruct (Nat.eqb_spec (Z.to_nat (i / 32)) (Z.to_nat (j / 32))) as [E|E].
    + rewrite Hb by lia. rewrite <- E. rewrite (nth_of_nth_error _ _ _ _ Hn).
      destruct (Z.eqb_spec (j mod 32) (i mod 32)); destruct (Z.eqb_spec j i); auto; lia.
    + destruct (Z.eqb_spec j i); [subst; congruence|]. reflexivity.
Qed.

Lemma presence_set_ok pres i n : 0 <= i < n -> zlen pres = presence_size n -> Forall is_u32 pres ->
  exists pres', presence_set pres i = Done pres' /\ zlen pres' = presence_size n /\ Forall is_u32 pres'
  /\ (forall j, 0 <= j -> present pres' j = if j =? i then true else present pres j).
Proof.
  intros Hi Hl Hu. unfold presence_set, presence_index.
  destruct (aget_ok pres (i / 32)) as (w & -> & En); [rewrite Hl; now apply presence_size_bound|].
  cbn [bind]. assert (Hw : is_u32 w) by (eapply Forall_forall in Hu; [exact Hu|]; eapply nth_error_In; eauto).
  eexists. eapply (presence_upd_spec true); eauto.
  - rewrite presence_mask_spec. apply Z.lor_nonneg. split; [apply Hw|apply Z.pow_nonneg; lia].
  - intros k Hk. rewrite presence_mask_spec, Z.lor_spec, Z.pow2_bits_eqb by lia.
    rewrite (Z.eqb_sym k). destruct (Z.eqb_spec (i mod 32) k); [apply orb_true_r|apply orb_false_r].
Qed.

Lemma presence_clear_ok pres i n : 0 <= i < n -> zlen pres = presence_size n -> Forall is_u32 pres ->
  exists pres', presence_clear pres i = Done pres' /\ zlen pres' = presence_size n /\ Forall is_u32 pres'
  /\ (forall j, 0 <= j -> present pres' j = if j =? i then false else present pres j).
Proof.
  intros Hi Hl Hu. unfold presence_clear, presence_index.
  destruct (aget_ok pres (i / 32)) as (w & -> & En); [rewrite Hl; now apply presence_size_bound|].
  cbn [bind]. assert (Hw : is_u32 w) by (eapply Forall_forall in Hu; [exact Hu|]; eapply nth_error_In; eauto).
  eexists. eapply (presence_upd_spec false); eauto.
  - apply Z.land_nonneg. left. apply Hw.
  - intros k Hk. rewrite presence_mask_spec, Z.land_spec. unfold u32.
    destruct (Z.lt_ge_cases k 32).
    + rewrite Z.mod_pow2_bits_low by lia. rewrite Z.lnot_spec by lia. rewrite Z.pow2_bits_eqb by lia.
      rewrite (Z.eqb_sym k). destruct (Z.eqb_spec (i mod 32) k); [apply andb_false_r|apply andb_true_r].
    + rewrite (is_u32_testbit w k) by auto. destruct (k =? i mod 32); reflexivity.
Qed.

Lemma present_zrepeat k i : present (zrepeat 0 k) i = false.
Proof.
  unfold present, zrepeat. generalize (Z.to_nat (i / 32)) as m. intros m. generalize (Z.to_nat k) as n. intros n.
  assert (E : nth m (repeat 0 n) 0 = 0).
  { revert m. induction n; intros [|m]; cbn; auto. }
  rewrite E. apply Z.bits_0.
Qed.

Lemma n_optional_nonneg fs : 0 <= n_optional fs.
Proof. induction fs as [|[[num k] t] fs IH]; cbn [n_optional]; [lia|]. destruct k; lia. Qed.
Lemma n_optional_cons num k t fs : n_optional ((num, k, t) :: fs) = succ_opt k 0 + n_optional fs.
Proof. destruct k; reflexivity. Qed.
Lemma succ_opt_add k i : succ_opt k i = i + succ_opt k 0.
Proof. destruct k; cbn; lia. Qed.
Lemma succ_opt_range k : 0 <= succ_opt k 0 <= 1.
Proof. destruct k; cbn; lia. Qed.
Lemma next_opt_succ k i : next_opt k i = succ_opt k i.
Proof. reflexivity. Qed.

(** Index of the presence bit of the field at a position. *)
Fixpoint optix (fs : list fdesc) (pos : nat) : Z :=
  match fs, pos with
  | [], _ | _, O => 0
  | (_, k, _) :: fs', S pos' => succ_opt k 0 + optix fs' pos'
  end.

Lemma optix_bound fs pos num t : nth_error fs pos = Some (num, KOpt, t) -> 0 <= optix fs pos < n_optional fs.
Proof.
  revert pos. induction fs as [|[[num' k] t'] fs IH]; intros [|pos] H; cbn [nth_error optix] in *; try discriminate.
  - injection H as -> -> ->. rewrite n_optional_cons. pose proof (n_optional_nonneg fs). cbn [succ_opt]. lia.
  - specialize (IH _ H). rewrite n_optional_cons. pose proof (succ_opt_range k). lia.
Qed.
Lemma optix_nonneg fs pos : 0 <= optix fs pos.
Proof.
  revert pos. induction fs as [|[[num' k] t'] fs IH]; intros [|pos]; cbn [optix]; try lia.
  specialize (IH pos). pose proof (succ_opt_range k). lia.
Qed.
Lemma optix_inj fs p q n1 t1 n2 t2 : nth_error fs p = Some (n1, KOpt, t1) ->
  nth_error fs q = Some (n2, KOpt, t2) -> optix fs p = optix fs q -> p = q.
Proof.
  revert p q. induction fs as [|[[num' k] t'] fs IH]; intros [|p] [|q] Hp Hq E; cbn [nth_error optix] in *;
    try discriminate; auto.
  - injection Hp as -> -> ->. cbn [succ_opt] in E. pose proof (optix_nonneg fs q). lia.
  - injection Hq as -> -> ->. cbn [succ_opt] in E. pose proof (optix_nonneg fs p). lia.
  - f_equal. eapply IH; eauto. lia.
Qed.
