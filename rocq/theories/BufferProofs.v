(** The concrete buffer classes meet the contracts. *)
From Verif Require Import Base Buffers Wire Contracts BitLemmas.
From Coq Require Import ZifyBool ZifyNat ZifyN.
Ltac Zify.zify_post_hook ::= Z.div_mod_to_equations.

Lemma firstn_all_app {A} (l l' : list A) n : n = length l -> firstn n (l ++ l') = l.
Proof. intros ->. rewrite firstn_app, Nat.sub_diag, firstn_all, firstn_O, app_nil_r. reflexivity. Qed.
Lemma skipn_all_app {A} (l l' : list A) n : n = length l -> skipn n (l ++ l') = l'.
Proof. intros ->. rewrite skipn_app, Nat.sub_diag, skipn_all. reflexivity. Qed.

(* ------------------------------------------------------------------------------------------- *)
(** ** WriteBufferFixedSize *)

Lemma wfix_init_rel cap : 0 <= cap <= 2 ^ 31 -> wfix_rel cap (wfix_init cap) [] (Some cap).
Proof.
  intros H. unfold wfix_rel, wfix_init; cbn [wf_data wf_w]. rewrite zlen_zrepeat by lia.
  rewrite firstn_O, Z.sub_0_r. repeat split; try lia.
  apply Forall_forall. intros x Hx. apply repeat_spec in Hx. subst. unfold is_byte. lia.
Qed.

Lemma wfix_push_cases cap b c n x : wfix_rel cap b c (Some n) -> is_byte x ->
  (n = 0 /\ wfix_push cap b x = Done (false, b))
  \/ (0 < n /\ exists b', wfix_push cap b x = Done (true, b') /\ wfix_rel cap b' (c ++ [x]) (Some (n - 1))).
Proof.
  intros (Hl & Hcap & Hw & Hb & -> & [= ->]) Hx. unfold wfix_push.
  destruct (Z.ltb_spec (wf_w b) cap) as [Hlt|Hge].
  - right. split; [lia|]. rewrite aset_ok by lia. cbn [bind]. eexists. split; [reflexivity|].
    unfold wfix_rel; cbn [wf_data wf_w]. rewrite u32_small by lia. rewrite zlen_upd.
    split; [exact Hl|]. split; [exact Hcap|]. split; [lia|]. split; [now apply Forall_upd|].
    split; [|f_equal; lia].
    replace (Z.to_nat (wf_w b + 1)) with (S (Z.to_nat (wf_w b))) by lia.
    rewrite firstn_S_upd by (unfold zlen in *; lia). reflexivity.
  - left. split; [lia|reflexivity].
Qed.

Lemma wfix_pushn_cases cap b c n src len : wfix_rel cap b c (Some n) -> Forall is_byte src ->
  0 <= len < 2 ^ 31 -> len <= zlen src ->
  (n <= len /\ wfix_pushn cap b src len = Done (false, b))
  \/ (len < n /\ exists b', wfix_pushn cap b src len = Done (true, b')
        /\ wfix_rel cap b' (c ++ firstn (Z.to_nat len) src) (Some (n - len))).
Proof.
  intros (Hl & Hcap & Hw & Hb & -> & [= ->]) Hs Hlen Hsrc. unfold wfix_pushn.
  rewrite u32_small by lia.
  destruct (Z.ltb_spec (wf_w b + len) cap) as [Hlt|Hge].
  - right. split; [lia|]. rewrite memcpy_ok by lia. cbn [bind]. eexists. split; [reflexivity|].
    unfold wfix_rel; cbn [wf_data wf_w].
    assert (E1 : length (firstn (Z.to_nat (wf_w b)) (wf_data b)) = Z.to_nat (wf_w b))
      by (rewrite firstn_length; unfold zlen in *; lia).
    assert (E2 : length (firstn (Z.to_nat len) src) = Z.to_nat len)
      by (rewrite firstn_length; unfold zlen in *; lia).
    split.
    { rewrite !zlen_app, !zlen_firstn, zlen_skipn. lia. }
    split; [exact Hcap|]. split; [lia|]. split.
    { rewrite !Forall_app. auto using Forall_firstn, Forall_skipn. }
    split; [|f_equal; lia].
    rewrite app_assoc. rewrite firstn_all_app; [reflexivity|]. rewrite app_length. lia.
  - left. split; [lia|reflexivity].
Qed.

Lemma wfix_ok cap : writer_ok (wfix_ops cap) (wfix_rel cap) False.
Proof.
  constructor.
  - intros s c n (Hl & Hcap & Hw & Hb & _ & [= ->]). lia.
  - intros s c b H Hb. exists s. destruct (wfix_push_cases cap s c 0 b H Hb) as [(_ & E)|(Hc & _)]; [|lia].
    split; auto.
  - intros s c b n H Hn Hb. destruct (wfix_push_cases cap s c n b H Hb) as [(? & E)|(_ & b' & E & H')]; [lia|].
    eauto.
  - intros s c b (_ & _ & _ & _ & _ & [=]).
  - intros s c src len n H Hs Hlen Hsrc.
    destruct (wfix_pushn_cases cap s c n src len H Hs Hlen Hsrc) as [(Hn & E)|(Hn & b' & E & H')].
    + exists false, s. split; [exact E|]. split; [exact Hn|]. split; [tauto|exact H].
    + exists true, b'. split; [exact E|]. split; auto. lia.
  - intros s c src len (_ & _ & _ & _ & _ & [=]).
  - intros s c n (Hl & Hcap & Hw & Hb & _ & [= ->]). cbn [wfix_ops w_get_available_size].
    rewrite u32_small by lia. lia.
  - intros s c (_ & _ & _ & _ & _ & [=]).
Qed.

(* ------------------------------------------------------------------------------------------- *)
(** ** MessageSizeCalculator *)

Lemma calc_ok : writer_ok calc_ops calc_rel True.
Proof.
  constructor; try (intros; match goal with H : calc_rel _ _ (Some _) |- _ => destruct H as (_ & [=]) end).
  - intros s c b (-> & _) Hb. eexists. split; [reflexivity|]. split; [|reflexivity].
    rewrite zlen_app, zlen_cons, zlen_nil. unfold u32. lia.
  - intros s c src len (-> & _) Hs Hl Hs'. eexists. split; [reflexivity|]. split; [|reflexivity].
    rewrite zlen_app, zlen_firstn. unfold u32. rewrite Zplus_mod_idemp_l. f_equal. lia.
  - intros s c _. reflexivity.
Qed.

Lemma calc_init : calc_rel 0 [] None.
Proof. split; reflexivity. Qed.

(* ------------------------------------------------------------------------------------------- *)
(** ** ReadBufferFixedSize *)

Lemma rfix_of_rel bytes : zlen bytes < 2 ^ 32 -> Forall is_byte bytes ->
  rfix_rel (zlen bytes) (rfix_of bytes) bytes.
Proof.
  intros Hl Hf. pose proof (zlen_nonneg bytes). unfold rfix_rel, rfix_of; cbn [rf_data rf_w rf_r].
  repeat split; auto; try lia.
  cbn [Z.to_nat skipn]. rewrite Z.sub_0_r, firstn_all2; [reflexivity|]. unfold zlen. lia.
Qed.

Lemma rfix_rel_len cap b l : rfix_rel cap b l -> zlen l = rf_w b - rf_r b.
Proof. intros (Hl & Hc & Hr & Hw & Hb & ->). rewrite zlen_firstn, zlen_skipn. lia. Qed.

Lemma rfix_rel_cons cap b x l : rfix_rel cap b (x :: l) ->
  rf_r b < rf_w b /\ aget (rf_data b) (rf_r b) = Done x
  /\ rfix_rel cap {| rf_data := rf_data b; rf_w := rf_w b; rf_r := u32 (rf_r b + 1) |} l.
Proof.
  intros H. pose proof (rfix_rel_len _ _ _ H) as Hlen. rewrite zlen_cons in Hlen.
  pose proof (zlen_nonneg l). destruct H as (Hl & Hc & Hr & Hw & Hb & E).
  split; [lia|].
  destruct (aget_ok (rf_data b) (rf_r b)) as (y & Ea & En); [lia|].
  rewrite (skipn_cons_nth _ _ _ En) in E.
  replace (Z.to_nat (rf_w b - rf_r b)) with (S (Z.to_nat (rf_w b - (rf_r b + 1)))) in E by lia.
  cbn [firstn] in E. injection E as -> El. split; [exact Ea|].
  unfold rfix_rel; cbn [rf_data rf_w rf_r]. rewrite u32_small by lia.
  repeat split; auto; try lia.
  replace (Z.to_nat (rf_r b + 1)) with (S (Z.to_nat (rf_r b))) by lia. exact El.
Qed.

Lemma rfix_ok cap : reader_ok (rfix_ops cap) (rfix_rel cap).
Proof.
  constructor; cbn [rfix_ops r_get_size r_pop r_peek r_advance r_advance_n].
  - intros s l (Hl & Hc & Hr & Hw & Hb & ->). auto using Forall_firstn, Forall_skipn.
  - intros s l H. rewrite (rfix_rel_len _ _ _ H). destruct H as (_ & _ & Hr & _). lia.
  - intros s H. pose proof (rfix_rel_len _ _ _ H) as E. rewrite zlen_nil in E.
    exists s. unfold rfix_pop. destruct (Z.ltb_spec (rf_r s) (rf_w s)); [lia|]. auto.
  - intros s b l H. destruct (rfix_rel_cons _ _ _ _ H) as (Hlt & Ea & H').
    eexists. unfold rfix_pop. destruct (Z.ltb_spec (rf_r s) (rf_w s)); [|lia]. rewrite Ea. cbn [bind]. eauto.
  - intros s H. pose proof (rfix_rel_len _ _ _ H) as E. rewrite zlen_nil in E.
    unfold rfix_peek. destruct (Z.ltb_spec (rf_r s) (rf_w s)); [lia|]. reflexivity.
  - intros s b l H. destruct (rfix_rel_cons _ _ _ _ H) as (Hlt & Ea & H').
    unfold rfix_peek. destruct (Z.ltb_spec (rf_r s) (rf_w s)); [|lia]. now rewrite Ea.
  - intros s H. pose proof (rfix_rel_len _ _ _ H) as E. rewrite zlen_nil in E.
    exists s. unfold rfix_advance. destruct (Z.ltb_spec (rf_r s) (rf_w s)); [lia|]. auto.
  - intros s b l H. destruct (rfix_rel_cons _ _ _ _ H) as (Hlt & Ea & H').
    eexists. unfold rfix_advance. destruct (Z.ltb_spec (rf_r s) (rf_w s)); [|lia]. eauto.
  - intros s l n H Hn. pose proof (rfix_rel_len _ _ _ H) as E. destruct H as (Hl & Hc & Hr & Hw & Hb & El).
    unfold rfix_advance_n. rewrite u32_small by lia.
    destruct (Z.leb_spec (rf_r s + n) (rf_w s)); [|lia].
    exists true. eexists. split; [reflexivity|].
    unfold rfix_rel; cbn [rf_data rf_w rf_r]. repeat split; auto; try lia.
    subst l. rewrite skipn_firstn_comm, skipn_skipn'. f_equal; [lia|f_equal; lia].
Qed.

(** The invariant that keeps the fixed buffer inside its array, whatever is done with it. *)
Definition rfix_inv (cap : Z) (b : rfix) (m : nat) : Prop :=
  zlen (rf_data b) = cap /\ cap < 2 ^ 32 /\ 0 <= rf_r b <= rf_w b /\ rf_w b <= cap
  /\ Forall is_byte (rf_data b) /\ Z.of_nat m = rf_w b - rf_r b.

Lemma rfix_safe cap : reader_safe (rfix_ops cap) (rfix_inv cap) False.
Proof.
  constructor; cbn [rfix_ops r_pop r_advance_n].
  - intros s m (Hl & Hc & Hr & Hw & Hb & Hm). unfold rfix_pop.
    destruct (Z.ltb_spec (rf_r s) (rf_w s)).
    + destruct (aget_ok (rf_data s) (rf_r s)) as (y & -> & En); [lia|]. cbn [bind].
      exists (Some y). eexists. exists (m - 1)%nat. split; [reflexivity|]. split; [|split; [|tauto]].
      * unfold rfix_inv; cbn [rf_data rf_w rf_r]. rewrite u32_small by lia. repeat split; auto; lia.
      * eapply Forall_forall in Hb; [exact Hb|]. eapply nth_error_In; eauto.
    + exists None, s, m. split; [reflexivity|]. split; [|lia]. unfold rfix_inv; tauto.
  - intros s m n (Hl & Hc & Hr & Hw & Hb & Hm) Hn. unfold rfix_advance_n.
    pose proof (Z.mod_pos_bound (rf_r s + n) (2 ^ 32) ltac:(lia)) as Hu.
    change ((rf_r s + n) mod 2 ^ 32) with (u32 (rf_r s + n)) in Hu.
    destruct (Z.leb_spec (u32 (rf_r s + n)) (rf_w s)).
    + exists true. eexists. exists (Z.to_nat (rf_w s - u32 (rf_r s + n))). split; [reflexivity|].
      split; [|tauto]. unfold rfix_inv; cbn [rf_data rf_w rf_r]. repeat split; auto; lia.
    + exists false, s, m. split; [reflexivity|]. split; [|tauto]. unfold rfix_inv; tauto.
Qed.

Lemma rfix_rel_inv cap b l : rfix_rel cap b l -> rfix_inv cap b (length l).
Proof.
  intros H. pose proof (rfix_rel_len _ _ _ H) as E. destruct H as (Hl & Hc & Hr & Hw & Hb & _).
  unfold rfix_inv. repeat split; auto; lia.
Qed.

(* ------------------------------------------------------------------------------------------- *)
(** ** ReadBufferSection *)

Lemma sec_ok {S} (R : rops S) rel tail : reader_ok R rel -> reader_ok (sec_ops R) (sec_rel rel tail).
Proof.
  intros ok. constructor; cbn [sec_ops r_get_size r_pop r_peek r_advance r_advance_n].
  - intros s l (H & _). pose proof (ro_bytes _ _ ok _ _ H) as Hb. apply Forall_app in Hb. tauto.
  - intros s l (_ & E & _). exact E.
  - intros s (H & E & Ht). unfold sec_pop. rewrite zlen_nil in *. destruct (Z.ltb_spec 0 (sec_size s)).
    + destruct tail as [|x tail]; [|assert (sec_size s = 0) by (apply Ht; discriminate); lia].
      destruct (ro_pop_nil _ _ ok _ H) as (s' & -> & H'). cbn [bind]. eexists. split; [reflexivity|].
      split; [exact H'|]. cbn [sec_size]. rewrite zlen_nil. split; [lia|congruence].
    + exists s. split; [reflexivity|]. split; auto.
  - intros s b l (H & E & Ht). unfold sec_pop. rewrite zlen_cons in *. pose proof (zlen_nonneg l).
    destruct (Z.ltb_spec 0 (sec_size s)); [|lia]. cbn [app] in H.
    destruct (ro_pop_cons _ _ ok _ _ _ H) as (s' & -> & H'). cbn [bind]. eexists. split; [reflexivity|].
    split; [exact H'|]. cbn [sec_size]. split; [lia|]. intros Hne. specialize (Ht Hne). lia.
  - intros s (H & E & Ht). unfold sec_peek. rewrite zlen_nil in *. destruct (Z.ltb_spec 0 (sec_size s)); [|reflexivity].
    destruct tail as [|x tail]; [|assert (sec_size s = 0) by (apply Ht; discriminate); lia].
    apply (ro_peek_nil _ _ ok _ H).
  - intros s b l (H & E & Ht). unfold sec_peek. rewrite zlen_cons in *. pose proof (zlen_nonneg l).
    destruct (Z.ltb_spec 0 (sec_size s)); [|lia]. apply (ro_peek_cons _ _ ok _ _ _ H).
  - intros s (H & E & Ht). unfold sec_advance. rewrite zlen_nil in *. destruct (Z.ltb_spec 0 (sec_size s)).
    + destruct tail as [|x tail]; [|assert (sec_size s = 0) by (apply Ht; discriminate); lia].
      destruct (ro_advance_nil _ _ ok _ H) as (s' & -> & H'). cbn [bind]. eexists. split; [reflexivity|].
      split; [exact H'|]. cbn [sec_size]. rewrite zlen_nil. split; [lia|congruence].
    + exists s. split; [reflexivity|]. split; auto.
  - intros s b l (H & E & Ht). unfold sec_advance. rewrite zlen_cons in *. pose proof (zlen_nonneg l).
    destruct (Z.ltb_spec 0 (sec_size s)); [|lia]. cbn [app] in H.
    destruct (ro_advance_cons _ _ ok _ _ _ H) as (s' & -> & H'). cbn [bind]. eexists. split; [reflexivity|].
    split; [exact H'|]. cbn [sec_size]. split; [lia|]. intros Hne. specialize (Ht Hne). lia.
  - intros s l n (H & E & Ht) Hn. unfold sec_advance_n. pose proof (zlen_nonneg l).
    destruct (Z.ltb_spec 0 (sec_size s)).
    + destruct (Z.leb_spec n (sec_size s)); [|lia].
      destruct (ro_advance_n _ _ ok (sec_parent s) (l ++ tail) n H) as (k & s' & -> & H' & Hk).
      { rewrite zlen_app. pose proof (zlen_nonneg tail). lia. }
      cbn [bind]. exists k. eexists. split; [reflexivity|].
      rewrite skipn_app in H'.
      replace (Z.to_nat n - length l)%nat with O in H' by (unfold zlen in *; lia).
      split; [|exact Hk].
      split; [exact H'|]. cbn [sec_size]. rewrite zlen_skipn. split; [lia|].
      intros Hne. specialize (Ht Hne). lia.
    + assert (n = 0) by lia. subst n. exists false, s. split; [reflexivity|]. split; [|lia].
      split; [exact H|]. split; auto.
Qed.

(** Opening a section of [n] bytes. *)
Lemma mk_section_rel {S} (R : rops S) rel s l tail : reader_ok R rel ->
  rel s (l ++ tail) -> sec_rel rel tail (mk_section R s (zlen l)) l.
Proof.
  intros ok H. pose proof (ro_size _ _ ok _ _ H) as E. rewrite zlen_app in E.
  pose proof (zlen_nonneg tail). unfold sec_rel, mk_section; cbn [sec_parent sec_size].
  split; [exact H|]. split; lia.
Qed.

(** Opening a section announced larger than what is left. *)
Lemma mk_section_rel_short {S} (R : rops S) rel s l n : reader_ok R rel -> zlen l <= n ->
  rel s l -> sec_rel rel [] (mk_section R s n) l.
Proof.
  intros ok Hn H. pose proof (ro_size _ _ ok _ _ H) as E.
  unfold sec_rel, mk_section; cbn [sec_parent sec_size]. rewrite app_nil_r.
  split; [exact H|]. split; [lia|congruence].
Qed.


(** A section over a safe buffer is safe, with the measure of the parent ... *)
Definition sec_inv {S} (inv : S -> nat -> Prop) (b : section S) (m : nat) : Prop :=
  inv (sec_parent b) m /\ sec_size b < 2 ^ 32.

Lemma sec_safe {S} (R : rops S) inv strict :
  reader_safe R inv strict -> reader_safe (sec_ops R) (sec_inv inv) strict.
Proof.
  intros ok. constructor; cbn [sec_ops r_pop r_advance_n].
  - intros s m (H & Hs). unfold sec_pop. destruct (Z.ltb_spec 0 (sec_size s)).
    + destruct (rs_pop _ _ _ ok _ _ H) as (ob & s' & m' & -> & H' & Hm). cbn [bind].
      exists ob. eexists. exists m'. split; [reflexivity|]. split; [split; [exact H'|cbn; lia]|exact Hm].
    + exists None, s, m. split; [reflexivity|]. split; [split; auto|lia].
  - intros s m n (H & Hs) Hn. unfold sec_advance_n. destruct (Z.ltb_spec 0 (sec_size s)).
    + set (k := if n <=? sec_size s then n else sec_size s).
      assert (Hk : 0 <= k <= sec_size s) by (unfold k; destruct (Z.leb_spec n (sec_size s)); lia).
      destruct (rs_advance_n _ _ _ ok _ _ k H) as (o & s' & m' & -> & H' & Hm); [lia|]. cbn [bind].
      exists o. eexists. exists m'. split; [reflexivity|]. split; [split; [exact H'|cbn; lia]|exact Hm].
    + exists false, s, m. split; [reflexivity|]. split; [split; auto|lia].
Qed.

(** ... and with its own size as a measure that always goes down. *)
Definition sec_inv_window {S} (inv : S -> nat -> Prop) (b : section S) (m : nat) : Prop :=
  (exists mp, inv (sec_parent b) mp) /\ sec_size b < 2 ^ 32 /\ sec_size b <= Z.of_nat m.

Lemma sec_safe_window {S} (R : rops S) inv strict :
  reader_safe R inv strict -> reader_safe (sec_ops R) (sec_inv_window inv) True.
Proof.
  intros ok. constructor; cbn [sec_ops r_pop r_advance_n].
  - intros s m ((mp & H) & Hs & Hm). unfold sec_pop. destruct (Z.ltb_spec 0 (sec_size s)).
    + destruct (rs_pop _ _ _ ok _ _ H) as (ob & s' & m' & -> & H' & Hm'). cbn [bind].
      exists ob. eexists. exists (m - 1)%nat. split; [reflexivity|]. split.
      * split; [exists m'; exact H'|]. cbn [sec_size]. lia.
      * destruct ob; [split; [tauto|lia]|lia].
    + exists None, s, m. split; [reflexivity|]. split; [|lia]. split; [exists mp; exact H|]. lia.
  - intros s m n ((mp & H) & Hs & Hm) Hn. unfold sec_advance_n. destruct (Z.ltb_spec 0 (sec_size s)).
    + set (k := if n <=? sec_size s then n else sec_size s).
      assert (Hk : 0 <= k <= sec_size s) by (unfold k; destruct (Z.leb_spec n (sec_size s)); lia).
      destruct (rs_advance_n _ _ _ ok _ _ k H) as (o & s' & m' & -> & H' & Hm'); [lia|]. cbn [bind].
      exists o. eexists. exists m. split; [reflexivity|]. split; [|lia].
      split; [exists m'; exact H'|]. cbn [sec_size]. lia.
    + exists false, s, m. split; [reflexivity|]. split; [|lia]. split; [exists mp; exact H|]. lia.
Qed.
