(** A nested message that is cut short and ends in an unknown record (C46). *)
From Verif Require Import Base Buffers Wire Schema Fields Message Spec Contracts BitLemmas ReadProofs ScalarProofs
  BufferProofs Struct SerProofs Tables SpecRead DecodeProofs ReadAny MalformedProps.
From Coq Require Import ZifyBool ZifyNat ZifyN.
Ltac Zify.zify_post_hook ::= Z.div_mod_to_equations.

(** A section that thinks there are [D] bytes more than its parent has. *)
Definition excess_rel {S} (rel : S -> list Z -> Prop) (D : Z) (b : section S) (l : list Z) : Prop :=
  rel (sec_parent b) l /\ (l <> [] -> sec_size b = zlen l + D) /\ (l = [] -> 0 <= sec_size b <= D).

Lemma excess_ok {S} (R : rops S) rel D : 0 <= D -> reader_ok R rel -> reader_ok (sec_ops R) (excess_rel rel D).
Proof.
  intros HD ok. constructor; cbn [sec_ops r_get_size r_pop r_peek r_advance r_advance_n].
  - intros s l (H & _). exact (ro_bytes _ _ ok _ _ H).
  - intros s l (_ & E & E0). destruct l as [|a l]; [rewrite zlen_nil; specialize (E0 eq_refl); lia|]. specialize (E ltac:(discriminate)). lia.
  - intros s (H & _ & E). specialize (E eq_refl). unfold sec_pop. destruct (Z.ltb_spec 0 (sec_size s)).
    + destruct (ro_pop_nil _ _ ok _ H) as (s' & -> & H'). cbn [bind]. eexists. split; [reflexivity|].
      split; [exact H'|]. split; [congruence|]. cbn [sec_size]. intros _. lia.
    + exists s. split; [reflexivity|]. split; [exact H|]. split; [congruence|]. auto.
  - intros s b l (H & E & _). specialize (E ltac:(discriminate)). rewrite zlen_cons in E. pose proof (zlen_nonneg l).
    unfold sec_pop. destruct (Z.ltb_spec 0 (sec_size s)); [|lia].
    destruct (ro_pop_cons _ _ ok _ _ _ H) as (s' & -> & H'). cbn [bind]. eexists. split; [reflexivity|].
    split; [exact H'|]. cbn [sec_size]. split; intros; [lia|]. subst l. rewrite zlen_nil in E. lia.
  - intros s (H & _ & E). unfold sec_peek. destruct (0 <? sec_size s); [|reflexivity]. exact (ro_peek_nil _ _ ok _ H).
  - intros s b l (H & E & _). specialize (E ltac:(discriminate)). rewrite zlen_cons in E. pose proof (zlen_nonneg l).
    unfold sec_peek. destruct (Z.ltb_spec 0 (sec_size s)); [|lia]. exact (ro_peek_cons _ _ ok _ _ _ H).
  - intros s (H & _ & E). specialize (E eq_refl). unfold sec_advance. destruct (Z.ltb_spec 0 (sec_size s)).
    + destruct (ro_advance_nil _ _ ok _ H) as (s' & -> & H'). cbn [bind]. eexists. split; [reflexivity|].
      split; [exact H'|]. split; [congruence|]. cbn [sec_size]. intros _. lia.
    + exists s. split; [reflexivity|]. split; [exact H|]. split; [congruence|]. auto.
  - intros s b l (H & E & _). specialize (E ltac:(discriminate)). rewrite zlen_cons in E. pose proof (zlen_nonneg l).
    unfold sec_advance. destruct (Z.ltb_spec 0 (sec_size s)); [|lia].
    destruct (ro_advance_cons _ _ ok _ _ _ H) as (s' & -> & H'). cbn [bind]. eexists. split; [reflexivity|].
    split; [exact H'|]. cbn [sec_size]. split; intros; [lia|]. subst l. rewrite zlen_nil in E. lia.
  - intros s l n (H & E & E0) Hn. unfold sec_advance_n. pose proof (zlen_nonneg l).
    assert (Hs : zlen l <= sec_size s <= zlen l + D).
    { destruct l as [|a l]; [rewrite zlen_nil; specialize (E0 eq_refl); lia|]. specialize (E ltac:(discriminate)). lia. }
    destruct (Z.ltb_spec 0 (sec_size s)).
    + destruct (Z.leb_spec n (sec_size s)); [|lia].
      destruct (ro_advance_n _ _ ok (sec_parent s) l n H Hn) as (k & s' & -> & H' & Hk). cbn [bind]. exists k. eexists.
      split; [reflexivity|]. split; [|exact Hk]. split; [exact H'|]. cbn [sec_size].
      assert (Hz : zlen (skipn (Z.to_nat n) l) = zlen l - n) by (rewrite zlen_skipn; lia). split.
      * intros Hne. rewrite Hz. assert (Hl : l <> []) by (intros ->; rewrite skipn_nil in Hne; congruence). rewrite (E Hl). lia.
      * intros He. rewrite He, zlen_nil in Hz. lia.
    + assert (n = 0) by lia. subst n. exists false, s. split; [reflexivity|]. split; [|lia]. exact (conj H (conj E E0)).
Qed.

Lemma rfix_bytes_left cap b l : rfix_rel cap b l -> zlen l = rf_w b - rf_r b.
Proof.
  intros (E1 & _ & H1 & H2 & _ & ->). unfold zlen in *. rewrite firstn_length, skipn_length. lia.
Qed.

Theorem cut_not_confined : forall f o v l n p vs ovs num tg' l' n' q cap b, let t := EMsg f o in
  desc_ok t -> wt t v -> clean t v -> mdec f o (view t v) p (SvM vs ovs) ->
  ~ In num (field_numbers f o) -> 0 < num -> varint32 tg' (num * 8 + wt_code LENDEL) -> varint32 l' n' ->
  q <> [] -> varint32 l n -> zlen (p ++ tg' ++ l' ++ q) < n <= zlen (p ++ tg' ++ l') + n' ->
  rfix_rel cap b (l ++ p ++ tg' ++ l' ++ q) -> cap <= 2 ^ 31 ->
  forall fuel, (length (p ++ tg' ++ l' ++ q) < fuel)%nat ->
  exists v' b', elem_deserialize_check_type t (deserialize fuel t) LENDEL rfix (rfix_ops cap) v b = Done (NoErrors, v', b')
    /\ view t v' = SvM vs ovs /\ rfix_rel cap b' q.
Proof.
  intros f o v l n p vs ovs num tg' l' n' q cap b t Hd Hw Hc Hp Hn H0 Htg Hl' Hq Hl Hlen Hr Hcap fuel Hf.
  pose proof (rfix_ok cap) as ok. unfold t. cbn [elem_deserialize_check_type wt_eqb]. unfold deserialize_section.
  destruct (DeserializeVarint_wf ok 32 _ _ _ (or_introl eq_refl) (proj1 Hl) Hr) as (b1 & E1 & Hr1). rewrite E1. cbn [bind].
  rewrite (proj2 Hl). set (body := p ++ tg' ++ l' ++ q) in *.
  pose proof (rfix_bytes_left _ _ _ Hr1) as Hb1.
  assert (Hlt : zlen body < rf_w b1).
  { pose proof (rfix_bytes_left _ _ _ Hr) as Hb0. rewrite zlen_app in Hb0. pose proof (varint32_nonempty _ _ Hl) as Hne.
    assert (0 < zlen l) by (destruct l; [congruence|rewrite zlen_cons; pose proof (zlen_nonneg l); lia]).
    pose proof Hr as (_ & _ & Hrr & _). pose proof Hr1 as (_ & _ & Hrr1 & _).
    enough (rf_w b1 = rf_w b) by lia.
    enough (G : forall k i temp byte s r, DeserializeVarint_loop (rfix_ops cap) k 32 i temp byte s = Done r -> rf_w (snd r) = rf_w s).
    { unfold DeserializeVarint in E1.
      destruct (DeserializeVarint_loop (rfix_ops cap) 10 32 0 0 0 b) as [[[[r0 byte0] x0] s0]| |] eqn:EL; cbn [bind] in E1; try discriminate.
      apply G in EL. cbn [snd] in EL. destruct r0; [destruct (negb _)|]; injection E1; intros; subst; try discriminate; exact EL. }
    clear. induction k as [|k IH]; intros i temp byte s r; cbn [DeserializeVarint_loop]; [discriminate|].
    cbn [rfix_ops r_pop]. unfold rfix_pop. destruct (rf_r s <? rf_w s).
    - destruct (aget (rf_data s) (rf_r s)); cbn [bind]; try discriminate. destruct (_ && _ && _); [intros E; apply IH in E; exact E|].
      intros [= <-]. reflexivity.
    - cbn [bind]. rewrite andb_false_r. intros [= <-]. reflexivity. }
  set (D := Z.min n (rf_w b1) - zlen body). assert (HD : 0 < D) by (unfold D; lia).
  pose proof (excess_ok (rfix_ops cap) (rfix_rel cap) D ltac:(lia) ok) as ok'.
  assert (Hs : excess_rel (rfix_rel cap) D (mk_section (rfix_ops cap) b1 n) body).
  { split; [exact Hr1|]. cbn [mk_section sec_size rfix_ops r_get_size]. unfold D. pose proof (zlen_nonneg body).
    split; [lia|]. intros Hbe. assert (zlen body = 0) by now rewrite Hbe. lia. }
  rewrite deserialize_msg. unfold body in Hs. 
  destruct (loop_after f o fuel _ _ _ Hp Hd _ _ _ ok' (tg' ++ l' ++ q) v (mk_section (rfix_ops cap) b1 n) fuel) as (v1 & s1 & fuel1 & E & Hg & Hs1 & Hf1);
    [unfold good; auto|exact Hs|exact Hf|exact Hf|].
  rewrite E. destruct (DeserializeTag_wf ok' _ _ _ num LENDEL Htg ltac:(lia) Hs1) as (s2 & E2 & Hs2).
  destruct fuel1 as [|fuel1]; [lia|]. cbn [msg_loop]. rewrite E2. cbn [bind].
  destruct (good_VM _ _ _ _ _ Hg) as (pres & xs & os' & -> & _). cbn [msg_dispatch].
  unfold field_numbers in Hn. rewrite in_app_iff in Hn. rewrite find_field_none, find_oneof_none by tauto.
  destruct (Z.eqb_spec num 0); [lia|]. cbn [skip_unknown_field]. unfold skip_length_delimited.
  destruct (DeserializeVarint_wf ok' 32 _ _ _ (or_introl eq_refl) (proj1 Hl') Hs2) as (s3 & E3 & Hs3). rewrite E3. cbn [bind].
  rewrite (proj2 Hl'). cbn [sec_ops r_advance_n]. unfold sec_advance_n.
  destruct Hs3 as (Hr3 & Hsz & _). specialize (Hsz Hq). pose proof (zlen_nonneg q).
  assert (Hle : sec_size s3 <= n').
  { rewrite Hsz. unfold D. unfold body in *. rewrite !zlen_app in *. lia. }
  destruct (Z.ltb_spec 0 (sec_size s3)); [|lia].
  replace (if n' <=? sec_size s3 then n' else sec_size s3) with (sec_size s3) by (destruct (Z.leb_spec n' (sec_size s3)); lia).
  cbn [rfix_ops r_advance_n]. unfold rfix_advance_n. pose proof (rfix_bytes_left _ _ _ Hr3) as Hb3.
  destruct Hr3 as (Hr3a & Hr3b & Hr3c & Hr3d & Hr3e & Hr3f).
  assert (Hdb : D + zlen body <= rf_w b1) by (unfold D; lia).
  assert (Hqb : zlen q <= zlen body). { unfold body. rewrite !zlen_app. pose proof (zlen_nonneg p). pose proof (zlen_nonneg tg'). pose proof (zlen_nonneg l'). lia. }
  assert (Hb1c : rf_w b1 <= cap) by (destruct Hr1 as (_ & _ & _ & H1d & _); exact H1d).
  assert (Hq0 : 0 < zlen q) by (destruct q; [congruence|rewrite zlen_cons; pose proof (zlen_nonneg q); lia]).
  rewrite u32_small by lia.
  destruct (Z.leb_spec (rf_r (sec_parent s3) + sec_size s3) (rf_w (sec_parent s3))); [lia|]. cbn [bind is_ok].
  assert (Hfu : exists k, fuel1 = S k).
  { destruct fuel1; [|eauto]. exfalso. pose proof (varint32_nonempty _ _ Htg). rewrite !app_length in Hf1.
    destruct q; [congruence|]. cbn [length] in Hf1. lia. }
  destruct Hfu as (k & ->). cbn [msg_loop]. unfold DeserializeTag, DeserializeVarint. cbn [DeserializeVarint_loop sec_ops r_pop].
  unfold sec_pop at 1. cbn [sec_size]. rewrite Z.sub_diag. cbn [Z.ltb Z.compare bind]. rewrite andb_false_r. cbn [bind].
  eexists. exists (sec_parent s3). split; [reflexivity|]. destruct Hg as (_ & _ & Hg). split; [exact Hg|].
  unfold rfix_rel. auto 8.
Qed.
