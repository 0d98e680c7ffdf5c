(** Strings set from their own characters. *)
From Verif Require Import Base Buffers Wire Schema Fields Message Api Spec SpecApi Contracts BitLemmas
  ScalarProofs BufferProofs Struct SerProofs Tables DecodeProofs ClearProofs TidyProofs AssignProofs
  SafetyProofs SafetyMsg SafetyProps ApiProofs ApiProps Alias SpecAlias AliasProofs AliasText.
From Coq Require Import ZifyBool ZifyNat ZifyN.
Ltac Zify.zify_post_hook ::= Z.div_mod_to_equations.

Lemma overlap_no offset n : n <= offset \/ offset = 0 -> overlap offset n = false.
Proof. unfold overlap. lia. Qed.
Lemma overlap_yes offset n : 0 < offset < n -> overlap offset n = true.
Proof. unfold overlap. lia. Qed.
Lemma Forall_skip {A} (P : A -> Prop) l n : Forall P l -> Forall P (skipn n l).
Proof. intros H. rewrite <- (firstn_skipn n l) in H. now apply Forall_app in H. Qed.

Theorem own_bytes_reach : forall st max ops fuel len data offset n, let ty := OElem (EBytes st max) in
  oty_ok ty -> Forall (op_ok ty) ops -> run_ops fuel ops ty (construct ty) = Done (VB len data) ->
  0 <= offset -> 0 <= n -> offset + n <= max -> n <= offset \/ offset = 0 ->
  exists v', set_own_bytes (VB len data) offset n = Done (NoErrors, v') /\ owt ty v'
    /\ oview ty v' = SvB (firstn (Z.to_nat n) (skipn (Z.to_nat offset) data)).
Proof.
  intros st max ops fuel len data offset n ty Hok Hl Hrun Ho Hn Hon Hov. destruct (reached_ok fuel ty ops _ Hok Hl Hrun) as (Hw & Ht & _).
  pose proof Hw as (_ & Hz & Hall). apply all_Forall in Hall.
  assert (Hop : op_ok ty (OpBytesSet (skipn (Z.to_nat offset) data) n)).
  { cbn [op_ok ty]. split; [now apply Forall_skip|]. rewrite zlen_skipn. lia. }
  pose proof (op_safe fuel _ ty _ Hok Hw Ht Hop) as H. unfold op_post in H. cbn [run_op ty bytes_set] in H.
  cbn [set_own_bytes]. rewrite overlap_no by exact Hov. destruct (Z.leb_spec n (zlen data)); [|lia].
  destruct (memcpy data 0 (skipn (Z.to_nat offset) data) n) as [d'| |]; cbn [bind] in *; try contradiction.
  destruct H as (Hw' & _ & Ha). exists (VB n d'). split; [reflexivity|]. split; [exact Hw'|].
  remember (oview _ (VB n d')) as y eqn:Ey. clear Ey. inversion Ha; subst; reflexivity.
Qed.

Theorem own_bytes_overlap : forall st max ops fuel len data offset n, let ty := OElem (EBytes st max) in
  oty_ok ty -> Forall (op_ok ty) ops -> run_ops fuel ops ty (construct ty) = Done (VB len data) ->
  0 < offset < n -> offset + n <= max ->
  set_own_bytes (VB len data) offset n = UB
  /\ exists v', run_op fuel (OpBytesSet (skipn (Z.to_nat offset) data) n) ty (VB len data) = Done (NoErrors, v').
Proof.
  intros st max ops fuel len data offset n ty Hok Hl Hrun Hon Hn. destruct (reached_ok fuel ty ops _ Hok Hl Hrun) as (Hw & Ht & _).
  pose proof Hw as (_ & Hz & Hall). apply all_Forall in Hall. split.
  - cbn [set_own_bytes]. rewrite overlap_yes by exact Hon. destruct (Z.leb_spec n (zlen data)); [reflexivity|lia].
  - assert (Hop : op_ok ty (OpBytesSet (skipn (Z.to_nat offset) data) n)).
    { cbn [op_ok ty]. split; [now apply Forall_skip|]. rewrite zlen_skipn. lia. }
    pose proof (op_safe fuel _ ty _ Hok Hw Ht Hop) as H. unfold op_post in H. cbn [run_op ty bytes_set] in *.
    destruct (Z.leb_spec n (zlen data)); [|lia].
    destruct (memcpy data 0 (skipn (Z.to_nat offset) data) n) as [d'| |]; cbn [bind] in *; try contradiction. eauto.
Qed.

Lemma strnlen_c_string : forall n i s, In 0 s -> zlen s < Z.of_nat n -> strnlen n i s = Done (i + zlen (c_string s)).
Proof.
  induction n as [|n IH]; intros i s Hin Hz; [pose proof (zlen_nonneg s); lia|]. destruct s as [|c s]; [contradiction|]. cbn [strnlen c_string].
  destruct (Z.eqb_spec c 0); [unfold zlen; cbn; f_equal; lia|]. rewrite zlen_cons in *. destruct Hin as [|Hin]; [congruence|]. rewrite IH by (auto; lia). f_equal. lia.
Qed.
Lemma strnlen_unterminated : forall n i s, ~ In 0 s -> zlen s < Z.of_nat n -> strnlen n i s = UB.
Proof.
  induction n as [|n IH]; intros i s Hin Hz; [pose proof (zlen_nonneg s); lia|]. destruct s as [|c s]; [reflexivity|]. cbn [strnlen In] in *.
  destruct (Z.eqb_spec c 0); [tauto|]. rewrite zlen_cons in Hz. apply IH; [tauto|lia].
Qed.
Lemma c_string_zlen s : In 0 s -> zlen (c_string s) < zlen s.
Proof.
  induction s as [|c s IH]; [contradiction|]. intros [->|H]; cbn [c_string].
  - rewrite Z.eqb_refl, zlen_cons. pose proof (zlen_nonneg s). change (zlen (@nil Z)) with 0. lia.
  - destruct (Z.eqb_spec c 0); rewrite ?zlen_cons; [pose proof (zlen_nonneg s); change (zlen (@nil Z)) with 0; lia|]. specialize (IH H). lia.
Qed.

Theorem own_cstr_reach : forall max ops fuel len data offset, let ty := OElem (EBytes true max) in
  oty_ok ty -> Forall (op_ok ty) ops -> run_ops fuel ops ty (construct ty) = Done (VB len data) -> 0 <= offset <= max ->
  let s := skipn (Z.to_nat offset) data in
  (In 0 s -> zlen (c_string s) < offset \/ offset = 0 ->
     exists v', set_own_cstr (VB len data) offset = Done (NoErrors, v') /\ owt ty v' /\ oview ty v' = SvB (c_string s))
  /\ (In 0 s -> 0 < offset <= zlen (c_string s) -> set_own_cstr (VB len data) offset = UB)
  /\ (~ In 0 s -> set_own_cstr (VB len data) offset = UB).
Proof.
  intros max ops fuel len data offset ty Hok Hl Hrun Ho s. destruct (reached_ok fuel ty ops _ Hok Hl Hrun) as (Hw & Ht & _).
  pose proof Hw as (_ & Hz & Hall). apply all_Forall in Hall.
  assert (Hm : 0 <= max < 2 ^ 31) by (cbn in Hok; unfold capacity_ok in Hok; lia).
  assert (Hs : zlen s <= max) by (subst s; rewrite zlen_skipn; lia).
  assert (Hfu : Z.of_nat (Z.to_nat (u32 (max + 1))) = max + 1) by (unfold u32; rewrite Z.mod_small; lia).
  cbn [set_own_cstr]. fold s. rewrite Hz. split; [|split].
  - intros Hin Hov. pose proof (c_string_zlen s Hin) as Hc. pose proof (zlen_nonneg (c_string s)).
    assert (Hop : op_ok ty (OpCStr (Some s))) by (cbn [op_ok ty]; split; [now apply Forall_skip|now left]).
    pose proof (op_safe fuel _ ty _ Hok Hw Ht Hop) as H0. unfold op_post in H0. cbn [run_op ty string_set_cstr] in H0. rewrite Hz in H0.
    rewrite strnlen_c_string in * by (auto; lia). cbn [bind] in *. rewrite Z.min_l in * by lia.
    destruct (Z.ltb_spec (0 + zlen (c_string s)) max); [|lia]. rewrite overlap_no by lia.
    destruct (strncpy_bytes _ s) as [l| |]; cbn [bind] in *; try contradiction. destruct (memcpy data 0 l _) as [d'| |]; cbn [bind] in *; try contradiction.
    destruct H0 as (Hw' & _ & Ha). eexists. split; [reflexivity|]. split; [exact Hw'|].
    remember (oview _ (VB _ d')) as y eqn:Ey. clear Ey. inversion Ha; subst. f_equal. apply firstn_all2. unfold zlen in *. lia.
  - intros Hin Hov. pose proof (c_string_zlen s Hin) as Hc. rewrite strnlen_c_string by (auto; lia). cbn [bind]. rewrite Z.min_l by lia.
    destruct (Z.ltb_spec (0 + zlen (c_string s)) max); [|lia]. now rewrite overlap_yes by lia.
  - intros Hin. now rewrite strnlen_unterminated by (auto; lia).
Qed.
