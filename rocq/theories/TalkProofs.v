(** Calls have the effect the specification says, and so have conversations (C88). *)
From Verif Require Import Base Buffers Wire Schema Fields Message Spec SpecVersions SpecMerge Contracts Api SpecApi SpecHistory
  BitLemmas ReadProofs ScalarProofs BufferProofs Struct SerProofs SerProps Tables DecodeProofs RoundTrip ClearProofs TidyProofs AssignProofs
  DecodeProps ApiProofs ApiProps AliasProofs ReadAny ReadTotal CleanProofs HistoryProps MalformedProps VersionProofs MergeProofs MergeLaws SpecTalk.
From Coq Require Import ZifyBool ZifyNat ZifyN.
Ltac Zify.zify_post_hook ::= Z.div_mod_to_equations.

Lemma overwrite_in {A} k (x : A) l : 0 <= k < zlen l -> overwrite k x l = upd (Z.to_nat k) x l.
Proof.
  intros H. unfold overwrite, zlen in *. assert (Hn : (Z.to_nat k < length l)%nat) by lia. revert Hn. clear H. generalize (Z.to_nat k). clear k. intros n. revert l.
  induction n as [|n IH]; intros [|a l] Hn; cbn in *; try lia; [reflexivity|]. f_equal. apply IH. lia.
Qed.

Lemma overwrite_end {A} k (x : A) l : k = zlen l -> overwrite k x l = l ++ [x].
Proof.
  intros ->. unfold overwrite, zlen. rewrite Nat2Z.id, firstn_all, skipn_all2 by lia. reflexivity.
Qed.

Lemma put_overwrite {A} max l i (x : A) l' : 0 <= i -> 0 < max -> put max l i x l' -> Z.min i (max - 1) <= zlen l -> l' = overwrite (Z.min i (max - 1)) x l.
Proof.
  intros Hi Hm H Hk. inversion H as [k -> Hlt|k gap -> Hge Hg]; subst.
  - symmetry. apply overwrite_in. lia.
  - assert (gap = []) as -> by (destruct gap; [reflexivity|unfold zlen in *; cbn [length] in *; lia]). symmetry. apply overwrite_end. lia.
Qed.

Ltac some_in H := match type of H with match ?m with Some _ => _ | None => _ end = Some _ => let E := fresh "E" in destruct m as [[? ?]|] eqn:E; [|discriminate H]; injection H as <- <- end.

Lemma effect_calls : forall o ty x e y, oty_ok ty -> op_ok ty o -> effect ty x o = Some (e, y) -> forall e' y', acall ty x o e' y' -> e' = e /\ y' = y.
Proof.
  induction o as [z| |src|src|src len|str|i b|i src|src|src len| |i o IH|pos o IH|pos|pos id o IH|pos id|bytes]; intros ty x e y Hty Hok He e' y' Ha;
    inversion Ha; subst; clear Ha; cbn [effect] in He;
    repeat match goal with H : nth_error _ _ = _ |- _ => rewrite H in He end; try (injection He as <- <-; split; reflexivity); try discriminate He.
  (* a string set from a string *)
  - match goal with H : view _ _ = SvB _ |- _ => rewrite H in He end. rewrite (proj2 (Z.leb_le _ _)) in He by assumption. injection He as <- <-. auto.
  - match goal with H : view _ _ = SvB _ |- _ => rewrite H in He end. rewrite (proj2 (Z.leb_gt _ _)) in He by assumption. injection He as <- <-. auto.
  - rewrite (proj2 (Z.leb_le _ _)) in He by assumption. injection He as <- <-. auto.
  - rewrite (proj2 (Z.leb_gt _ _)) in He by assumption. injection He as <- <-. auto.
  - (* OpBytesPut *) cbn [oty_ok desc_ok op_ok] in *. unfold capacity_ok, legal_index in *. cbv zeta in He. destruct (Z.leb_spec (Z.min i (max - 1)) (zlen bs)); [|discriminate].
    injection He as <- <-. split; [reflexivity|]. f_equal. apply put_overwrite; auto; lia.
  - (* OpRepSet *) cbn [oty_ok op_ok] in *. unfold capacity_ok, legal_index in *. cbv zeta in He. destruct (Z.leb_spec (Z.min i (max - 1)) (zlen l)); [|discriminate].
    injection He as <- <-. split; [reflexivity|]. f_equal. apply put_overwrite; auto; lia.
  - rewrite (proj2 (Z.ltb_lt _ _)) in He by assumption. injection He as <- <-. auto.
  - rewrite (proj2 (Z.ltb_ge _ _)) in He by lia. injection He as <- <-. auto.
  - rewrite (proj2 (Z.leb_le _ _)) in He by assumption. injection He as <- <-. auto.
  - rewrite (proj2 (Z.leb_gt _ _)) in He by assumption. injection He as <- <-. auto.
  - (* OpRepAt *) cbn [oty_ok op_ok] in *. destruct Hty as [Hd Hcap], Hok as [Hi Hok]. unfold capacity_ok, legal_index in *. cbv zeta in He.
    match goal with H : nth_error l _ = Some _ |- _ => try rewrite H in He; pose proof (nth_error_lt _ _ _ H) end.
    some_in He. match goal with H : acall _ _ _ _ _ |- _ => destruct (IH (OElem t) _ _ _ Hd Hok E _ _ H) as [-> ->] end. split; [reflexivity|]. f_equal. symmetry. apply overwrite_in. unfold zlen. lia.
  - cbv zeta in He. replace (nth_error l (Z.to_nat (Z.min i (max - 1)))) with (@None sval) in He; [discriminate|]. symmetry. apply nth_error_None. unfold zlen in *. lia.
  - (* OpField *) cbn [op_ok] in Hok. match goal with H : nth_error fs pos = _ |- _ => rewrite H in Hok; destruct (desc_field fs os pos _ _ _ Hty H) as (Hd & _) end.
    some_in He. match goal with H : acall _ _ _ _ _ |- _ => destruct (IH (OElem t) _ _ _ Hd Hok E _ _ H) as [-> ->] end. auto.
  - cbn [op_ok] in Hok. match goal with H : nth_error fs pos = _ |- _ => rewrite H in Hok; destruct (desc_field fs os pos _ _ _ Hty H) as (Hd & _) end.
    some_in He. match goal with H : acall _ _ _ _ _ |- _ => destruct (IH (OElem t) _ _ _ Hd Hok E _ _ H) as [-> ->] end. auto.
  - cbn [op_ok] in Hok. match goal with H : nth_error fs pos = _ |- _ => rewrite H in Hok; destruct (desc_field fs os pos _ _ _ Hty H) as (Hd & _) end.
    some_in He. match goal with H : acall _ _ _ _ _ |- _ => destruct (IH (OElem t) _ _ _ Hd Hok E _ _ H) as [-> ->] end. auto.
  - cbn [op_ok] in Hok. match goal with H : nth_error fs pos = _ |- _ => rewrite H in Hok; destruct (desc_field fs os pos _ _ _ Hty H) as (Hd & _ & Hcap) end.
    some_in He. match goal with H : acall _ _ _ _ _ |- _ => destruct (IH (ORep max t) _ _ _ (conj Hd Hcap) Hok E _ _ H) as [-> ->] end. auto.
  - (* OpOneof *) cbn [op_ok] in Hok.
    match goal with H : nth_error os pos = _, H1 : lookup ms id = _ |- _ => rewrite H, H1 in Hok; destruct (desc_member fs os pos _ _ _ Hty H H1) as (Hd & _); rewrite H1 in He end.
    rewrite Z.eqb_refl in He. some_in He.
    match goal with H : acall _ _ _ _ _ |- _ => destruct (fun H1 => IH (OElem t) _ _ _ Hd H1 E _ _ H) as [-> ->]; [|auto] end.
    destruct t; auto. destruct o; try contradiction. exact Hok.
  - cbn [op_ok] in Hok.
    match goal with H : nth_error os pos = _, H1 : lookup ms id = _ |- _ => rewrite H, H1 in Hok; destruct (desc_member fs os pos _ _ _ Hty H H1) as (Hd & _); rewrite H1 in He end.
    rewrite (proj2 (Z.eqb_neq which id)) in He by assumption. replace (match x0 with SvSome _ => sdefault t | _ => sdefault t end) with (sdefault t) in He by (destruct x0; reflexivity).
    some_in He.
    match goal with H : acall _ _ _ _ _ |- _ => destruct (fun H1 => IH (OElem t) _ _ _ Hd H1 E _ _ H) as [-> ->]; [|auto] end.
    destruct t; auto. destruct o; try contradiction. exact Hok.
  - rewrite Z.eqb_refl in He. injection He as <- <-. auto.
  - rewrite (proj2 (Z.eqb_neq which id)) in He by assumption. injection He as <- <-. auto.
Qed.

Lemma effect_no_decode : forall o ty x r, effect ty x o = Some r -> ~ decodes o.
Proof.
  induction o as [z| |src|src|src len|str|i b|i src|src|src len| |i o IH|pos o IH|pos|pos id o IH|pos id|bytes]; intros ty x r He; cbn [decodes]; auto; cbn [effect] in He.
  - destruct ty as [|max t]; [discriminate|]. destruct x; try discriminate. cbv zeta in He. destruct (nth_error _ (Z.to_nat _)) as [s|]; [|discriminate].
    destruct (effect (OElem t) s o) as [[? ?]|] eqn:E; [|discriminate]. eapply IH; eauto.
  - destruct ty as [[| |fs os]|]; try discriminate. destruct x; try discriminate. destruct (nth_error fs pos) as [[[? k] t]|]; [|discriminate].
    destruct (nth_error _ pos); [|discriminate]. destruct k; try discriminate;
      match type of He with match ?m with Some _ => _ | None => _ end = _ => destruct m as [[? ?]|] eqn:E; [|discriminate] end; eapply IH; eauto.
  - destruct ty as [[| |fs os]|]; try discriminate. destruct x; try discriminate. destruct (nth_error os pos) as [ms|]; [|discriminate].
    destruct (nth_error _ pos) as [[? ?]|]; [|discriminate]. destruct (lookup ms id); [|discriminate].
    match type of He with match ?m with Some _ => _ | None => _ end = _ => destruct m as [[? ?]|] eqn:E; [|discriminate] end; eapply IH; eauto.
  - destruct ty as [[| |fs os]|]; discriminate.
Qed.

(** One call, with its effect. *)
Lemma call_effect t v o x e y fuel e' v' : desc_ok t -> wt t v -> tidy t v -> op_ok (OElem t) o -> view t v = x -> effect (OElem t) x o = Some (e, y) ->
  run_op fuel o (OElem t) v = Done (e', v') -> e' = e /\ view t v' = y /\ wt t v' /\ tidy t v'.
Proof.
  intros Hd Hw Ht Ho <- He Hr. pose proof (op_safe fuel o (OElem t) v Hd Hw Ht Ho) as H. unfold op_post in H. rewrite Hr in H. destruct H as (H1 & H2 & H3).
  destruct (effect_calls o (OElem t) (view t v) e y Hd Ho He _ _ H3) as [-> E]. auto.
Qed.

Definition good_object (t : ety) (v : value) : Prop := wt t v /\ tidy t v /\ clean t v.

Lemma Forall_upd {A} (P : A -> Prop) i x l : Forall P l -> P x -> Forall P (upd i x l).
Proof. intros H Hx. revert i. induction H as [|a l Ha Hl IH]; intros [|i]; cbn [upd]; constructor; auto. Qed.

Lemma Forall2_upd {A B} (P : A -> B -> Prop) i x y l l' : Forall2 P l l' -> P x y -> Forall2 P (upd i x l) (upd i y l').
Proof. intros H Hx. revert i. induction H as [|a b l l' Ha Hl IH]; intros [|i]; cbn [upd]; constructor; auto. Qed.

Lemma Forall2_at {A B} (P : A -> B -> Prop) l l' i x : Forall2 P l l' -> nth_error l i = Some x -> exists y, nth_error l' i = Some y /\ P x y.
Proof. intros H. revert i. induction H as [|a b l l' Ha Hl IH]; intros [|i] Hi; cbn in *; try discriminate; [injection Hi as ->; eauto|auto]. Qed.

Lemma Forall_at {A} (P : A -> Prop) l i x : Forall P l -> nth_error l i = Some x -> P x.
Proof. intros H Hi. rewrite Forall_forall in H. apply H. eapply nth_error_In; eauto. Qed.

Lemma receives_good fs os v0 bytes e v' : let t := EMsg fs os in desc_ok t -> receives t v0 bytes e v' -> tidy t v0 -> clean t v0 -> tidy t v' /\ clean t v'.
Proof.
  intros t Hd (S & R & rel & s & fuel & s' & ok & Hs & Hfu & E) Ht Hc. split; [eapply deserialize_tidy; eauto|eapply deserialize_clean; eauto].
Qed.

Lemma talk_right fs os : let t := EMsg fs os in desc_ok t -> forall st steps known st', talk t st steps known st' ->
  forall vs answers vs', Forall (good_object t) vs -> right (view t) st vs -> does t vs steps answers vs' ->
  right (fun e => e) known answers /\ right (view t) st' vs' /\ Forall (good_object t) vs'.
Proof.
  intros t Hd st steps known st' Htalk. induction Htalk as [st|st i o x e y steps ans st' Hi Ho Hk He Ht IH|st i steps ans st' Hi Ht IH|st i bytes steps ans st' Hi Ho Ht IH
    |st i j x y steps ans st' Hij Hi Hj Hns Ht IH|st i j x y steps ans st' Hi Hj Hz Hf Ht IH|st i j x y steps ans st' Hi Hj Hz Hf Ht IH|st i j x steps ans st' Hi Hj Hz Ht IH];
    intros vs answers vs' Hg Hv Hdo; inversion Hdo; subst; clear Hdo.
  - repeat split; auto. constructor.
  - destruct (Forall2_at _ _ _ _ _ Hv Hi) as (v0 & E & Hx). replace v0 with v in * by congruence. specialize (Hx x eq_refl).
    destruct (Forall_at _ _ _ _ Hg E) as (Hw & Hti & Hc).
    match goal with H : run_op _ _ _ _ = _ |- _ => destruct (call_effect t v o x e y _ _ _ Hd Hw Hti Ho Hx He H) as (-> & Hy & Hw' & Hti');
      pose proof (op_clean _ o (OElem t) v _ _ Hd Hw Hti Ho Hc ltac:(cbn [oview]; rewrite Hx; exact Hk) H) as Hc' end.
    match goal with H : does _ (upd _ _ _) _ _ _ |- _ => destruct (IH _ _ _ (Forall_upd _ i _ _ Hg (conj Hw' (conj Hti' Hc'))) (Forall2_upd _ i (Some y) _ _ _ Hv ltac:(intros ? [= <-]; exact Hy)) H) as (A & B & C) end.
    split; [|auto]. constructor; [|exact A]. now intros ? [= <-].
  - destruct (nth_error st i) as [k|] eqn:Ek; [|apply nth_error_None in Ek; lia]. destruct (Forall2_at _ _ _ _ _ Hv Ek) as (v0 & E & Hx). replace v0 with v in * by congruence.
    destruct (Forall_at _ _ _ _ Hg E) as (Hw & Hti & Hc).
    match goal with H : run_op _ _ _ _ = _ |- _ => destruct (call_effect t v OpClear _ NoErrors (sdefault t) _ _ _ Hd Hw Hti I eq_refl eq_refl H) as (-> & Hy & Hw' & Hti');
      pose proof (op_clean _ OpClear (OElem t) v _ _ Hd Hw Hti I Hc I H) as Hc' end.
    match goal with H : does _ (upd _ _ _) _ _ _ |- _ => destruct (IH _ _ _ (Forall_upd _ i _ _ Hg (conj Hw' (conj Hti' Hc'))) (Forall2_upd _ i (Some (sdefault t)) _ _ _ Hv ltac:(intros ? [= <-]; exact Hy)) H) as (A & B & C) end.
    split; [|auto]. constructor; [|exact A]. now intros ? [= <-].
  - destruct (nth_error st i) as [k|] eqn:Ek; [|apply nth_error_None in Ek; lia]. destruct (Forall2_at _ _ _ _ _ Hv Ek) as (v0 & E & Hx). replace v0 with v in * by congruence.
    destruct (Forall_at _ _ _ _ Hg E) as (Hw & Hti & Hc).
    match goal with H : run_op ?fuel _ _ _ = _ |- _ => pose proof (op_safe fuel (OpDeserialize bytes) (OElem t) v Hd Hw Hti Ho) as Hp; unfold op_post in Hp; rewrite H in Hp; destruct Hp as (Hw' & Hti' & _);
      pose proof (op_clean _ (OpDeserialize bytes) (OElem t) v _ _ Hd Hw Hti Ho Hc I H) as Hc' end.
    match goal with H : does _ (upd _ _ _) _ _ _ |- _ => destruct (IH _ _ _ (Forall_upd _ i _ _ Hg (conj Hw' (conj Hti' Hc'))) (Forall2_upd _ i None _ _ _ Hv ltac:(discriminate)) H) as (A & B & C) end.
    split; [|auto]. constructor; [|exact A]. discriminate.
  - destruct (Forall2_at _ _ _ _ _ Hv Hi) as (v0 & E & Hx). replace v0 with v in * by congruence. specialize (Hx x eq_refl).
    destruct (Forall2_at _ _ _ _ _ Hv Hj) as (w0 & Ew & Hyy). replace w0 with w in * by congruence. specialize (Hyy y eq_refl).
    destruct (Forall_at _ _ _ _ Hg E) as (Hw & _ & _). destruct (Forall_at _ _ _ _ Hg Ew) as (Hww & Htw & Hcw).
    match goal with H : run_op _ _ _ _ = _ |- _ => destruct (call_effect t w (OpAssign v) y NoErrors (view t v) _ _ _ Hd Hww Htw Hw Hyy eq_refl H) as (-> & Hy & Hw' & Hti');
      pose proof (op_clean _ (OpAssign v) (OElem t) w _ _ Hd Hww Htw Hw Hcw ltac:(cbn [keeps_lists oview]; rewrite Hyy, Hx; exact Hns) H) as Hc' end.
    match goal with H : does _ (upd _ _ _) _ _ _ |- _ => destruct (IH _ _ _ (Forall_upd _ j _ _ Hg (conj Hw' (conj Hti' Hc'))) (Forall2_upd _ j (Some x) _ _ _ Hv ltac:(intros ? [= <-]; rewrite <- Hx; exact Hy)) H) as (A & B & C) end.
    split; [|auto]. constructor; [|exact A]. now intros ? [= <-].
  - destruct (Forall2_at _ _ _ _ _ Hv Hi) as (v0 & E & Hx). replace v0 with v in * by congruence. specialize (Hx x eq_refl).
    destruct (Forall2_at _ _ _ _ _ Hv Hj) as (w0 & Ew & Hyy). replace w0 with w in * by congruence. specialize (Hyy y eq_refl).
    destruct (Forall_at _ _ _ _ Hg E) as (Hw & _ & _). destruct (Forall_at _ _ _ _ Hg Ew) as (Hww & Htw & Hcw). subst x y. assert (Hz' : zlen (enc t (view t v)) < 2 ^ 32) by lia.
    match goal with H : sends _ _ _, H1 : receives _ _ _ _ _ |- _ => pose proof (sends_enc fs os v bytes Hd Hw Hz' H) as ->;
      destruct (receives_merge fs os w v e w' Hd Hw Hz' Hww Hcw H1) as (Hw' & Hc' & He & Hvw); destruct (receives_good fs os _ _ _ _ Hd H1 Htw Hcw) as (Hti' & _) end.
    fold t in He, Hvw, Hw', Hc', Hti'. rewrite Hf in He. specialize (Hvw Hf).
    match goal with H : does _ (upd _ _ _) _ _ _ |- _ => destruct (IH _ _ _ (Forall_upd _ j _ _ Hg (conj Hw' (conj Hti' Hc'))) (Forall2_upd _ j (Some _) _ _ _ Hv ltac:(intros ? [= <-]; exact Hvw)) H) as (A & B & C) end.
    split; [|auto]. constructor; [|exact A]. now intros ? [= <-].
  - destruct (Forall2_at _ _ _ _ _ Hv Hi) as (v0 & E & Hx). replace v0 with v in * by congruence. specialize (Hx x eq_refl).
    destruct (Forall2_at _ _ _ _ _ Hv Hj) as (w0 & Ew & Hyy). replace w0 with w in * by congruence. specialize (Hyy y eq_refl).
    destruct (Forall_at _ _ _ _ Hg E) as (Hw & _ & _). destruct (Forall_at _ _ _ _ Hg Ew) as (Hww & Htw & Hcw). subst x y. assert (Hz' : zlen (enc t (view t v)) < 2 ^ 32) by lia.
    match goal with H : sends _ _ _, H1 : receives _ _ _ _ _ |- _ => pose proof (sends_enc fs os v bytes Hd Hw Hz' H) as ->;
      destruct (receives_merge fs os w v e w' Hd Hw Hz' Hww Hcw H1) as (Hw' & Hc' & He & Hvw); destruct (receives_good fs os _ _ _ _ Hd H1 Htw Hcw) as (Hti' & _) end.
    fold t in He, Hvw, Hw', Hc', Hti'. rewrite Hf in He.
    match goal with H : does _ (upd _ _ _) _ _ _ |- _ => destruct (IH _ _ _ (Forall_upd _ j _ _ Hg (conj Hw' (conj Hti' Hc'))) (Forall2_upd _ j None _ _ _ Hv ltac:(discriminate)) H) as (A & B & C) end.
    split; [|auto]. constructor; [|exact A]. now intros ? [= <-].
  - destruct (Forall2_at _ _ _ _ _ Hv Hi) as (v0 & E & Hx). replace v0 with v in * by congruence. specialize (Hx x eq_refl).
    destruct (Forall2_at _ _ _ _ _ Hv Hj) as (w0 & Ew & _). replace w0 with w in * by congruence.
    destruct (Forall_at _ _ _ _ Hg E) as (Hw & _ & _). destruct (Forall_at _ _ _ _ Hg Ew) as (Hww & Htw & Hcw). subst x. assert (Hz' : zlen (enc t (view t v)) < 2 ^ 32) by lia.
    match goal with H : sends _ _ _, H1 : receives _ _ _ _ _ |- _ => pose proof (sends_enc fs os v bytes Hd Hw Hz' H) as ->;
      destruct (receives_merge fs os w v e w' Hd Hw Hz' Hww Hcw H1) as (Hw' & Hc' & He & Hvw); destruct (receives_good fs os _ _ _ _ Hd H1 Htw Hcw) as (Hti' & _) end.
    assert (Hu : upd j None st = st).
    { clear - Hj. revert st Hj. induction j as [|j IHj]; intros [|a st] Hj; cbn in *; try discriminate; [congruence|]. f_equal. auto. }
    match goal with H : does _ (upd _ _ _) _ _ _ |- _ => destruct (IH _ _ _ (Forall_upd _ j _ _ Hg (conj Hw' (conj Hti' Hc'))) ltac:(rewrite <- Hu; exact (Forall2_upd _ j None _ _ _ Hv ltac:(discriminate))) H) as (A & B & C) end.
    split; [|auto]. constructor; [|exact A]. discriminate.
Qed.

Lemma sends_exists fs os v : let t := EMsg fs os in desc_ok t -> wt t v -> zlen (enc t (view t v)) < 2 ^ 31 -> exists bytes, sends t v bytes.
Proof.
  intros t Hd Hw Hz. pose proof (zlen_nonneg (enc t (view t v))) as Hn. set (cap := zlen (enc t (view t v)) + 1).
  assert (Hz' : zlen (enc t (view t v)) < 2 ^ 32) by lia.
  destruct (exact_space_partial fs os v cap (wfix_init cap) [] cap Hw Hd (wfix_init_rel cap ltac:(subst cap; lia)) _ (serialized_size_enc t v Hw Hd Hz') Hz') as (e & b & E & H & _).
  rewrite (H ltac:(subst cap; lia)) in E. exists (wfix_content b), cap, b. repeat split; auto; subst cap; lia.
Qed.

Lemma receives_exists fs os v v0 : let t := EMsg fs os in desc_ok t -> wt t v -> zlen (enc t (view t v)) < 2 ^ 32 -> wt t v0 -> clean t v0 -> exists e v', receives t v0 (enc t (view t v)) e v'.
Proof.
  intros t Hd Hw Hz Hw0 Hc. pose proof (enc_bytes t v Hw Hd Hz) as Hb.
  destruct (decode_any_bounded fs os v0 _ Hd Hw0 Hc Hb _ lops lrel lops_ok lops_bounded (enc t (view t v)) (conj eq_refl Hb) (S (length (enc t (view t v)))) ltac:(lia)) as (e & v' & s' & rest & E & _).
  exists e, v', (list Z), lops, lrel, (enc t (view t v)), (S (length (enc t (view t v)))), s'. repeat split; auto; try apply lops_ok.
Qed.

Lemma talk_happens fs os : let t := EMsg fs os in desc_ok t -> forall st steps known st', talk t st steps known st' -> Forall no_noise steps ->
  forall vs, Forall (good_object t) vs -> right (view t) st vs -> exists answers vs', does t vs steps answers vs'.
Proof.
  intros t Hd st steps known st' Htalk. induction Htalk as [st|st i o x e y steps ans st' Hi Ho Hk He Ht IH|st i steps ans st' Hi Ht IH|st i bytes steps ans st' Hi Ho Ht IH
    |st i j x y steps ans st' Hij Hi Hj Hns Ht IH|st i j x y steps ans st' Hi Hj Hz Hf Ht IH|st i j x y steps ans st' Hi Hj Hz Hf Ht IH|st i j x steps ans st' Hi Hj Hz Ht IH];
    intros Hno vs Hg Hv; [exists [], vs; constructor|..]; inversion Hno as [|? ? Hno1 Hno2]; subst.
  all: assert (Hstep : forall s1 k1 e st1 vs1, talk t st [s1] [k1] st1 -> does t vs [s1] [e] vs1 -> Forall (good_object t) vs1 /\ right (view t) st1 vs1)
    by (intros s1 k1 e1 st1 vs1 H1 H2; destruct (talk_right fs os Hd _ _ _ _ H1 _ _ _ Hg Hv H2) as (_ & A & B); auto).
  - destruct (Forall2_at _ _ _ _ _ Hv Hi) as (v & E & Hx). destruct (Forall_at _ _ _ _ Hg E) as (Hw & Hti & Hc).
    pose proof (op_safe 0 o (OElem t) v Hd Hw Hti Ho) as Hp. unfold op_post in Hp. destruct (run_op 0 o (OElem t) v) as [[e' v']| |] eqn:Er; [|contradiction|exfalso; exact (effect_no_decode _ _ _ _ He Hp)].
    destruct (Hstep (Call i o) (Some e) e' (upd i (Some y) st) (upd i v' vs)) as [A B]; [econstructor; eauto; constructor|econstructor; eauto; constructor|].
    destruct (IH Hno2 _ A B) as (answers & vs' & H). exists (e' :: answers), vs'. econstructor; eauto.
  - destruct (nth_error st i) as [k|] eqn:Ek; [|apply nth_error_None in Ek; lia]. destruct (Forall2_at _ _ _ _ _ Hv Ek) as (v & E & Hx).
    destruct (Forall_at _ _ _ _ Hg E) as (Hw & Hti & Hc).
    pose proof (op_safe 0 OpClear (OElem t) v Hd Hw Hti I) as Hp. unfold op_post in Hp. destruct (run_op 0 OpClear (OElem t) v) as [[e' v']| |] eqn:Er; [|contradiction|contradiction].
    destruct (Hstep (Call i OpClear) (Some NoErrors) e' (upd i (Some (sdefault t)) st) (upd i v' vs)) as [A B]; [constructor; auto; constructor|econstructor; eauto; constructor|].
    destruct (IH Hno2 _ A B) as (answers & vs' & H). exists (e' :: answers), vs'. econstructor; eauto.
  - exfalso. apply Hno1. exact I.
  - destruct (Forall2_at _ _ _ _ _ Hv Hi) as (v & E & Hx). destruct (Forall2_at _ _ _ _ _ Hv Hj) as (w & Ew & Hyy).
    destruct (Forall_at _ _ _ _ Hg E) as (Hw & _ & _). destruct (Forall_at _ _ _ _ Hg Ew) as (Hww & Htw & Hcw).
    pose proof (op_safe 0 (OpAssign v) (OElem t) w Hd Hww Htw Hw) as Hp. unfold op_post in Hp. destruct (run_op 0 (OpAssign v) (OElem t) w) as [[e' v']| |] eqn:Er; [|contradiction|contradiction].
    destruct (Hstep (Copy i j) (Some NoErrors) e' (upd j (Some x) st) (upd j v' vs)) as [A B]; [econstructor; eauto; constructor|econstructor; eauto; constructor|].
    destruct (IH Hno2 _ A B) as (answers & vs' & H). exists (e' :: answers), vs'. econstructor; eauto.
  - destruct (Forall2_at _ _ _ _ _ Hv Hi) as (v & E & Hx). destruct (Forall2_at _ _ _ _ _ Hv Hj) as (w & Ew & Hyy). specialize (Hx _ eq_refl). specialize (Hyy _ eq_refl).
    destruct (Forall_at _ _ _ _ Hg E) as (Hw & _ & _). destruct (Forall_at _ _ _ _ Hg Ew) as (Hww & Htw & Hcw). subst x y. assert (Hz' : zlen (enc t (view t v)) < 2 ^ 32) by lia.
    destruct (sends_exists fs os v Hd Hw Hz) as (bytes & Hs). pose proof (sends_enc fs os v bytes Hd Hw Hz' Hs) as ->. fold t in Hs.
    destruct (receives_exists fs os v w Hd Hw Hz' Hww Hcw) as (e' & w' & Hr). fold t in Hr.
    destruct (Hstep (Send i j) (Some NoErrors) e' (upd j (Some (merge t (view t w) (view t v))) st) (upd j w' vs)) as [A B]; [econstructor; eauto; constructor|econstructor; eauto; constructor|].
    destruct (IH Hno2 _ A B) as (answers & vs' & H). exists (e' :: answers), vs'. econstructor; eauto.
  - destruct (Forall2_at _ _ _ _ _ Hv Hi) as (v & E & Hx). destruct (Forall2_at _ _ _ _ _ Hv Hj) as (w & Ew & Hyy). specialize (Hx _ eq_refl). specialize (Hyy _ eq_refl).
    destruct (Forall_at _ _ _ _ Hg E) as (Hw & _ & _). destruct (Forall_at _ _ _ _ Hg Ew) as (Hww & Htw & Hcw). subst x y. assert (Hz' : zlen (enc t (view t v)) < 2 ^ 32) by lia.
    destruct (sends_exists fs os v Hd Hw Hz) as (bytes & Hs). pose proof (sends_enc fs os v bytes Hd Hw Hz' Hs) as ->. fold t in Hs.
    destruct (receives_exists fs os v w Hd Hw Hz' Hww Hcw) as (e' & w' & Hr). fold t in Hr.
    destruct (Hstep (Send i j) (Some ArrayFull) e' (upd j None st) (upd j w' vs)) as [A B]; [eapply talk_send_full; eauto; constructor|econstructor; eauto; constructor|].
    destruct (IH Hno2 _ A B) as (answers & vs' & H). exists (e' :: answers), vs'. econstructor; eauto.
  - destruct (Forall2_at _ _ _ _ _ Hv Hi) as (v & E & Hx). destruct (Forall2_at _ _ _ _ _ Hv Hj) as (w & Ew & _). specialize (Hx _ eq_refl).
    destruct (Forall_at _ _ _ _ Hg E) as (Hw & _ & _). destruct (Forall_at _ _ _ _ Hg Ew) as (Hww & Htw & Hcw). subst x. assert (Hz' : zlen (enc t (view t v)) < 2 ^ 32) by lia.
    destruct (sends_exists fs os v Hd Hw Hz) as (bytes & Hs). pose proof (sends_enc fs os v bytes Hd Hw Hz' Hs) as ->. fold t in Hs.
    destruct (receives_exists fs os v w Hd Hw Hz' Hww Hcw) as (e' & w' & Hr). fold t in Hr.
    destruct (Hstep (Send i j) None e' st (upd j w' vs)) as [A B]; [eapply talk_send_unknown; eauto; constructor|econstructor; eauto; constructor|].
    destruct (IH Hno2 _ A B) as (answers & vs' & H). exists (e' :: answers), vs'. econstructor; eauto.
Qed.

Lemma new_objects fs os n : let t := EMsg fs os in desc_ok t ->
  Forall (good_object t) (repeat (default_value t) n) /\ right (view t) (repeat (Some (sdefault t)) n) (repeat (default_value t) n).
Proof.
  intros t Hd. split.
  - apply Forall_forall. intros v Hv. apply repeat_spec in Hv. subst v. split; [now apply default_ok|split]; [now apply default_tidy|now apply default_clean].
  - induction n; cbn [repeat]; constructor; auto. intros x [= <-]. now apply default_ok.
Qed.

Lemma conversation : forall fs os n steps known st, let t := EMsg fs os in desc_ok t -> talk t (repeat (Some (sdefault t)) n) steps known st ->
  forall answers vs, does t (repeat (default_value t) n) steps answers vs -> right (fun e => e) known answers /\ right (view t) st vs.
Proof.
  intros fs os n steps known st t Hd Ht answers vs Hdo. destruct (new_objects fs os n Hd) as [A B].
  destruct (talk_right fs os Hd _ _ _ _ Ht _ _ _ A B Hdo) as (H1 & H2 & _). auto.
Qed.

Lemma conversation_goes_on : forall fs os n steps known st, let t := EMsg fs os in desc_ok t -> talk t (repeat (Some (sdefault t)) n) steps known st -> Forall no_noise steps ->
  exists answers vs, does t (repeat (default_value t) n) steps answers vs.
Proof. intros fs os n steps known st t Hd Ht Hno. destruct (new_objects fs os n Hd) as [A B]. exact (talk_happens fs os Hd _ _ _ _ Ht Hno _ A B). Qed.
