(** References that are kept. *)
From Verif Require Import Base Buffers Wire Schema Fields Message Api Spec SpecApi Contracts BitLemmas
  ScalarProofs BufferProofs Struct SerProofs Tables DecodeProofs ClearProofs TidyProofs AssignProofs
  SafetyProofs SafetyMsg SafetyProps ApiProofs ApiProps Alias SpecAlias AliasProofs Kept SpecKept.
From Coq Require Import ZifyBool ZifyNat ZifyN.
Ltac Zify.zify_post_hook ::= Z.div_mod_to_equations.

(** *** One step *)
Definition visible (fs : list (Z * fkind * ety)) (pos : nat) (pres : list Z) (k : fkind) : bool :=
  match k with KOpt => present pres (optix fs pos) | _ => true end.

Lemma field_at fs os pres vs ovs pos num k t : oty_ok (OElem (EMsg fs os)) -> owt (OElem (EMsg fs os)) (VM pres vs ovs) ->
  nth_error fs pos = Some (num, k, t) -> k <> KRecursive ->
  exists x, nth_error vs pos = Some x /\ aget vs (Z.of_nat pos) = Done x /\ oty_ok (oty_of k t) /\ owt (oty_of k t) x
  /\ nth_error (view_fields (vtab fs) 0 pres vs) pos = Some (view_field k (view t) (optix fs pos) pres x).
Proof.
  intros Hok Hw En Hk. pose proof Hw as Hw0. cbn [owt wt] in Hw. destruct Hw as (_ & _ & Hw & _). destruct (all2_nth _ _ _ _ _ Hw En) as (x & Ex & Hx).
  destruct (owt_sub fs os pres vs ovs pos num k t Hok Hw0 En Hk) as (x' & Ex' & Hok' & Hw'). pose proof (aget_nat _ _ _ Ex) as Ea. assert (x' = x) by congruence. subst x'.
  exists x. do 4 (split; [assumption|]). exact (view_fields_nth_fwd fs pos 0 pres vs num k t x En Ex).
Qed.

Lemma shown_field fs os pres vs ovs pos num k t x p : nth_error fs pos = Some (num, k, t) -> k <> KRecursive ->
  nth_error (view_fields (vtab fs) 0 pres vs) pos = Some (view_field k (view t) (optix fs pos) pres x) ->
  shown (OElem (EMsg fs os)) (oview (OElem (EMsg fs os)) (VM pres vs ovs)) (SField pos :: p)
  = if visible fs pos pres k then shown (oty_of k t) (oview (oty_of k t) x) p else None.
Proof.
  intros En Hk Hv. unfold oview at 1. rewrite view_tab. cbn [shown]. rewrite En, Hv.
  destruct k; cbn [visible view_field oty_of oview]; try congruence; auto. destruct (present pres (optix fs pos)); reflexivity.
Qed.

Lemma field_put fs os pres vs ovs pres' pos num k t x x' :
  owt (OElem (EMsg fs os)) (VM pres vs ovs) ->
  nth_error fs pos = Some (num, k, t) -> k <> KRecursive -> nth_error vs pos = Some x ->
  zlen pres' = presence_size (n_optional fs) -> Forall is_u32 pres' ->
  (forall q num' t', nth_error fs q = Some (num', KOpt, t') -> q <> pos -> present pres' (optix fs q) = present pres (optix fs q)) ->
  owt (oty_of k t) x' ->
  aset vs (Z.of_nat pos) x' = Done (upd pos x' vs)
  /\ owt (OElem (EMsg fs os)) (VM pres' (upd pos x' vs) ovs)
  /\ oview (OElem (EMsg fs os)) (VM pres' (upd pos x' vs) ovs)
     = SvM (upd pos (view_field k (view t) (optix fs pos) pres' x') (view_fields (vtab fs) 0 pres vs)) (view_oneofs (votab os) ovs).
Proof.
  intros Hw Hf Hk Hx Hz Hu Hp Hwx. split; [apply aset_nat; eapply nth_error_lt; exact Hx|]. split.
  - cbn [owt wt] in *. destruct Hw as (_ & _ & Hw1 & Hw2). split; [exact Hz|]. split; [now apply all_Forall|]. split; [|exact Hw2].
    eapply all2_upd; eauto. now apply owt_field_inv.
  - cbn [oview]. rewrite view_tab. f_equal. rewrite (view_fields_upd fs pos 0 pres pres' vs num k t x' Hf); [reflexivity|]. now apply agree_but_0.
Qed.

Lemma flag_set fs os pres vs ovs pos num k t : owt (OElem (EMsg fs os)) (VM pres vs ovs) -> nth_error fs pos = Some (num, k, t) ->
  exists pres', (match k with KOpt => presence_set pres (opt_index fs pos) | _ => Done pres end) = Done pres'
  /\ zlen pres' = presence_size (n_optional fs) /\ Forall is_u32 pres'
  /\ (forall q num' t', nth_error fs q = Some (num', KOpt, t') -> q <> pos -> present pres' (optix fs q) = present pres (optix fs q))
  /\ visible fs pos pres' k = true /\ (visible fs pos pres k = true -> pres' = pres).
Proof.
  intros Hw En. cbn [owt wt] in Hw. destruct Hw as (Hz & Hu & _). apply all_Forall in Hu.
  destruct k as [| |max|]; try (exists pres; do 4 (split; [solve [auto]|]); split; auto; fail).
  rewrite opt_index_optix. destruct (presence_set_ok pres (optix fs pos) (n_optional fs)) as (p' & E & Hz' & Hu' & Hp'); auto; [eapply optix_bound; exact En|].
  exists p'. split; [exact E|]. split; [exact Hz'|]. split; [exact Hu'|]. split; [|split].
  - intros q num' t' Hq Hne. rewrite Hp' by apply optix_nonneg. destruct (Z.eqb_spec (optix fs q) (optix fs pos)); [|reflexivity].
    exfalso. apply Hne. eapply optix_inj; eauto.
  - cbn [visible]. rewrite Hp' by apply optix_nonneg. now rewrite Z.eqb_refl.
  - cbn [visible]. intros Hv. rewrite presence_set_noop in E; [congruence|]. rewrite (presence_has_ok pres _ (n_optional fs)); [now rewrite Hv| |exact Hz].
    eapply optix_bound; exact En.
Qed.

Lemma list_at max t len data i : oty_ok (ORep max t) -> owt (ORep max t) (VR len data) -> legal_index i ->
  let k := Z.min i (max - 1) in
  0 <= k < max /\ 0 <= len <= max /\ zlen data = max /\ u32 (zlen data - 1) = max - 1
  /\ (exists x, nth_error data (Z.to_nat k) = Some x /\ aget data k = Done x /\ wt t x
      /\ (forall p, shown (ORep max t) (oview (ORep max t) (VR len data)) (SAt i :: p)
          = if k <? len then shown (OElem t) (view t x) p else None)).
Proof.
  intros [Hd Hc] Hw Hi k. unfold legal_index in Hi. unfold capacity_ok in Hc. pose proof Hw as (Hl & Hz & Hall). assert (Hk : 0 <= k < max) by lia.
  split; [exact Hk|]. split; [exact Hl|]. split; [exact Hz|]. split; [rewrite Hz, u32_small; lia|].
  destruct (aget_ok data k) as (x & Ex & En); [lia|]. exists x. split; [exact En|]. split; [exact Ex|].
  split. { apply all_Forall in Hall. eapply Forall_forall in Hall; [exact Hall|]. eapply nth_error_In; exact En. }
  intros p. cbn [oview view_field shown]. fold k. destruct (Z.ltb_spec k len) as [Hlt|Hge].
  - rewrite <- firstn_map. rewrite nth_error_firstn_lt by lia. rewrite (map_nth_error _ _ _ En). reflexivity.
  - rewrite (proj2 (nth_error_None _ _)); [reflexivity|]. rewrite map_length, firstn_length. lia.
Qed.

Lemma list_put max t len data k x' len' : owt (ORep max t) (VR len data) -> 0 <= k < max -> 0 <= len' <= max -> wt t x' ->
  aset data k x' = Done (upd (Z.to_nat k) x' data) /\ owt (ORep max t) (VR len' (upd (Z.to_nat k) x' data)).
Proof.
  intros (Hl & Hz & Hall) Hk Hl' Hx. split; [apply aset_ok; lia|]. cbn [owt wt_field]. rewrite zlen_upd. split; [exact Hl'|]. split; [exact Hz|].
  apply all_Forall. apply Forall_upd; [now apply all_Forall|exact Hx].
Qed.

Lemma member_at fs os pres vs ovs pos ms id t : oty_ok (OElem (EMsg fs os)) -> owt (OElem (EMsg fs os)) (VM pres vs ovs) ->
  nth_error os pos = Some ms -> lookup ms id = Some t ->
  desc_ok t /\ exists d, nth_error ovs pos = Some d /\ aget ovs (Z.of_nat pos) = Done d /\ (id = fst d -> wt t (snd d))
  /\ nth_error (view_oneofs (votab os) ovs) pos = Some (view_oneof (map (fun '(num, t) => (num, view t)) ms) d)
  /\ (forall p, shown (OElem (EMsg fs os)) (oview (OElem (EMsg fs os)) (VM pres vs ovs)) (SMember pos id :: p)
        = if id =? fst d then shown (OElem t) (view t (snd d)) p else None).
Proof.
  intros Hok Hw En El. destruct (owt_member fs os pres vs ovs pos ms id t Hok Hw En El) as (Hd & d & Ed & Hx). split; [exact Hd|].
  pose proof (aget_Done _ _ _ Ed) as [E' _]. rewrite Nat2Z.id in E'. exists d. split; [exact E'|]. split; [exact Ed|]. split; [exact Hx|].
  pose proof (view_oneofs_nth_fwd os ovs pos ms d En E') as Hn. split; [exact Hn|].
  intros p. cbn [oview]. rewrite view_tab. cbn [shown]. rewrite En, Hn. unfold view_oneof. rewrite (lookup_map view).
  destruct (Z.eqb_spec id (fst d)) as [->|Hne].
  - rewrite El, Z.eqb_refl. reflexivity.
  - destruct (lookup ms (fst d)); [|reflexivity]. rewrite El. destruct (Z.eqb_spec (fst d) id); [congruence|reflexivity].
Qed.

Lemma member_put fs os pres vs ovs pos ms id t d x' : owt (OElem (EMsg fs os)) (VM pres vs ovs) ->
  nth_error os pos = Some ms -> lookup ms id = Some t -> nth_error ovs pos = Some d -> wt t x' ->
  aset ovs (Z.of_nat pos) (id, x') = Done (upd pos (id, x') ovs)
  /\ owt (OElem (EMsg fs os)) (VM pres vs (upd pos (id, x') ovs))
  /\ oview (OElem (EMsg fs os)) (VM pres vs (upd pos (id, x') ovs))
     = SvM (view_fields (vtab fs) 0 pres vs) (upd pos (id, SvSome (view t x')) (view_oneofs (votab os) ovs)).
Proof.
  intros Hw Hf El Hx Hwx. split; [apply aset_nat; eapply nth_error_lt; exact Hx|]. split.
  - cbn [owt wt] in *. destruct Hw as (Hz & Hu & Hw1 & Hw2). split; [exact Hz|]. split; [exact Hu|]. split; [exact Hw1|].
    eapply all2_upd; eauto. unfold wt_oneof. cbn [fst snd]. rewrite (lookup_map wt), El. exact Hwx.
  - cbn [oview]. rewrite view_tab. f_equal. rewrite (view_oneofs_upd os ovs pos ms _ Hf). unfold view_oneof. cbn [fst snd]. now rewrite (lookup_map view), El.
Qed.

Lemma type_field fs os pos p tty num k t : type_at (OElem (EMsg fs os)) (SField pos :: p) = Some tty -> nth_error fs pos = Some (num, k, t) ->
  k <> KRecursive /\ type_at (oty_of k t) p = Some tty.
Proof. cbn [type_at]. intros H E. rewrite E in H. destruct k; try discriminate; split; auto; congruence. Qed.

(** *** Reading *)
Lemma shown_read : forall p ty v tty x, oty_ok ty -> owt ty v -> type_at ty p = Some tty -> shown ty (oview ty v) p = Some x ->
  exists y, read_at ty p v = Done y /\ x = oview tty y.
Proof.
  induction p as [|[pos|i|pos id] p IH]; intros ty v tty x Hok Hw Ht Hs.
  - cbn in *. injection Ht as <-. injection Hs as <-. eauto.
  - destruct ty as [[| |fs os]|]; try discriminate. destruct (nth_error fs pos) as [[[num k] t]|] eqn:En; [|cbn in Ht; rewrite En in Ht; discriminate].
    destruct (type_field _ _ _ _ _ _ _ _ Ht En) as [Hk Ht']. destruct v as [| | | |pres vs ovs]; try contradiction.
    destruct (field_at fs os pres vs ovs pos num k t Hok Hw En Hk) as (y & Ey & Ea & Hok' & Hw' & Hv).
    rewrite (shown_field fs os pres vs ovs pos num k t y p En Hk Hv) in Hs. destruct (visible fs pos pres k); [|discriminate].
    cbn [read_at]. rewrite En, Ea. cbn [bind]. eauto.
  - destruct ty as [|max t]; try discriminate. destruct v as [| | |len data|]; try contradiction. cbn [type_at] in Ht. destruct ((0 <=? i) && (i <? 2 ^ 32)) eqn:Ei; [|discriminate].
    destruct (list_at max t len data i Hok Hw) as (Hk & Hl & Hz & Hu & y & En & Ea & Hy & Hsh); [unfold legal_index; lia|]. rewrite Hsh in Hs.
    destruct (Z.min i (max - 1) <? len); [|discriminate]. cbn [read_at]. unfold rep_get_const. rewrite Hu, Ea. cbn [bind]. eapply IH; [| |exact Ht|exact Hs]; [apply Hok|exact Hy].
  - destruct ty as [[| |fs os]|]; try discriminate. cbn [type_at] in Ht. destruct (nth_error os pos) as [ms|] eqn:En; [|discriminate]. destruct (lookup ms id) as [t|] eqn:El; [|discriminate].
    destruct v as [| | | |pres vs ovs]; try contradiction. destruct (member_at fs os pres vs ovs pos ms id t Hok Hw En El) as (Hd & d & Ed & Ea & Hx & Hn & Hsh). rewrite Hsh in Hs.
    cbn [read_at]. rewrite En, Ea. cbn [bind]. rewrite members_find, El. destruct (Z.eqb_spec id (fst d)); [|discriminate]. eapply IH; [| |exact Ht|exact Hs]; cbn; auto.
Qed.

Lemma read_otidy : forall p ty v tty x, oty_ok ty -> owt ty v -> otidy ty v -> type_at ty p = Some tty -> read_at ty p v = Done x -> otidy tty x.
Proof.
  induction p as [|[pos|i|pos id] p IH]; intros ty v tty x Hok Hw Htd Ht H.
  - cbn in *. congruence.
  - destruct ty as [[| |fs os]|]; try discriminate. destruct (nth_error fs pos) as [[[num k] t]|] eqn:En; [|cbn in Ht; rewrite En in Ht; discriminate].
    destruct (type_field _ _ _ _ _ _ _ _ Ht En) as [Hk Ht']. destruct v as [| | | |pres vs ovs]; try contradiction.
    destruct (field_at fs os pres vs ovs pos num k t Hok Hw En Hk) as (y & Ey & Ea & Hok' & Hw' & Hv). cbn [read_at] in H. rewrite En, Ea in H. cbn [bind] in H.
    eapply IH; [exact Hok'|exact Hw'| |exact Ht'|exact H]. pose proof (tidy_elem _ _ _ _ _ _ _ _ _ _ Htd En Ey) as Htx.
    destruct k; cbn [oty_of otidy tidy_field] in *; auto; try apply Htx. congruence.
  - destruct ty as [|max t]; try discriminate. destruct v as [| | |len data|]; try contradiction. cbn [type_at] in Ht. destruct ((0 <=? i) && (i <? 2 ^ 32)) eqn:Ei; [|discriminate].
    destruct (list_at max t len data i Hok Hw) as (Hk & Hl & Hz & Hu & y & En & Ea & Hy & Hsh); [unfold legal_index; lia|].
    cbn [read_at] in H. unfold rep_get_const in H. rewrite Hu, Ea in H. cbn [bind] in H. apply (IH (OElem t) y tty x (proj1 Hok) Hy); [|exact Ht|exact H].
    cbn [otidy tidy_field] in Htd |- *. eapply Forall_forall in Htd; [exact Htd|]. eapply nth_error_In; exact En.
  - destruct ty as [[| |fs os]|]; try discriminate. cbn [type_at] in Ht. destruct (nth_error os pos) as [ms|] eqn:En; [|discriminate]. destruct (lookup ms id) as [t|] eqn:El; [|discriminate].
    destruct v as [| | | |pres vs ovs]; try contradiction. destruct (member_at fs os pres vs ovs pos ms id t Hok Hw En El) as (Hd & d & Ed & Ea & Hx & Hn & Hsh).
    cbn [read_at] in H. rewrite En, Ea in H. cbn [bind] in H. rewrite members_find, El in H. destruct (Z.eqb_spec id (fst d)) as [E|]; [|discriminate].
    eapply IH; [| | |exact Ht|exact H]; [cbn; auto|cbn; auto|]. cbn [otidy] in Htd |- *. apply tidy_msg_iff in Htd. destruct Htd as [_ Htd]. specialize (Htd _ _ _ En Ed t). rewrite <- E in Htd. auto.
Qed.

Lemma read_or_switched : forall p ty v tty, oty_ok ty -> owt ty v -> type_at ty p = Some tty ->
  (exists y, read_at ty p v = Done y /\ ~ switched ty p v) \/ (switched ty p v /\ forall g, through ty p g v = UB).
Proof.
  induction p as [|[pos|i|pos id] p IH]; intros ty v tty Hok Hw Ht.
  - left. exists v. split; [reflexivity|]. intros (p1 & pos & id & p2 & m & w & H & _). destruct p1; discriminate.
  - destruct ty as [[| |fs os]|]; try discriminate. destruct (nth_error fs pos) as [[[num k] t]|] eqn:En; [|cbn in Ht; rewrite En in Ht; discriminate].
    destruct (type_field _ _ _ _ _ _ _ _ Ht En) as [Hk Ht']. destruct v as [| | | |pres vs ovs]; try contradiction.
    destruct (field_at fs os pres vs ovs pos num k t Hok Hw En Hk) as (y & Ey & Ea & Hok' & Hw' & Hv). cbn [read_at through]. rewrite En, Ea. cbn [bind].
    destruct (IH _ _ _ Hok' Hw' Ht') as [(z & Hz & Hns)|[Hs Hg]].
    + left. exists z. split; [exact Hz|]. intros (p1 & pos' & id & p2 & m & w & H & Hr & Hw1). destruct p1 as [|s p1]; [discriminate|]. injection H as <- ->.
      cbn [read_at] in Hr. rewrite En, Ea in Hr. cbn [bind] in Hr. apply Hns. exists p1, pos', id, p2, m, w. auto.
    + right. split.
      * destruct Hs as (p1 & pos' & id & p2 & m & w & -> & Hr & Hw1). exists (SField pos :: p1), pos', id, p2, m, w. cbn [app read_at]. rewrite En, Ea. auto.
      * intros g. now rewrite Hg.
  - destruct ty as [|max t]; try discriminate. destruct v as [| | |len data|]; try contradiction. cbn [type_at] in Ht. destruct ((0 <=? i) && (i <? 2 ^ 32)) eqn:Ei; [|discriminate].
    destruct (list_at max t len data i Hok Hw) as (Hk & Hl & Hz & Hu & y & En & Ea & Hy & Hsh); [unfold legal_index; lia|].
    cbn [read_at through]. unfold rep_get_const. cbv zeta. rewrite Hu, Ea. cbn [bind].
    destruct (IH (OElem t) y tty (proj1 Hok) Hy Ht) as [(z & Hz' & Hns)|[Hs Hg]].
    + left. exists z. split; [exact Hz'|]. intros (p1 & pos' & id & p2 & m & w & H & Hr & Hw1). destruct p1 as [|s p1]; [discriminate|]. injection H as <- ->.
      cbn [read_at] in Hr. unfold rep_get_const in Hr. rewrite Hu, Ea in Hr. cbn [bind] in Hr. apply Hns. exists p1, pos', id, p2, m, w. auto.
    + right. split.
      * destruct Hs as (p1 & pos' & id & p2 & m & w & -> & Hr & Hw1). exists (SAt i :: p1), pos', id, p2, m, w. cbn [app read_at]. unfold rep_get_const. rewrite Hu, Ea. auto.
      * intros g. now rewrite Hg.
  - destruct ty as [[| |fs os]|]; try discriminate. cbn [type_at] in Ht. destruct (nth_error os pos) as [ms|] eqn:En; [|discriminate]. destruct (lookup ms id) as [t|] eqn:El; [|discriminate].
    destruct v as [| | | |pres vs ovs]; try contradiction. destruct (member_at fs os pres vs ovs pos ms id t Hok Hw En El) as (Hd & d & Ed & Ea & Hx & Hn & Hsh).
    cbn [read_at through]. rewrite En, Ea. cbn [bind]. rewrite members_find, El. destruct (Z.eqb_spec id (fst d)) as [E|Hne].
    + destruct (IH (OElem t) (snd d) tty Hd (Hx E) Ht) as [(z & Hz' & Hns)|[Hs Hg]].
      * left. exists z. split; [exact Hz'|]. intros (p1 & pos' & id' & p2 & m & w & H & Hr & Hw1). destruct p1 as [|s p1].
        -- injection H as <- <- <-. injection Hr as <-. cbn [which_oneof] in Hw1. rewrite Ea in Hw1. cbn [bind] in Hw1. destruct d as [w' x']; cbn [fst] in *. destruct Hw1; congruence.
        -- injection H as <- ->. cbn [read_at] in Hr. rewrite En, Ea in Hr. cbn [bind] in Hr. rewrite members_find, El in Hr. rewrite E, Z.eqb_refl in Hr. apply Hns. exists p1, pos', id', p2, m, w. auto.
      * right. split.
        -- destruct Hs as (p1 & pos' & id' & p2 & m & w & -> & Hr & Hw1). exists (SMember pos id :: p1), pos', id', p2, m, w. cbn [app read_at]. rewrite En, Ea. cbn [bind]. rewrite members_find, El, E, Z.eqb_refl. auto.
        -- intros g. now rewrite Hg.
    + right. split; [|reflexivity]. exists [], pos, id, p, (VM pres vs ovs), (fst d). cbn [app read_at which_oneof]. rewrite Ea. cbn [bind]. destruct d; cbn [fst] in *. auto.
Qed.

(** *** Writing *)
Lemma visible_put fs pos pres k : visible fs pos pres k = true -> forall t x x', oview (oty_of k t) x' = oview (oty_of k t) x -> k <> KRecursive ->
  view_field k (view t) (optix fs pos) pres x' = view_field k (view t) (optix fs pos) pres x.
Proof. destruct k; cbn [visible view_field oty_of oview]; intros Hv t x x' E Hk; try congruence. now rewrite Hv, E. Qed.
Lemma invisible_put fs pos pres k : visible fs pos pres k = false -> forall t x x',
  view_field k (view t) (optix fs pos) pres x' = view_field k (view t) (optix fs pos) pres x.
Proof. destruct k; cbn [visible view_field]; intros Hv t x x'; try discriminate. now rewrite Hv. Qed.

Lemma upd_firstn_ge {A} : forall n m (x : A) l, (n <= m)%nat -> firstn n (upd m x l) = firstn n l.
Proof. induction n as [|n IH]; intros [|m] x [|y l] H; try lia; cbn [firstn upd]; auto. f_equal. apply IH. lia. Qed.

Lemma through_done : forall p ty v tty y g, oty_ok ty -> owt ty v -> type_at ty p = Some tty -> read_at ty p v = Done y ->
  match g tty y with
  | Done (e, y') => owt tty y' -> exists v', through ty p g v = Done (e, v') /\ owt ty v' /\ read_at ty p v' = Done y'
      /\ (shown ty (oview ty v) p = None -> oview ty v' = oview ty v)
  | UB => through ty p g v = UB
  | Fuel => through ty p g v = Fuel
  end.
Proof.
  induction p as [|[pos|i|pos id] p IH]; intros ty v tty y g Hok Hw Ht Hr.
  - cbn in *. injection Ht as <-. injection Hr as <-. destruct (g ty v) as [[e y']| |]; auto. intros Hy. exists y'. do 3 (split; auto). discriminate.
  - destruct ty as [[| |fs os]|]; try discriminate. destruct (nth_error fs pos) as [[[num k] t]|] eqn:En; [|cbn in Ht; rewrite En in Ht; discriminate].
    destruct (type_field _ _ _ _ _ _ _ _ Ht En) as [Hk Ht']. destruct v as [| | | |pres vs ovs]; try contradiction.
    destruct (field_at fs os pres vs ovs pos num k t Hok Hw En Hk) as (x & Ex & Ea & Hok' & Hw' & Hv). cbn [read_at through] in *. rewrite En, Ea in *. cbn [bind] in *.
    specialize (IH _ _ _ _ g Hok' Hw' Ht' Hr). destruct (g tty y) as [[e y']| |]; [|now rewrite IH|now rewrite IH]. intros Hy.
    destruct (IH Hy) as (x' & -> & Hx' & Hr' & Hsame). cbn [bind]. pose proof Hw as Hw0. cbn [owt wt] in Hw0. destruct Hw0 as (Hz & Hu & _). apply all_Forall in Hu.
    destruct (field_put fs os pres vs ovs pres pos num k t x x' Hw En Hk Ex Hz Hu ltac:(auto) Hx') as (-> & Hw2 & Hv2). cbn [bind].
    exists (VM pres (upd pos x' vs) ovs). split; [reflexivity|]. split; [exact Hw2|]. split.
    { cbn [read_at]. rewrite (aget_nat _ pos x') by (apply nth_error_upd_same; eapply nth_error_lt; exact Ex). exact Hr'. }
    rewrite (shown_field fs os pres vs ovs pos num k t x p En Hk Hv), Hv2. intros Hs. cbn [oview]. rewrite view_tab. f_equal. apply upd_same. rewrite Hv. f_equal.
    destruct (visible fs pos pres k) eqn:Evis; [apply visible_put; auto; symmetry; auto|now apply invisible_put].
  - destruct ty as [|max t]; try discriminate. destruct v as [| | |len data|]; try contradiction. cbn [type_at] in Ht. destruct ((0 <=? i) && (i <? 2 ^ 32)) eqn:Ei; [|discriminate].
    assert (Hi : legal_index i) by (unfold legal_index; lia).
    destruct (list_at max t len data i Hok Hw Hi) as (Hk & Hl & Hz & Hu & x & En & Ea & Hx & Hsh). cbn [read_at through] in *. unfold rep_get_const in *. cbv zeta. rewrite Hu, Ea in *. cbn [bind] in *.
    specialize (IH (OElem t) x tty y g (proj1 Hok) Hx Ht Hr). destruct (g tty y) as [[e y']| |]; [|now rewrite IH|now rewrite IH]. intros Hy.
    destruct (IH Hy) as (x' & -> & Hx' & Hr' & Hsame). cbn [bind].
    destruct (list_put max t len data (Z.min i (max - 1)) x' len Hw Hk Hl Hx') as [-> Hw2]. cbn [bind].
    eexists. split; [reflexivity|]. split; [exact Hw2|]. split.
    { cbn [read_at]. unfold rep_get_const. rewrite zlen_upd, Hu. rewrite (aget_nth _ _ x') by (try lia; apply nth_error_upd_same; eapply nth_error_lt; exact En). exact Hr'. }
    rewrite Hsh. intros Hs. cbn [oview view_field]. f_equal. destruct (Z.ltb_spec (Z.min i (max - 1)) len).
    + rewrite firstn_upd_lt, map_upd by lia. apply upd_same. rewrite <- firstn_map, nth_error_firstn_lt by lia. rewrite (map_nth_error _ _ _ En). f_equal. symmetry. now apply Hsame.
    + rewrite upd_firstn_ge by lia. reflexivity.
  - destruct ty as [[| |fs os]|]; try discriminate. cbn [type_at] in Ht. destruct (nth_error os pos) as [ms|] eqn:En; [|discriminate]. destruct (lookup ms id) as [t|] eqn:El; [|discriminate].
    destruct v as [| | | |pres vs ovs]; try contradiction. destruct (member_at fs os pres vs ovs pos ms id t Hok Hw En El) as (Hd & d & Ed & Ea & Hx & Hn & Hsh).
    cbn [read_at through] in *. rewrite En, Ea in *. cbn [bind] in *. rewrite members_find, El in *. destruct (Z.eqb_spec id (fst d)) as [E|]; [|discriminate].
    specialize (IH (OElem t) (snd d) tty y g Hd (Hx E) Ht Hr). destruct (g tty y) as [[e y']| |]; [|now rewrite IH|now rewrite IH]. intros Hy.
    destruct (IH Hy) as (x' & -> & Hx' & Hr' & Hsame). cbn [bind]. rewrite <- E.
    destruct (member_put fs os pres vs ovs pos ms id t d x' Hw En El Ed Hx') as (-> & Hw2 & Hv2). cbn [bind].
    eexists. split; [reflexivity|]. split; [exact Hw2|]. split.
    { cbn [read_at]. rewrite (aget_nat _ pos (id, x')) by (apply nth_error_upd_same; eapply nth_error_lt; exact Ed). cbn [bind fst snd]. rewrite Z.eqb_refl. exact Hr'. }
    rewrite Hsh, Hv2. intros Hs. cbn [oview]. rewrite view_tab. f_equal. apply upd_same. rewrite Hn. unfold view_oneof. rewrite (lookup_map view), <- E, El. do 2 f_equal. f_equal. symmetry. now apply Hsame.
Qed.

Lemma through_shown : forall p ty v tty g, oty_ok ty -> owt ty v -> type_at ty p = Some tty -> shown ty (oview ty v) p <> None ->
  through ty p g v = update_at ty p g v.
Proof.
  induction p as [|[pos|i|pos id] p IH]; intros ty v tty g Hok Hw Ht Hs.
  - reflexivity.
  - destruct ty as [[| |fs os]|]; try discriminate. destruct (nth_error fs pos) as [[[num k] t]|] eqn:En; [|cbn in Ht; rewrite En in Ht; discriminate].
    destruct (type_field _ _ _ _ _ _ _ _ Ht En) as [Hk Ht']. destruct v as [| | | |pres vs ovs]; try contradiction.
    destruct (field_at fs os pres vs ovs pos num k t Hok Hw En Hk) as (x & Ex & Ea & Hok' & Hw' & Hv).
    rewrite (shown_field fs os pres vs ovs pos num k t x p En Hk Hv) in Hs. destruct (visible fs pos pres k) eqn:Evis; [|congruence].
    destruct (flag_set fs os pres vs ovs pos num k t Hw En) as (pres' & Ep & _ & _ & _ & _ & Hsame).
    cbn [through update_at]. rewrite En, Ea. cbn [bind]. rewrite Ep. cbn [bind]. rewrite (Hsame Evis). rewrite (IH _ _ _ g Hok' Hw' Ht' Hs). reflexivity.
  - destruct ty as [|max t]; try discriminate. destruct v as [| | |len data|]; try contradiction. cbn [type_at] in Ht. destruct ((0 <=? i) && (i <? 2 ^ 32)) eqn:Ei; [|discriminate].
    assert (Hi : legal_index i) by (unfold legal_index; lia). pose proof Hok as [Hd Hc].
    destruct (list_at max t len data i Hok Hw Hi) as (Hk & Hl & Hz & Hu & x & En & Ea & Hx & Hsh). rewrite Hsh in Hs. cbn [through update_at]. cbv zeta.
    rewrite (rep_get_ok len data i max Hz Hc), Hu. destruct (Z.ltb_spec (Z.min i (max - 1)) len); [|congruence]. destruct (Z.leb_spec len (Z.min i (max - 1))); [lia|].
    rewrite Ea. cbn [bind]. rewrite (IH (OElem t) x tty g Hd Hx Ht Hs). reflexivity.
  - destruct ty as [[| |fs os]|]; try discriminate. cbn [type_at] in Ht. destruct (nth_error os pos) as [ms|] eqn:En; [|discriminate]. destruct (lookup ms id) as [t|] eqn:El; [|discriminate].
    destruct v as [| | | |pres vs ovs]; try contradiction. destruct (member_at fs os pres vs ovs pos ms id t Hok Hw En El) as (Hd & d & Ed & Ea & Hx & Hn & Hsh). rewrite Hsh in Hs.
    cbn [through update_at]. rewrite En, members_find, El, Ea. cbn [bind]. destruct (Z.eqb_spec id (fst d)) as [E|]; [|congruence]. rewrite (IH (OElem t) (snd d) tty g Hd (Hx E) Ht Hs). reflexivity.
Qed.

Lemma touch_shows : forall p ty v tty y, oty_ok ty -> owt ty v -> type_at ty p = Some tty -> read_at ty p v = Done y ->
  exists v', update_at ty p touch v = Done (NoErrors, v') /\ owt ty v' /\ shown ty (oview ty v') p = Some (oview tty y).
Proof.
  induction p as [|[pos|i|pos id] p IH]; intros ty v tty y Hok Hw Ht Hr.
  - cbn in *. injection Ht as <-. injection Hr as <-. exists v. auto.
  - destruct ty as [[| |fs os]|]; try discriminate. destruct (nth_error fs pos) as [[[num k] t]|] eqn:En; [|cbn in Ht; rewrite En in Ht; discriminate].
    destruct (type_field _ _ _ _ _ _ _ _ Ht En) as [Hk Ht']. destruct v as [| | | |pres vs ovs]; try contradiction.
    destruct (field_at fs os pres vs ovs pos num k t Hok Hw En Hk) as (x & Ex & Ea & Hok' & Hw' & Hv).
    destruct (flag_set fs os pres vs ovs pos num k t Hw En) as (pres' & Ep & Hz & Hu & Hp & Hvis & _).
    cbn [read_at update_at] in *. rewrite En, Ea in *. cbn [bind] in *. rewrite Ep. cbn [bind].
    destruct (IH _ _ _ _ Hok' Hw' Ht' Hr) as (x' & -> & Hx' & Hs'). cbn [bind].
    destruct (field_put fs os pres vs ovs pres' pos num k t x x' Hw En Hk Ex Hz Hu Hp Hx') as (-> & Hw2 & Hv2). cbn [bind].
    eexists. split; [reflexivity|]. split; [exact Hw2|].
    rewrite (shown_field fs os pres' _ ovs pos num k t x' p En Hk); [now rewrite Hvis|].
    apply (view_fields_nth_fwd fs pos 0 pres' _ num k t x' En). apply nth_error_upd_same. eapply nth_error_lt; exact Ex.
  - destruct ty as [|max t]; try discriminate. destruct v as [| | |len data|]; try contradiction. cbn [type_at] in Ht. destruct ((0 <=? i) && (i <? 2 ^ 32)) eqn:Ei; [|discriminate].
    assert (Hi : legal_index i) by (unfold legal_index; lia). pose proof Hok as [Hd Hc].
    destruct (list_at max t len data i Hok Hw Hi) as (Hk & Hl & Hz & Hu & x & En & Ea & Hx & Hsh). cbn [read_at update_at] in *. unfold rep_get_const in *.
    rewrite (rep_get_ok len data i max Hz Hc). rewrite Hu, Ea in *. cbn [bind] in *.
    destruct (IH (OElem t) x tty y Hd Hx Ht Hr) as (x' & -> & Hx' & Hs'). cbn [bind].
    set (k := Z.min i (max - 1)) in *. set (len' := if len <=? k then k + 1 else len) in *. assert (Hl' : k < len' <= max) by (unfold len'; destruct (Z.leb_spec len k); lia).
    destruct (list_put max t len data k x' len' Hw Hk ltac:(lia) Hx') as [-> Hw2]. cbn [bind].
    eexists. split; [reflexivity|]. split; [exact Hw2|].
    destruct (list_at max t len' _ i Hok Hw2 Hi) as (_ & _ & _ & _ & x2 & En2 & _ & _ & Hsh2). fold k in En2, Hsh2.
    rewrite nth_error_upd_same in En2 by (eapply nth_error_lt; exact En). injection En2 as <-. rewrite Hsh2. destruct (Z.ltb_spec k len'); [exact Hs'|lia].
  - destruct ty as [[| |fs os]|]; try discriminate. cbn [type_at] in Ht. destruct (nth_error os pos) as [ms|] eqn:En; [|discriminate]. destruct (lookup ms id) as [t|] eqn:El; [|discriminate].
    destruct v as [| | | |pres vs ovs]; try contradiction. destruct (member_at fs os pres vs ovs pos ms id t Hok Hw En El) as (Hd & d & Ed & Ea & Hx & Hn & Hsh).
    cbn [read_at update_at] in *. rewrite En, Ea in *. cbn [bind] in *. rewrite members_find, El in *. destruct (Z.eqb_spec id (fst d)) as [E|]; [|discriminate].
    destruct (IH (OElem t) (snd d) tty y Hd (Hx E) Ht Hr) as (x' & -> & Hx' & Hs'). cbn [bind]. rewrite <- E.
    destruct (member_put fs os pres vs ovs pos ms id t d x' Hw En El Ed Hx') as (-> & Hw2 & Hv2). cbn [bind].
    eexists. split; [reflexivity|]. split; [exact Hw2|].
    destruct (member_at fs os pres vs _ pos ms id t Hok Hw2 En El) as (_ & d2 & Ed2 & _ & _ & _ & Hsh2).
    rewrite nth_error_upd_same in Ed2 by (eapply nth_error_lt; exact Ed). injection Ed2 as <-. rewrite Hsh2. cbn [fst snd]. rewrite Z.eqb_refl. exact Hs'.
Qed.

(** *** What calls do to the parts of an object *)
Lemma sub_ok fs os pos num k t : oty_ok (OElem (EMsg fs os)) -> nth_error fs pos = Some (num, k, t) -> oty_ok (oty_of k t).
Proof. intros Hok En. destruct (desc_field fs os pos num k t Hok En) as (Hd & _ & Hc). destruct k; cbn; auto. Qed.

Definition shown_in (k : fkind) (t : ety) (y : sval) (p : list step) : option sval :=
  match k, y with KPlain, _ => shown (OElem t) y p | KOpt, SvSome z => shown (OElem t) z p | KRep max, _ => shown (ORep max t) y p | _, _ => None end.
Lemma shown_in_field fs os vs ovs pos p num k t y : nth_error fs pos = Some (num, k, t) -> nth_error vs pos = Some y ->
  shown (OElem (EMsg fs os)) (SvM vs ovs) (SField pos :: p) = shown_in k t y p.
Proof. intros En Ey. cbn [shown]. rewrite En, Ey. destruct k; try reflexivity; destruct y; reflexivity. Qed.
Lemma shown_field_other fs os vs vs' ovs ovs' pos p : nth_error vs' pos = nth_error vs pos ->
  shown (OElem (EMsg fs os)) (SvM vs' ovs') (SField pos :: p) = shown (OElem (EMsg fs os)) (SvM vs ovs) (SField pos :: p).
Proof. intros E. cbn [shown]. now rewrite E. Qed.
Lemma shown_member_other fs os vs vs' ovs ovs' pos id p : nth_error ovs' pos = nth_error ovs pos ->
  shown (OElem (EMsg fs os)) (SvM vs' ovs') (SMember pos id :: p) = shown (OElem (EMsg fs os)) (SvM vs ovs) (SMember pos id :: p).
Proof. intros E. cbn [shown]. now rewrite E. Qed.
Lemma shown_member fs os vs ovs pos id p ms t x : nth_error os pos = Some ms -> lookup ms id = Some t -> nth_error ovs pos = Some (id, SvSome x) ->
  shown (OElem (EMsg fs os)) (SvM vs ovs) (SMember pos id :: p) = shown (OElem t) x p.
Proof. intros En El Ex. cbn [shown]. now rewrite En, Ex, El, Z.eqb_refl. Qed.
Lemma shown_list max t l i p y : nth_error l (Z.to_nat (Z.min i (max - 1))) = Some y -> shown (ORep max t) (SvR l) (SAt i :: p) = shown (OElem t) y p.
Proof. intros E. cbn [shown]. now rewrite E. Qed.
Lemma shown_list_other max t l l' i p : nth_error l (Z.to_nat (Z.min i (max - 1))) <> None -> nth_error l' (Z.to_nat (Z.min i (max - 1))) = nth_error l (Z.to_nat (Z.min i (max - 1))) ->
  shown (ORep max t) (SvR l') (SAt i :: p) = shown (ORep max t) (SvR l) (SAt i :: p).
Proof. intros _ E. cbn [shown]. now rewrite E. Qed.

Lemma shown_list_in max t l i p : shown (ORep max t) (SvR l) (SAt i :: p) <> None -> nth_error l (Z.to_nat (Z.min i (max - 1))) <> None.
Proof. cbn [shown]. destruct (nth_error l _); congruence. Qed.

Lemma nth_behind {A} (l gap : list A) k x : zlen l <= k -> zlen gap = k - zlen l -> nth_error (l ++ gap ++ [x]) (Z.to_nat k) = Some x.
Proof.
  intros H1 H2. pose proof (zlen_nonneg l). unfold zlen in *. rewrite nth_error_app2 by lia. rewrite nth_error_app2 by lia. replace (Z.to_nat k - length l - length gap)%nat with 0%nat by lia. reflexivity.
Qed.

Lemma nest_shown : forall p ty x o e y tty, oty_ok ty -> type_at ty p = Some tty -> acall ty x (nest p o) e y -> shown ty y p <> None.
Proof.
  induction p as [|[pos|i|pos id] p IH]; intros ty x o e y tty Hok Ht Ha.
  - cbn. discriminate.
  - cbn [nest] in Ha. destruct ty as [[| |fs os]|]; try discriminate.
    destruct (nth_error fs pos) as [[[num k] t]|] eqn:En; [|cbn in Ht; rewrite En in Ht; discriminate]. destruct (type_field _ _ _ _ _ _ _ _ Ht En) as [Hk Ht']. pose proof (sub_ok fs os pos num k t Hok En) as Hok'.
    inversion Ha as [| | | | | | | | | | | | | | | | | |? ? vs ovs ? num' t' ? ? z z' E Ez Hc|? ? vs ovs ? num' t' ? ? z z' E Ez Hc|? ? vs ovs ? num' t' ? ? z' E Ez Hc|? ? vs ovs ? num' max t' ? ? z z' E Ez Hc| | | | | |]; subst;
      rewrite E in En; injection En as -> <- ->;
      (erewrite shown_in_field; [|exact E|apply nth_error_upd_same; eapply nth_error_lt; exact Ez]); cbn [shown_in oty_of] in *; eapply IH; eauto.
  - cbn [nest] in Ha. destruct ty as [|max t]; try discriminate. cbn [type_at] in Ht. destruct ((0 <=? i) && (i <? 2 ^ 32)) eqn:Ei; [|discriminate]. destruct Hok as [Hd Hc0].
    inversion Ha as [| | | | | | | | | | | | | | | |? ? l ? ? ? z z' k Ek Ez Hc|? ? l ? ? ? z z' k gap Ek El Eg Hc| | | | | | | | | |]; subst.
    + erewrite shown_list; [eapply IH; eauto; exact Hd|]. apply nth_error_upd_same. eapply nth_error_lt; exact Ez.
    + erewrite shown_list; [eapply IH; eauto; exact Hd|]. now apply nth_behind.
  - cbn [nest] in Ha. destruct ty as [[| |fs os]|]; try discriminate. cbn [type_at] in Ht. destruct (nth_error os pos) as [ms|] eqn:En; [|discriminate]. destruct (lookup ms id) as [t|] eqn:El; [|discriminate].
    destruct (desc_member fs os pos ms id t Hok En El) as [Hd _].
    inversion Ha as [| | | | | | | | | | | | | | | | | | | | | | |? ? vs ovs ? ms' ? t' ? ? z z' E1 E2 Ez Hc|? ? vs ovs ? ms' ? t' ? ? w z z' E1 E2 Ez Hne Hc| | |]; subst;
      rewrite En in E1; injection E1 as <-; rewrite El in E2; injection E2 as <-;
      (erewrite shown_member; [|exact En|exact El|apply nth_error_upd_same; eapply nth_error_lt; exact Ez]); eapply IH; eauto; exact Hd.
Qed.

Lemma spares_shown : forall p ty x o e y tty, oty_ok ty -> type_at ty p = Some tty -> op_ok ty o -> acall ty x o e y -> spares ty p o ->
  shown ty x p <> None -> shown ty y p <> None.
Proof.
  induction p as [|s p IH]; intros ty x o e y tty Hok Ht Ho Ha Hs Hx; [cbn; discriminate|].
  destruct Ha as [sc x z|ty x|ty x|ty x src|st max x src bs Hb Hm|st max x src bs Hb Hm|st max x src len Hm|st max x src len Hm|max x|max x str|st max bs i b bs' Hp
    |max t l i src l' Hp|max t l src Hm|max t l src Hm|max t l src len Hm|max t l src len Hm|max t l i o e z z' k Ek Ez Ha|max t l i o e z z' k gap Ek El Eg Ha
    |fs os vs ovs pos num t o e z z' En Ez Ha|fs os vs ovs pos num t o e z z' En Ez Ha|fs os vs ovs pos num t o e z' En Ez Ha|fs os vs ovs pos num max t o e z z' En Ez Ha
    |fs os vs ovs pos num k t En|fs os vs ovs pos ms id t o e z z' En El Ez Ha|fs os vs ovs pos ms id t o e w z z' En El Ez Hne Ha|fs os vs ovs pos id z Ez|fs os vs ovs pos id w z Ez Hne|fs os x bytes e y]; cbn [spares] in Hs; try contradiction; try assumption.
  - (* OpRepSet *) destruct s as [| i'|]; try discriminate. cbn [type_at] in Ht. destruct ((0 <=? i') && (i' <? 2 ^ 32)) eqn:Ei; [|discriminate]. destruct Hok as [Hd Hc]. unfold capacity_ok in Hc.
    cbn [op_ok] in Ho. destruct Ho as [Hi _]. unfold legal_index in Hi. pose proof (shown_list_in _ _ _ _ _ Hx) as Hin.
    assert (Hlt : (Z.to_nat (Z.min i' (max - 1)) < length l)%nat) by now apply nth_error_Some.
    destruct (Z.eq_dec (Z.min i (max - 1)) (Z.min i' (max - 1))) as [E|E].
    + destruct Hs as [->|Hs]; [|congruence]. inversion Hp as [k Ek Hk Heq|k gap Ek Hk Hg Heq]; subst.
      * rewrite E. erewrite shown_list; [|apply nth_error_upd_same; exact Hlt]. cbn. discriminate.
      * exfalso. unfold zlen in *. lia.
    + inversion Hp as [k Ek Hk Heq|k gap Ek Hk Hg Heq]; subst.
      * rewrite (shown_list_other max t l); auto. apply nth_error_upd_other. lia.
      * rewrite (shown_list_other max t l); auto. now apply nth_error_app1.
  - (* OpRepAdd *) destruct s as [| i'|]; try discriminate. pose proof (shown_list_in _ _ _ _ _ Hx) as Hin.
    rewrite (shown_list_other max t l); auto. apply nth_error_app1. now apply nth_error_Some.
  - (* OpRepAt *) destruct s as [| i'|]; try discriminate. cbn [type_at] in Ht. destruct ((0 <=? i') && (i' <? 2 ^ 32)) eqn:Ei; [|discriminate]. destruct Hok as [Hd Hc]. unfold capacity_ok in Hc.
    cbn [op_ok] in Ho. destruct Ho as [Hi Ho]. unfold legal_index in Hi. pose proof (shown_list_in _ _ _ _ _ Hx) as Hin.
    destruct (Z.eq_dec (Z.min i (max - 1)) (Z.min i' (max - 1))) as [E|E]; subst k.
    + rewrite E in *. rewrite (shown_list max t l i' p z Ez) in Hx. erewrite shown_list; [|apply nth_error_upd_same; eapply nth_error_lt; exact Ez].
      apply (IH (OElem t) z o e z' tty); auto.
    + rewrite (shown_list_other max t l); auto. apply nth_error_upd_other. lia.
  - destruct s as [| i'|]; try discriminate. pose proof (shown_list_in _ _ _ _ _ Hx) as Hin.
    rewrite (shown_list_other max t l); auto. apply nth_error_app1. now apply nth_error_Some.
  - (* OpField *) cbn [op_ok] in Ho. rewrite En in Ho, Hs. pose proof (sub_ok fs os pos num _ t Hok En) as Hok'. destruct s as [pos'|i'|pos' id']; try discriminate.
    + destruct (Nat.eq_dec pos pos') as [<-|Hne]; [|rewrite (shown_field_other fs os vs _ ovs); auto; apply nth_error_upd_other; auto].
      destruct (type_field _ _ _ _ _ _ _ _ Ht En) as [Hk Ht']. rewrite (shown_in_field fs os vs ovs pos p num _ t _ En Ez) in Hx.
      erewrite shown_in_field; [|exact En|apply nth_error_upd_same; eapply nth_error_lt; exact Ez]. cbn [shown_in oty_of] in *. eapply IH; eauto.
    + rewrite (shown_member_other fs os vs _ ovs); auto.
  - cbn [op_ok] in Ho. rewrite En in Ho, Hs. pose proof (sub_ok fs os pos num _ t Hok En) as Hok'. destruct s as [pos'|i'|pos' id']; try discriminate.
    + destruct (Nat.eq_dec pos pos') as [<-|Hne]; [|rewrite (shown_field_other fs os vs _ ovs); auto; apply nth_error_upd_other; auto].
      destruct (type_field _ _ _ _ _ _ _ _ Ht En) as [Hk Ht']. rewrite (shown_in_field fs os vs ovs pos p num _ t _ En Ez) in Hx.
      erewrite shown_in_field; [|exact En|apply nth_error_upd_same; eapply nth_error_lt; exact Ez]. cbn [shown_in oty_of] in *. eapply IH; eauto.
    + rewrite (shown_member_other fs os vs _ ovs); auto.
  - cbn [op_ok] in Ho. rewrite En in Ho, Hs. destruct s as [pos'|i'|pos' id']; try discriminate.
    + destruct (Nat.eq_dec pos pos') as [<-|Hne]; [|rewrite (shown_field_other fs os vs _ ovs); auto; apply nth_error_upd_other; auto].
      rewrite (shown_in_field fs os vs ovs pos p num _ t _ En Ez) in Hx. cbn [shown_in] in Hx. congruence.
    + rewrite (shown_member_other fs os vs _ ovs); auto.
  - cbn [op_ok] in Ho. rewrite En in Ho, Hs. pose proof (sub_ok fs os pos num _ t Hok En) as Hok'. destruct s as [pos'|i'|pos' id']; try discriminate.
    + destruct (Nat.eq_dec pos pos') as [<-|Hne]; [|rewrite (shown_field_other fs os vs _ ovs); auto; apply nth_error_upd_other; auto].
      destruct (type_field _ _ _ _ _ _ _ _ Ht En) as [Hk Ht']. rewrite (shown_in_field fs os vs ovs pos p num _ t _ En Ez) in Hx.
      erewrite shown_in_field; [|exact En|apply nth_error_upd_same; eapply nth_error_lt; exact Ez]. cbn [shown_in oty_of] in *. eapply IH; eauto.
    + rewrite (shown_member_other fs os vs _ ovs); auto.
  - (* OpClearField *) destruct s as [pos'|i'|pos' id']; try discriminate.
    + rewrite (shown_field_other fs os vs _ ovs); auto. apply nth_error_upd_other. congruence.
    + rewrite (shown_member_other fs os vs _ ovs); auto.
  - (* OpOneof *) cbn [op_ok] in Ho. rewrite En in Ho, Hs. destruct (desc_member fs os pos ms id t Hok En El) as [Hd _]. destruct s as [pos'|i'|pos' id']; try discriminate.
    + rewrite (shown_field_other fs os vs _ ovs); auto.
    + rewrite El in Hs. destruct (Nat.eq_dec pos pos') as [<-|Hne]; [|rewrite (shown_member_other fs os vs _ ovs); auto; apply nth_error_upd_other; auto].
      destruct (Hs eq_refl) as [<- Hs']. rewrite (shown_member fs os vs ovs pos id p ms t z En El Ez) in Hx.
      erewrite shown_member; [|exact En|exact El|apply nth_error_upd_same; eapply nth_error_lt; exact Ez].
      cbn [type_at] in Ht. rewrite En, El in Ht. rewrite El in Ho. assert (Ho' : op_ok (OElem t) o) by (destruct t; auto; destruct o; try contradiction; exact Ho).
      apply (IH (OElem t) z o e z' tty); auto.
  - cbn [op_ok] in Ho. rewrite En in Ho, Hs. destruct s as [pos'|i'|pos' id']; try discriminate.
    + rewrite (shown_field_other fs os vs _ ovs); auto.
    + rewrite El in Hs. destruct (Nat.eq_dec pos pos') as [<-|Hnp]; [|rewrite (shown_member_other fs os vs _ ovs); auto; apply nth_error_upd_other; auto].
      destruct (Hs eq_refl) as [<- _]. exfalso. apply Hx. cbn [shown]. rewrite En, Ez, El. destruct (Z.eqb_spec w id); [congruence|]. destruct z; reflexivity.
  - (* OpOneofClear *) destruct s as [pos'|i'|pos' id']; try discriminate.
    + rewrite (shown_field_other fs os vs _ ovs); auto.
    + destruct (Nat.eq_dec pos pos') as [<-|Hnp]; [|rewrite (shown_member_other fs os vs _ ovs); auto; apply nth_error_upd_other; auto].
      exfalso. apply Hx. cbn [shown]. rewrite Ez. destruct (nth_error os pos) as [ms|]; [|reflexivity]. destruct z; try reflexivity. destruct (lookup ms id'); [|reflexivity].
      destruct (Z.eqb_spec id id'); [congruence|reflexivity].
Qed.

(** *** Histories *)
Lemma op_at o : forall p ty tty, type_at ty p = Some tty -> op_ok ty (nest p OpTouch) -> op_ok tty o -> op_ok ty (nest p o).
Proof.
  induction p as [|[pos|i|pos id] p IH]; intros ty tty Ht H0 Ho; cbn [nest type_at op_ok] in *.
  - injection Ht as ->. exact Ho.
  - destruct ty as [[| |fs os]|]; try discriminate. destruct (nth_error fs pos) as [[[num k] t]|]; [|discriminate]. destruct k; try discriminate; eapply IH; eauto.
  - destruct ty as [|max t]; try discriminate. destruct ((0 <=? i) && (i <? 2 ^ 32)); [|discriminate]. destruct H0 as [H1 H0]. split; [exact H1|]. eapply IH; eauto.
  - destruct ty as [[| |fs os]|]; try discriminate. destruct (nth_error os pos) as [ms|]; [|discriminate]. destruct (lookup ms id) as [t|]; [|discriminate].
    destruct t as [sc|st max|fs' os']; [|eapply IH; eauto|eapply IH; eauto]. destruct p as [|[]]; try discriminate. contradiction.
Qed.

Lemma decodes_nest o : forall p, decodes (nest p o) -> decodes o.
Proof. induction p as [|[pos|i|pos id] p IH]; cbn; auto. Qed.

Lemma acalls_app ty : forall ops1 x ops2 z, acalls ty x (ops1 ++ ops2) z -> exists y, acalls ty x ops1 y /\ acalls ty y ops2 z.
Proof.
  induction ops1 as [|o ops1 IH]; intros x ops2 z H; cbn [app] in H.
  - exists x. split; [constructor|exact H].
  - inversion H as [|? ? e y ? ? Ha Hb]; subst. destruct (IH _ _ _ Hb) as (w & H1 & H2). exists w. split; [econstructor; eauto|exact H2].
Qed.

Lemma spares_all ty p tty : oty_ok ty -> type_at ty p = Some tty -> forall ops x y, acalls ty x ops y -> Forall (op_ok ty) ops -> Forall (spares ty p) ops ->
  shown ty x p <> None -> shown ty y p <> None.
Proof.
  intros Hok Ht. induction 1 as [x|x o e y os z Ha Hb IH]; intros Ho Hs Hx; [exact Hx|].
  inversion Ho as [|? ? Ho1 Ho2]; subst. inversion Hs as [|? ? Hs1 Hs2]; subst. apply IH; auto. eapply spares_shown; eauto.
Qed.

Lemma shown_reach : forall ty ops fuel v p tty o,
  oty_ok ty -> Forall (op_ok ty) ops -> run_ops fuel ops ty (construct ty) = Done v ->
  type_at ty p = Some tty -> op_ok ty (nest p OpTouch) -> op_ok tty o -> shown ty (oview ty v) p <> None ->
  (exists y, read_at ty p v = Done y /\ shown ty (oview ty v) p = Some (oview tty y))
  /\ through ty p (run_op fuel o) v = run_op fuel (nest p o) ty v
  /\ match through ty p (run_op fuel o) v with
     | Done (e, v') => owt ty v' /\ acall ty (oview ty v) (nest p o) e (oview ty v')
     | UB => False
     | Fuel => decodes o
     end.
Proof.
  intros ty ops fuel v p tty o Hok Hl Hr Ht Hp Ho Hs. destruct (reached_ok fuel ty ops v Hok Hl Hr) as (Hw & Htd & _).
  split; [|assert (E : through ty p (run_op fuel o) v = run_op fuel (nest p o) ty v); [|split; [exact E|]]].
  - destruct (shown ty (oview ty v) p) as [x|] eqn:E; [|congruence]. destruct (shown_read p ty v tty x Hok Hw Ht E) as (y & Hy & ->). eauto.
  - rewrite (run_nest fuel o p ty v tty Ht). eapply through_shown; eauto.
  - rewrite E. pose proof (op_safe fuel (nest p o) ty v Hok Hw Htd (op_at o p ty tty Ht Hp Ho)) as H. unfold op_post in H.
    destruct (run_op fuel (nest p o) ty v) as [[e v']| |]; [split; apply H|contradiction|]. eapply decodes_nest; exact H.
Qed.

Lemma kept_reach : forall ty ops0 ops fuel v p tty o,
  oty_ok ty -> type_at ty p = Some tty -> op_ok ty (nest p OpTouch) ->
  Forall (op_ok ty) ops0 -> Forall (op_ok ty) ops -> Forall (spares ty p) ops ->
  run_ops fuel (ops0 ++ nest p OpTouch :: ops) ty (construct ty) = Done v -> op_ok tty o ->
  (exists y, read_at ty p v = Done y /\ shown ty (oview ty v) p = Some (oview tty y))
  /\ through ty p (run_op fuel o) v = run_op fuel (nest p o) ty v
  /\ match through ty p (run_op fuel o) v with
     | Done (e, v') => owt ty v' /\ acall ty (oview ty v) (nest p o) e (oview ty v')
     | UB => False
     | Fuel => decodes o
     end.
Proof.
  intros ty ops0 ops fuel v p tty o Hok Ht Hp H0 H1 Hs Hr Ho.
  assert (Hl : Forall (op_ok ty) (ops0 ++ nest p OpTouch :: ops)) by (apply Forall_app; split; [exact H0|constructor; auto]).
  eapply shown_reach; eauto. destruct (reached_ok _ _ _ _ Hok Hl Hr) as (_ & _ & Ha). destruct (acalls_app _ _ _ _ _ Ha) as (x & _ & Hb).
  inversion Hb as [|? ? e y ? ? Hc Hd]; subst. eapply spares_all; eauto. eapply nest_shown; eauto.
Qed.

Lemma hidden_reach : forall ty ops fuel v p tty o,
  oty_ok ty -> Forall (op_ok ty) ops -> run_ops fuel ops ty (construct ty) = Done v ->
  type_at ty p = Some tty -> op_ok tty o -> shown ty (oview ty v) p = None -> ~ switched ty p v ->
  exists y, read_at ty p v = Done y /\
  match run_op fuel o tty y with
  | Done (e, y') => exists v' v'', through ty p (run_op fuel o) v = Done (e, v') /\ owt ty v' /\ oview ty v' = oview ty v
      /\ acall tty (oview tty y) o e (oview tty y')
      /\ run_op fuel (nest p OpTouch) ty v' = Done (NoErrors, v'') /\ shown ty (oview ty v'') p = Some (oview tty y')
  | UB => False
  | Fuel => decodes o
  end.
Proof.
  intros ty ops fuel v p tty o Hok Hl Hr Ht Ho Hs Hn. destruct (reached_ok fuel ty ops v Hok Hl Hr) as (Hw & Htd & _).
  destruct (read_or_switched p ty v tty Hok Hw Ht) as [(y & Hy & _)|[H _]]; [|contradiction]. exists y. split; [exact Hy|].
  destruct (read_owt p ty v tty y Hok Hw Ht Hy) as [Hok' Hwy]. pose proof (read_otidy p ty v tty y Hok Hw Htd Ht Hy) as Hty.
  pose proof (op_safe fuel o tty y Hok' Hwy Hty Ho) as H. unfold op_post in H.
  pose proof (through_done p ty v tty y (run_op fuel o) Hok Hw Ht Hy) as Hd.
  destruct (run_op fuel o tty y) as [[e y']| |]; auto. destruct H as (Hw' & _ & Ha). destruct (Hd Hw') as (v' & E & Hwv & Hr' & Hv). exists v'.
  destruct (touch_shows p ty v' tty y' Hok Hwv Ht Hr') as (v'' & Et & _ & Hs''). exists v''. split; [exact E|]. split; [exact Hwv|]. split; [auto|]. split; [exact Ha|]. split; [|exact Hs''].
  rewrite (run_nest fuel OpTouch p ty v' tty Ht). exact Et.
Qed.

Lemma switched_reach : forall ty ops fuel v p tty,
  oty_ok ty -> Forall (op_ok ty) ops -> run_ops fuel ops ty (construct ty) = Done v -> type_at ty p = Some tty ->
  (switched ty p v <-> forall g, through ty p g v = UB).
Proof.
  intros ty ops fuel v p tty Hok Hl Hr Ht. destruct (reached_ok fuel ty ops v Hok Hl Hr) as (Hw & Htd & _).
  destruct (read_or_switched p ty v tty Hok Hw Ht) as [(y & Hy & Hn)|[Hs Hg]]; [|split; auto]. split; [contradiction|]. intros H. exfalso.
  pose proof (through_done p ty v tty y (fun _ x => Done (NoErrors, x)) Hok Hw Ht Hy) as Hd. cbn beta iota in Hd. destruct (Hd (proj2 (read_owt p ty v tty y Hok Hw Ht Hy))) as (v' & E & _). rewrite H in E. discriminate.
Qed.
