(** Assignment copies everything the getters show (C39). *)
From Verif Require Import Base Buffers Wire Schema Fields Message Api Spec Contracts BitLemmas
  ScalarProofs BufferProofs Struct SerProofs Tables DecodeProofs ClearProofs TidyProofs.
From Coq Require Import ZifyBool ZifyNat ZifyN.
Ltac Zify.zify_post_hook ::= Z.div_mod_to_equations.

(** What is required of the destination: scalars may be uninitialised. *)
Definition asg_pre (t : ety) (dst : value) : Prop :=
  match t with EScalar _ => True | _ => wt t dst /\ tidy t dst end.

Definition asg_ok (t : ety) : Prop := desc_ok t -> forall dst src, asg_pre t dst -> wt t src ->
  exists v', assign t dst src = Done v' /\ wt t v' /\ tidy t v' /\ view t v' = view t src.

Lemma asg_pre_intro t v : wt t v -> tidy t v -> asg_pre t v.
Proof. destruct t; cbn [asg_pre]; auto. Qed.

Lemma bytes_set_ok st max dst src len : capacity_ok max -> wt (EBytes st max) dst -> Forall is_byte src ->
  0 <= len -> (len <= max -> len <= zlen src) ->
  exists e v', bytes_set dst src len = Done (e, v') /\ wt (EBytes st max) v' /\
  if len <=? max then e = NoErrors /\ view (EBytes st max) v' = SvB (firstn (Z.to_nat len) src) else e = ArrayFull /\ v' = dst.
Proof.
  intros Hc Hw Hb H0 Hl. pose proof Hw as Hw0. destruct dst as [| |cur data| |]; try contradiction. destruct Hw as (Hcur & Hz & Hd). unfold capacity_ok in Hc.
  cbn [bytes_set]. rewrite Hz. destruct (Z.leb_spec len max).
  - specialize (Hl H). rewrite memcpy_ok by lia. cbn [bind Z.to_nat firstn app]. do 2 eexists. split; [reflexivity|]. split; [|split; [reflexivity|]].
    + cbn [wt]. split; [lia|]. rewrite zlen_app, zlen_firstn, zlen_skipn. split; [lia|]. apply all_Forall. apply Forall_app.
      split; [now apply Forall_firstn|]. apply Forall_skipn. now apply all_Forall.
    + cbn [view]. rewrite firstn_app, firstn_firstn, firstn_length. rewrite Nat.min_id.
      replace (Z.to_nat len - Nat.min (Z.to_nat len) (length src))%nat with 0%nat by (unfold zlen in *; lia).
      rewrite firstn_O, app_nil_r. reflexivity.
  - do 2 eexists. split; [reflexivity|]. auto.
Qed.

Lemma elem_set_ok t : asg_ok t -> desc_ok t -> forall dst src, asg_pre t dst -> wt t src ->
  exists v', elem_set t (assign t) dst src = Done v' /\ wt t v' /\ tidy t v' /\ view t v' = view t src.
Proof.
  intros Ha Hd dst src Hp Hw. destruct t as [sc|st max|fs os]; try apply (Ha Hd dst src Hp Hw).
  cbn [elem_set]. destruct src as [| |len sdata| |]; try contradiction. destruct Hw as (Hl & Hz & Hb). cbn [asg_pre] in Hp. destruct Hp as [Hwd _].
  cbn [bytes_set_from]. destruct (bytes_set_ok st max dst sdata len Hd Hwd) as (e & v' & -> & Hwv & Hv); [now apply all_Forall|lia|lia|].
  cbn [bind]. exists v'. split; [reflexivity|]. split; [exact Hwv|]. split; [constructor|].
  destruct (Z.leb_spec len max); [|lia]. destruct Hv as [_ ->]. reflexivity.
Qed.

Lemma rep_copy_eq asg : forall n i dst src, 0 <= i -> i + Z.of_nat n <= zlen src -> zlen src < 2 ^ 31 ->
  rep_copy asg n i dst src = rep_set_data_loop asg n i dst src.
Proof.
  induction n as [|n IH]; intros i dst src Hi Hn Hs; cbn [rep_copy rep_set_data_loop]; [reflexivity|].
  unfold rep_get_const. rewrite u32_small by lia. rewrite Z.min_l by lia.
  destruct (aget src i) as [y| |]; cbn [bind]; auto. destruct (aget dst i) as [x| |]; cbn [bind]; auto.
  destruct (asg x y) as [x'| |]; cbn [bind]; auto. destruct (aset dst i x') as [dst'| |]; cbn [bind]; auto.
  apply IH; lia.
Qed.

Lemma set_data_loop_ok t : asg_ok t -> desc_ok t -> forall n i dst src, 0 <= i -> i + Z.of_nat n <= zlen src -> i + Z.of_nat n <= zlen dst ->
  all (wt t) dst -> Forall (tidy t) dst -> Forall (wt t) src ->
  exists dst', rep_set_data_loop (assign t) n i dst src = Done dst' /\ zlen dst' = zlen dst /\ all (wt t) dst' /\ Forall (tidy t) dst'
    /\ firstn (Z.to_nat i + n) (map (view t) dst') = firstn (Z.to_nat i) (map (view t) dst) ++ firstn n (skipn (Z.to_nat i) (map (view t) src))
    /\ skipn (Z.to_nat i + n) dst' = skipn (Z.to_nat i + n) dst.
Proof.
  intros Ha Hd. induction n as [|n IH]; intros i dst src Hi Hs Hn Hw Ht Hsrc; cbn [rep_set_data_loop].
  - exists dst. rewrite Nat.add_0_r. cbn [firstn]. rewrite app_nil_r. auto 10.
  - destruct (aget_ok src i) as (y & -> & Ey); [lia|]. destruct (aget_ok dst i) as (x & -> & Ex); [lia|]. cbn [bind].
    pose proof Hw as Hwf. apply all_Forall in Hwf.
    assert (Hx : wt t x) by (eapply Forall_forall in Hwf; [exact Hwf|]; eapply nth_error_In; exact Ex).
    assert (Htx : tidy t x) by (eapply Forall_forall in Ht; [exact Ht|]; eapply nth_error_In; exact Ex).
    assert (Hy : wt t y) by (eapply Forall_forall in Hsrc; [exact Hsrc|]; eapply nth_error_In; exact Ey).
    destruct (Ha Hd x y (asg_pre_intro t x Hx Htx) Hy) as (x' & -> & Hwx' & Htx' & Hvx'). cbn [bind].
    rewrite aset_ok by lia. cbn [bind].
    assert (Hlt : (Z.to_nat i < length dst)%nat) by (eapply nth_error_lt; exact Ex).
    destruct (IH (i + 1) (upd (Z.to_nat i) x' dst) src) as (dst' & E & Hz & Hw' & Ht' & Hf & Hsk); try lia; try assumption.
    + rewrite zlen_upd. lia.
    + apply all_Forall. apply Forall_upd; assumption.
    + apply Forall_upd; assumption.
    + exists dst'. split; [exact E|]. rewrite zlen_upd in Hz. split; [exact Hz|]. split; [exact Hw'|]. split; [exact Ht'|].
      replace (Z.to_nat (i + 1) + n)%nat with (Z.to_nat i + S n)%nat in * by lia. split.
      * rewrite Hf, map_upd. replace (Z.to_nat (i + 1)) with (S (Z.to_nat i)) by lia.
        rewrite firstn_S_upd by (rewrite map_length; exact Hlt). rewrite <- app_assoc. f_equal.
        rewrite (skipn_cons_nth _ _ _ (map_nth_error (view t) _ _ Ey)). cbn [app firstn]. now rewrite Hvx'.
      * rewrite Hsk. apply skipn_upd_lt. lia.
Qed.

Lemma rep_assign_ok t max : asg_ok t -> desc_ok t -> capacity_ok max -> forall dst src,
  wt_field (KRep max) (wt t) dst -> (forall i p, tidy_field (KRep max) t i p dst) -> wt_field (KRep max) (wt t) src ->
  exists v', rep_assign (assign t) dst src = Done v' /\ wt_field (KRep max) (wt t) v' /\ (forall i p, tidy_field (KRep max) t i p v')
    /\ forall i p j q, view_field (KRep max) (view t) i p v' = view_field (KRep max) (view t) j q src.
Proof.
  intros Ha Hd Hc dst src Hwd Htd Hws. unfold capacity_ok in Hc.
  destruct dst as [| | |dl dd|]; try contradiction. destruct src as [| | |sl sd|]; try contradiction.
  destruct Hwd as (Hdl & Hdz & Hdw). destruct Hws as (Hsl & Hsz & Hsw). specialize (Htd 0 []). cbn [tidy_field] in Htd.
  cbn [rep_assign]. rewrite rep_copy_eq by lia.
  destruct (set_data_loop_ok t Ha Hd (Z.to_nat sl) 0 dd sd) as (d' & -> & Hz & Hw & Ht & Hf & _); try lia; auto; [now apply all_Forall|].
  cbn [bind]. exists (VR sl d'). split; [reflexivity|]. split; [cbn [wt_field]; split; [lia|]; split; [lia|exact Hw]|].
  split; [intros; exact Ht|]. intros i p j q. cbn [view_field]. f_equal.
  cbn [Z.to_nat Nat.add firstn app skipn] in Hf. rewrite <- !firstn_map. exact Hf.
Qed.

Lemma fields_assign_ok n : forall fs dst src oi pd ps,
  Forall (fun f : fdesc => asg_ok (snd f)) fs ->
  all (fun '(_, k, t) => desc_ok t /\ match k with KRep max => capacity_ok max | _ => True end) fs ->
  all2 (fun '(_, k, t) => wt_field k (wt t)) fs dst ->
  all2 (fun '(_, k, t) => wt_field k (wt t)) fs src ->
  (forall pos num k t x, nth_error fs pos = Some (num, k, t) -> nth_error dst pos = Some x -> tidy_field k t (oi + optix fs pos) pd x) ->
  0 <= oi -> oi + n_optional fs <= n -> zlen pd = presence_size n -> Forall is_u32 pd -> zlen ps = presence_size n ->
  exists pd' vs', fields_assign (map (fun '(num, k, t) => (num, k, t, assign t)) fs) oi pd ps dst src = Done (pd', vs')
    /\ zlen pd' = presence_size n /\ Forall is_u32 pd'
    /\ (forall j, 0 <= j -> present pd' j = if (oi <=? j) && (j <? oi + n_optional fs) then present ps j else present pd j)
    /\ all2 (fun '(_, k, t) => wt_field k (wt t)) fs vs'
    /\ (forall p, (forall j, oi <= j < oi + n_optional fs -> present p j = present ps j) ->
          (forall pos num k t x, nth_error fs pos = Some (num, k, t) -> nth_error vs' pos = Some x -> tidy_field k t (oi + optix fs pos) p x)
          /\ view_fields (vtab fs) oi p vs' = view_fields (vtab fs) oi ps src).
Proof.
  induction fs as [|[[num k] t] fs IH]; intros dst src oi pd ps Hf Hd Hwd Hws Htd Hoi Hn Hz Hu Hzs;
    destruct dst as [|d dst]; cbn [all2] in Hwd; try contradiction; destruct src as [|x src]; cbn [all2] in Hws; try contradiction.
  - exists pd, []. split; [reflexivity|]. split; [exact Hz|]. split; [exact Hu|]. split.
    { intros j Hj. cbn [n_optional]. destruct ((oi <=? j) && (j <? oi + 0)) eqn:E; [lia|reflexivity]. }
    split; [exact I|]. intros p Hp. split; [|reflexivity]. intros [|pos]; discriminate.
  - inversion Hf as [|? ? Ha Hf']; subst. cbn [snd] in Ha. destruct Hd as [[Hdt Hk] Hd]. destruct Hwd as [Hwd0 Hwd]. destruct Hws as [Hws0 Hws].
    rewrite n_optional_cons in *. pose proof (n_optional_nonneg fs) as Hnn. pose proof (succ_opt_range k) as Hsr.
    pose proof (Htd 0%nat num k t d eq_refl eq_refl) as Htd0. cbn [optix] in Htd0. rewrite Z.add_0_r in Htd0.
    assert (H1 : exists pd1 v', field_assign k t (clear t) (assign t) oi pd ps d x = Done (pd1, v')
      /\ zlen pd1 = presence_size n /\ Forall is_u32 pd1
      /\ (forall j, 0 <= j -> present pd1 j = if (oi <=? j) && (j <? oi + succ_opt k 0) then present ps j else present pd j)
      /\ wt_field k (wt t) v'
      /\ (forall p, (k = KOpt -> present p oi = present ps oi) ->
            tidy_field k t oi p v' /\ view_field k (view t) oi p v' = view_field k (view t) oi ps x)).
    { assert (Hsame : forall j, present pd j = if (oi <=? j) && (j <? oi + 0) then present ps j else present pd j).
      { intros j. destruct ((oi <=? j) && (j <? oi + 0)) eqn:E; [lia|reflexivity]. }
      destruct k as [| |max|]; cbn [field_assign succ_opt wt_field tidy_field] in *.
      - destruct (elem_set_ok t Ha Hdt d x (asg_pre_intro t d Hwd0 Htd0) Hws0) as (v' & -> & Hwv & Htv & Hvv). cbn [bind].
        exists pd, v'. split; [reflexivity|]. do 4 (split; [solve [auto]|]). intros p _. split; assumption.
      - destruct Htd0 as [Htd0 Htd1]. rewrite (presence_has_ok ps oi n) by (lia || auto). cbn [bind].
        assert (Hj : forall (pd1 : list Z), (forall j, 0 <= j -> present pd1 j = if j =? oi then present ps oi else present pd j) ->
          forall j, 0 <= j -> present pd1 j = if (oi <=? j) && (j <? oi + (0 + 1)) then present ps j else present pd j).
        { intros pd1 H j Hj. rewrite H by exact Hj. destruct (Z.eqb_spec j oi) as [Ej|Ej];
            destruct ((oi <=? j) && (j <? oi + (0 + 1))) eqn:E2; try lia; [now rewrite Ej|reflexivity]. }
        destruct (present ps oi) eqn:Ep.
        + destruct (presence_set_ok pd oi n) as (p1 & -> & Hz1 & Hu1 & Hp1); [lia|auto|auto|]. cbn [bind].
          destruct (elem_set_ok t Ha Hdt d x (asg_pre_intro t d Hwd0 Htd0) Hws0) as (v' & -> & Hwv & Htv & Hvv). cbn [bind].
          exists p1, v'. split; [reflexivity|]. split; [exact Hz1|]. split; [exact Hu1|]. split; [apply Hj; exact Hp1|]. split; [exact Hwv|].
          intros p Hp. cbn [view_field]. rewrite (Hp eq_refl), Ep. split; [split; [exact Htv|discriminate]|congruence].
        + cbn [field_clear]. destruct (presence_clear_ok pd oi n) as (p1 & -> & Hz1 & Hu1 & Hp1); [lia|auto|auto|]. cbn [bind].
          destruct (clear_good t d Hwd0 Hdt) as (v' & -> & Hg). cbn [bind].
          exists p1, v'. split; [reflexivity|]. split; [exact Hz1|]. split; [exact Hu1|]. split; [apply Hj; exact Hp1|]. split; [apply Hg|].
          intros p Hp. cbn [view_field]. rewrite (Hp eq_refl), Ep. split; [split; [now apply fresh_tidy|intros _; apply Hg]|reflexivity].
      - destruct (rep_assign_ok t max Ha Hdt Hk d x Hwd0 (fun _ _ => Htd0) Hws0) as (v' & -> & Hwv & Htv & Hvv). cbn [bind].
        exists pd, v'. split; [reflexivity|]. do 4 (split; [solve [auto]|]). intros p _. split; [apply (Htv oi p)|apply (Hvv oi p oi ps)].
      - exists pd, d. split; [reflexivity|]. do 4 (split; [solve [auto]|]). intros p _. split; [exact I|reflexivity]. }
    destruct H1 as (pd1 & v' & E1 & Hz1 & Hu1 & Hp1 & Hwv' & Hc1).
    destruct (IH dst src (next_opt k oi) pd1 ps Hf' Hd Hwd Hws) as (pd2 & vs2 & E2 & Hz2 & Hu2 & Hp2 & Hw2 & Hc2);
      rewrite ?next_opt_succ, ?(succ_opt_add k oi) in *; try lia; auto.
    { intros pos num' k' t' y Hp Hy. specialize (Htd (S pos) num' k' t' y Hp Hy). cbn [optix] in Htd. rewrite Z.add_assoc in Htd.
      eapply tidy_field_mono; [|exact Htd]. intros E. rewrite Hp1 in E by (pose proof (optix_nonneg fs pos); lia).
      pose proof (optix_nonneg fs pos). destruct ((oi <=? oi + succ_opt k 0 + optix fs pos) && (oi + succ_opt k 0 + optix fs pos <? oi + succ_opt k 0)) eqn:E2; [lia|exact E]. }
    exists pd2, (v' :: vs2). cbn [map fields_assign]. rewrite E1. cbn [bind]. rewrite next_opt_succ, (succ_opt_add k oi), E2. cbn [bind].
    split; [reflexivity|]. split; [exact Hz2|]. split; [exact Hu2|]. split.
    { intros j Hj. rewrite Hp2, Hp1 by lia.
      destruct ((oi + succ_opt k 0 <=? j) && (j <? oi + succ_opt k 0 + n_optional fs)) eqn:Ea,
        ((oi <=? j) && (j <? oi + succ_opt k 0)) eqn:Eb, ((oi <=? j) && (j <? oi + (succ_opt k 0 + n_optional fs))) eqn:Ec; try reflexivity; lia. }
    split; [split; assumption|]. intros p Hp.
    destruct (Hc1 p) as [Hta Hva]. { intros ->. apply Hp. cbn [succ_opt]. lia. }
    destruct (Hc2 p) as [Htb Hvb]. { intros j Hj. apply Hp. lia. }
    split.
    { intros [|pos] num' k' t' y Hq Hy; cbn [nth_error optix] in *.
      - injection Hq as -> -> ->. injection Hy as ->. rewrite Z.add_0_r. exact Hta.
      - rewrite Z.add_assoc. eapply Htb; eauto. }
    cbn [vtab map view_fields]. rewrite (succ_opt_add k oi). f_equal; [exact Hva|exact Hvb].
Qed.

Lemma oneof_init_pre {X} (ms : odesc) (f : ety -> X) id o t : lookup ms id = Some t -> desc_ok t ->
  fst (oneof_init (map (fun '(n, t) => (n, t, f t)) ms) id o) = id
  /\ asg_pre t (snd (oneof_init (map (fun '(n, t) => (n, t, f t)) ms) id o)).
Proof.
  intros Hl Hd. unfold oneof_init. rewrite find_member_map, Hl. cbn [fst snd]. split; [reflexivity|].
  destruct t as [sc|st max|fs os]; [exact I|..]; cbn [is_enum placement_new asg_pre]; (split; [now apply default_ok|now apply default_tidy]).
Qed.

Lemma oneof_assign_ok (ms : odesc) d s :
  (forall num t, lookup ms num = Some t -> asg_ok t /\ desc_ok t /\ 1 <= num) ->
  wt_oneof (map (fun '(num, t) => (num, wt t)) ms) d -> tidy_oneof ms d -> wt_oneof (map (fun '(num, t) => (num, wt t)) ms) s ->
  exists o, oneof_assign (map (fun '(num, t) => (num, t, assign t)) ms) d s = Done o
    /\ wt_oneof (map (fun '(num, t) => (num, wt t)) ms) o /\ tidy_oneof ms o
    /\ view_oneof (map (fun '(num, t) => (num, view t)) ms) o = view_oneof (map (fun '(num, t) => (num, view t)) ms) s.
Proof.
  intros Hms Hwd Htd Hws. assert (H0 : lookup ms 0 = None).
  { destruct (lookup ms 0) eqn:E; [|reflexivity]. destruct (Hms _ _ E) as (_ & _ & H). lia. }
  unfold oneof_assign. rewrite find_member_map.
  set (d1 := if fst s =? fst d then d else oneof_clear (map (fun '(num, t) => (num, t, assign t)) ms) d).
  unfold wt_oneof in Hws. rewrite (lookup_map wt) in Hws. unfold view_oneof. rewrite !(lookup_map view).
  destruct (lookup ms (fst s)) as [t|] eqn:El.
  - destruct (Hms _ _ El) as (Ha & Hd & Hn).
    set (d2 := if fst s =? fst d1 then d1 else oneof_init (map (fun '(num, t) => (num, t, assign t)) ms) (fst s) d1).
    assert (H2 : fst d2 = fst s /\ asg_pre t (snd d2)).
    { unfold d2. destruct (Z.eqb_spec (fst s) (fst d1)) as [E|E]; [|apply oneof_init_pre; assumption].
      split; [congruence|]. unfold d1 in *. destruct (Z.eqb_spec (fst s) (fst d)) as [E'|E'].
      - unfold wt_oneof in Hwd. rewrite (lookup_map wt), <- E', El in Hwd. apply asg_pre_intro; [exact Hwd|]. apply Htd. now rewrite <- E'.
      - exfalso. unfold oneof_clear in E. destruct (find_member _ (fst d)) as [[t' a]|]; cbn [fst] in E; lia. }
    clearbody d2. destruct H2 as [Ef Hp]. destruct (elem_set_ok t Ha Hd (snd d2) (snd s) Hp Hws) as (v' & -> & Hwv & Htv & Hvv). cbn [bind].
    exists (fst d2, v'). split; [reflexivity|]. rewrite Ef. split; [|split].
    + unfold wt_oneof. cbn [fst snd]. rewrite (lookup_map wt), El. exact Hwv.
    + intros t' Hl'. cbn [fst snd] in *. assert (t' = t) by congruence. now subst.
    + cbn [fst snd]. now rewrite (lookup_map view), El, Hvv.
  - exists d1. split; [reflexivity|].
    assert (Hf : fst d1 = 0).
    { unfold d1. destruct (Z.eqb_spec (fst s) (fst d)); [congruence|]. unfold oneof_clear. destruct (find_member _ (fst d)) as [[t' a]|]; reflexivity. }
    split; [|split].
    + unfold wt_oneof. rewrite (lookup_map wt), Hf, H0. reflexivity.
    + intros t' Hl'. rewrite Hf in Hl'. congruence.
    + rewrite (lookup_map view), Hf, H0. reflexivity.
Qed.

Theorem assign_ok t : asg_ok t.
Proof.
  induction t as [sc|st max|fs os Hf Ho] using ety_ind'; intros Hd dst src Hp Hw.
  - destruct src as [z| | | |]; try contradiction. exists (VS z). repeat split; [exact Hw|constructor].
  - destruct src as [| |len data| |]; try contradiction. exists (VB len data). split; [reflexivity|]. split; [exact Hw|]. split; [constructor|reflexivity].
  - destruct Hp as [Hwd Htd]. destruct dst as [| | | |pd vd od]; try contradiction. destruct src as [| | | |ps vs ovs]; try contradiction.
    pose proof Hd as Hd0. cbn [wt desc_ok] in Hw, Hwd, Hd. destruct Hw as (Hzs & Hus & Hws1 & Hws2). destruct Hwd as (Hzd & Hud & Hwd1 & Hwd2).
    destruct Hd as (_ & _ & Hdf & _). apply all_Forall in Hud. apply tidy_msg_iff in Htd. destruct Htd as [Ht1 Ht2].
    destruct (fields_assign_ok (n_optional fs) fs vd vs 0 pd ps Hf Hdf Hwd1 Hws1) as (pd' & vs' & E & Hz' & Hu' & Hp' & Hw' & Hc'); try lia; auto.
    assert (HO : exists ovs', oneofs_assign (map (map (fun '(num, t) => (num, t, assign t))) os) od ovs = Done ovs'
      /\ all2 (fun ms => wt_oneof (map (fun '(num, t) => (num, wt t)) ms)) os ovs'
      /\ (forall pos ms o, nth_error os pos = Some ms -> nth_error ovs' pos = Some o -> tidy_oneof ms o)
      /\ view_oneofs (votab os) ovs' = view_oneofs (votab os) ovs).
    { assert (Hms : forall pos ms, nth_error os pos = Some ms -> forall num t, lookup ms num = Some t -> asg_ok t /\ desc_ok t /\ 1 <= num).
      { intros pos ms En num t El. destruct (desc_member fs os pos ms num t Hd0 En El) as [Hdt Hn]. split; [|split; [exact Hdt|lia]].
        eapply Forall_forall in Ho; [|eapply nth_error_In; exact En]. eapply Forall_forall in Ho; [|eapply lookup_In; exact El]. exact Ho. }
      clear -Hms Hws2 Hwd2 Ht2. revert od ovs Hms Hws2 Hwd2 Ht2. induction os as [|ms os IH]; intros od ovs Hms Hws Hwd Ht;
        destruct od as [|d od]; cbn [all2] in Hwd; try contradiction; destruct ovs as [|s ovs]; cbn [all2] in Hws; try contradiction.
      { exists []. split; [reflexivity|]. split; [exact I|]. split; [intros [|pos]; discriminate|reflexivity]. }
      destruct Hwd as [Hwd0 Hwd]. destruct Hws as [Hws0 Hws].
      destruct (oneof_assign_ok ms d s (Hms 0%nat ms eq_refl) Hwd0 (Ht 0%nat ms d eq_refl eq_refl) Hws0) as (o & Eo & Hwo & Hto & Hvo).
      destruct (IH od ovs) as (ovs' & E & Hw & Htt & Hv); auto.
      { intros pos ms' En. apply (Hms (S pos) ms' En). } { intros pos ms' o' En. apply (Ht (S pos) ms' o' En). }
      cbn [map oneofs_assign]. rewrite Eo. cbn [bind]. rewrite E. cbn [bind]. exists (o :: ovs'). split; [reflexivity|]. split; [split; assumption|]. split.
      - intros [|pos] ms' o' En Eo'; cbn [nth_error] in *; [|eapply Htt; eauto]. injection En as ->. injection Eo' as ->. exact Hto.
      - cbn [votab map view_oneofs]. f_equal; assumption. }
    destruct HO as (ovs' & E2 & Hw2' & Ht2' & Hv2').
    exists (VM pd' vs' ovs'). cbn [assign]. rewrite E. cbn [bind]. rewrite E2. cbn [bind]. split; [reflexivity|].
    assert (Hpp : forall j, 0 <= j < 0 + n_optional fs -> present pd' j = present ps j).
    { intros j Hj. rewrite Hp' by lia. destruct ((0 <=? j) && (j <? 0 + n_optional fs)) eqn:Ej; [reflexivity|lia]. }
    destruct (Hc' pd' Hpp) as [Htf Hvf]. split; [|split].
    + cbn [wt]. split; [exact Hz'|]. split; [now apply all_Forall|]. split; assumption.
    + apply tidy_msg_iff. split; [intros; eapply Htf; eauto|exact Ht2'].
    + rewrite !view_tab. congruence.
Qed.
