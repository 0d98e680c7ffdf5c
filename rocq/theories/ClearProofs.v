(** clear() (C40): every valid object becomes one that shows the default value and has no left-over
    data. *)
From Verif Require Import Base Buffers Wire Schema Fields Message Api Spec Contracts BitLemmas
  ScalarProofs BufferProofs Struct SerProofs Tables DecodeProofs.
From Coq Require Import ZifyBool ZifyNat ZifyN.
Ltac Zify.zify_post_hook ::= Z.div_mod_to_equations.

Definition clear_ok (t : ety) : Prop := forall v, wt t v -> desc_ok t ->
  exists v', clear t v = Done v' /\ good t v' (sdefault t).

Lemma map_res_ok {A B} (f : A -> res B) (P : A -> Prop) (Q : B -> Prop) l :
  (forall x, P x -> exists y, f x = Done y /\ Q y) -> all P l ->
  exists l', map_res f l = Done l' /\ all Q l' /\ zlen l' = zlen l.
Proof.
  intros H. induction l as [|x l IH]; intros Hl; [exists []; repeat split|]. destruct Hl as [Hx Hl].
  destruct (H x Hx) as (y & E & Hy). destruct (IH Hl) as (l' & E' & Hl' & Hz).
  exists (y :: l'). cbn [map_res]. rewrite E. cbn [bind]. rewrite E'. cbn [bind].
  split; [reflexivity|]. split; [split; auto|]. unfold zlen in *. cbn [length]. lia.
Qed.

Lemma all_impl {A} (P Q : A -> Prop) l : (forall x, P x -> Q x) -> all P l -> all Q l.
Proof. intros H. induction l as [|x l IH]; intros Hl; [exact I|]. destruct Hl. split; auto. Qed.

Lemma rep_clear_ok t max v : clear_ok t -> desc_ok t -> wt_field (KRep max) (wt t) v ->
  exists v', rep_clear (clear t) v = Done v' /\ wt_field (KRep max) (wt t) v'
    /\ (forall i pres, clean_field (KRep max) t (clean t) i pres v')
    /\ (forall i pres, view_field (KRep max) (view t) i pres v' = SvR []).
Proof.
  intros Hc Hd Hw. destruct v as [| | |len data|]; try contradiction. destruct Hw as (Hlen & Hz & Hall).
  destruct (map_res_ok (clear t) (wt t) (fun y => good t y (sdefault t)) data (fun x Hx => Hc x Hx Hd) Hall) as (l' & E & Hl' & Hz').
  exists (VR 0 l'). cbn [rep_clear]. rewrite E. cbn [bind]. split; [reflexivity|]. split.
  { cbn [wt_field]. split; [lia|]. split; [lia|]. eapply all_impl; [|exact Hl']. intros x Hx; apply Hx. }
  split; [|reflexivity]. intros i pres. cbn [clean_field]. destruct t; try exact I. cbn [Z.to_nat skipn].
  eapply all_impl; [|exact Hl']. intros x Hx; split; apply Hx.
Qed.

Lemma fields_clear_ok n : forall fs vs oi pres,
  Forall (fun f : fdesc => clear_ok (snd f)) fs ->
  all (fun '(_, k, t) => desc_ok t /\ match k with KRep max => capacity_ok max | _ => True end) fs ->
  all2 (fun '(_, k, t) => wt_field k (wt t)) fs vs ->
  0 <= oi -> oi + n_optional fs <= n -> zlen pres = presence_size n -> Forall is_u32 pres ->
  exists pres' vs', fields_clear (map (fun '(num, k, t) => (num, k, t, clear t)) fs) oi pres vs = Done (pres', vs')
    /\ zlen pres' = presence_size n /\ Forall is_u32 pres'
    /\ (forall j, 0 <= j -> present pres' j = if (oi <=? j) && (j <? oi + n_optional fs) then false else present pres j)
    /\ all2 (fun '(_, k, t) => wt_field k (wt t)) fs vs'
    /\ (forall p, (forall j, oi <= j < oi + n_optional fs -> present p j = false) ->
          clean_fields (ctab fs) oi p vs'
          /\ view_fields (vtab fs) oi p vs' = map (fun '(_, k, t) => sdefault_field k (sdefault t)) fs).
Proof.
  induction fs as [|[[num k] t] fs IH]; intros vs oi pres Hf Hd Hw Hoi Hn Hz Hu; destruct vs as [|v vs]; cbn [all2] in Hw; try contradiction.
  - exists pres, []. split; [reflexivity|]. split; [exact Hz|]. split; [exact Hu|]. split.
    { intros j Hj. cbn [n_optional]. destruct ((oi <=? j) && (j <? oi + 0)) eqn:E; [lia|reflexivity]. }
    split; [exact I|]. intros p Hp. split; [exact I|reflexivity].
  - inversion Hf as [|? ? Hc Hf']; subst. cbn [snd] in Hc. destruct Hd as [[Hdt Hk] Hd]. destruct Hw as [Hwv Hw].
    rewrite n_optional_cons in *. pose proof (n_optional_nonneg fs) as Hnn. pose proof (succ_opt_range k) as Hsr.
    assert (H1 : exists pres1 v', field_clear k (clear t) oi pres v = Done (pres1, v')
      /\ zlen pres1 = presence_size n /\ Forall is_u32 pres1
      /\ (forall j, 0 <= j -> present pres1 j = if (oi <=? j) && (j <? oi + succ_opt k 0) then false else present pres j)
      /\ wt_field k (wt t) v'
      /\ (forall p, (k = KOpt -> present p oi = false) ->
            clean_field k t (clean t) oi p v' /\ view_field k (view t) oi p v' = sdefault_field k (sdefault t))).
    { assert (Hsame : forall j, present pres j = if (oi <=? j) && (j <? oi + 0) then false else present pres j).
      { intros j. destruct ((oi <=? j) && (j <? oi + 0)) eqn:E; [lia|reflexivity]. }
      destruct k as [| |max|]; cbn [field_clear succ_opt] in *.
      - destruct (Hc v Hwv Hdt) as (v' & E & Hg1 & Hg2 & Hg3). rewrite E. cbn [bind]. exists pres, v'.
        split; [reflexivity|]. do 4 (split; [solve [auto]|]). intros p _. split; assumption.
      - destruct (presence_clear_ok pres oi n) as (p1 & E1 & Hz1 & Hu1 & Hp1); [lia|auto|auto|].
        destruct (Hc v Hwv Hdt) as (v' & E & Hg1 & Hg2 & Hg3). rewrite E1. cbn [bind]. rewrite E. cbn [bind]. exists p1, v'.
        split; [reflexivity|]. split; [exact Hz1|]. split; [exact Hu1|]. split.
        { intros j Hj. rewrite Hp1 by lia. destruct (j =? oi) eqn:Ej, ((oi <=? j) && (j <? oi + (0 + 1))) eqn:E2; auto; lia. }
        split; [exact Hg1|]. intros p Hp. cbn [clean_field view_field sdefault_field]. rewrite Hp by reflexivity. repeat split; auto.
      - destruct (rep_clear_ok t max v Hc Hdt Hwv) as (v' & E & Hwv' & Hcl & Hvw). rewrite E. cbn [bind]. exists pres, v'.
        split; [reflexivity|]. do 4 (split; [solve [auto]|]). intros p _. split; [apply Hcl|apply Hvw].
      - exists pres, v. split; [reflexivity|]. do 4 (split; [solve [auto]|]). intros p _. split; [exact I|reflexivity]. }
    destruct H1 as (pres1 & v' & E1 & Hz1 & Hu1 & Hp1 & Hwv' & Hcl1).
    destruct (IH vs (next_opt k oi) pres1 Hf' Hd Hw) as (pres2 & vs2 & E2 & Hz2 & Hu2 & Hp2 & Hw2 & Hcl2);
      rewrite ?next_opt_succ, ?(succ_opt_add k oi) in *; try lia; auto.
    exists pres2, (v' :: vs2). cbn [map fields_clear]. rewrite E1. cbn [bind]. rewrite next_opt_succ, (succ_opt_add k oi), E2. cbn [bind].
    split; [reflexivity|]. split; [exact Hz2|]. split; [exact Hu2|]. split.
    { intros j Hj. rewrite Hp2, Hp1 by lia.
      destruct ((oi + succ_opt k 0 <=? j) && (j <? oi + succ_opt k 0 + n_optional fs)) eqn:Ea,
        ((oi <=? j) && (j <? oi + succ_opt k 0)) eqn:Eb, ((oi <=? j) && (j <? oi + (succ_opt k 0 + n_optional fs))) eqn:Ec; try reflexivity; lia. }
    split; [split; assumption|]. intros p Hp.
    destruct (Hcl1 p) as [Ha Hb]. { intros ->. apply Hp. cbn [succ_opt]. lia. }
    destruct (Hcl2 p) as [Ha' Hb']. { intros j Hj. apply Hp. lia. }
    cbn [ctab vtab map clean_fields view_fields]. rewrite (succ_opt_add k oi). split; [split; [exact Ha|exact Ha']|].
    f_equal; [exact Hb|exact Hb'].
Qed.

Lemma oneofs_clear_ok fs os ovs : desc_ok (EMsg fs os) ->
  all2 (fun ms => wt_oneof (map (fun '(num, t) => (num, wt t)) ms)) os ovs ->
  exists ovs', oneofs_clear (map (map (fun '(num, t) => (num, t, clear t))) os) ovs = Done ovs'
    /\ all2 (fun ms => wt_oneof (map (fun '(num, t) => (num, wt t)) ms)) os ovs'
    /\ all2 (fun ms => clean_oneof (map (fun '(num, t) => (num, clean t)) ms)) os ovs'
    /\ view_oneofs (votab os) ovs' = map (fun _ => (0, SvNone)) os.
Proof.
  intros (_ & Hnum & _ & _). apply all_Forall in Hnum. unfold field_numbers in Hnum. apply Forall_app in Hnum. destruct Hnum as [_ Hnum].
  revert ovs Hnum. induction os as [|ms os IH]; intros ovs Hnum Hw; destruct ovs as [|o ovs]; cbn [all2] in Hw; try contradiction.
  { exists []. repeat split. }
  destruct Hw as [Hwo Hw]. cbn [flat_map] in Hnum. apply Forall_app in Hnum. destruct Hnum as [Hm Hnum].
  assert (H0 : lookup ms 0 = None).
  { apply lookup_None. intros Hin. eapply Forall_forall in Hm; [|exact Hin]. lia. }
  assert (Ho : fst (oneof_clear (map (fun '(num, t) => (num, t, clear t)) ms) o) = 0).
  { unfold oneof_clear. destruct (find_member _ _) as [[t c]|]; reflexivity. }
  destruct (IH ovs Hnum Hw) as (ovs' & E & Hw' & Hc' & Hv').
  cbn [map oneofs_clear]. rewrite E. cbn [bind]. eexists. split; [reflexivity|].
  split; [|split]; [split; [|exact Hw']|split; [|exact Hc']|].
  - unfold wt_oneof. rewrite Ho, (lookup_map wt), H0. reflexivity.
  - unfold clean_oneof. rewrite Ho, (lookup_map clean), H0. exact I.
  - cbn [votab map view_oneofs]. f_equal; [|exact Hv']. unfold view_oneof. rewrite Ho, (lookup_map view), H0. reflexivity.
Qed.

Theorem clear_good t : clear_ok t.
Proof.
  induction t as [sc|st max|fs os Hf Ho] using ety_ind'; intros v Hw Hd.
  - exists (VS 0). split; [reflexivity|]. split; [|split; reflexivity || exact I].
    cbn [wt]. destruct sc; cbn [scalar_range]; lia.
  - destruct v as [| |len data| |]; try contradiction. destruct Hw as (Hl & Hz & Hb). cbn [clear bytes_clear].
    eexists. split; [reflexivity|]. cbn [desc_ok] in Hd. unfold capacity_ok in Hd. split; [|split; reflexivity || exact I].
    cbn [wt]. split; [lia|]. split; [unfold zlen, zrepeat; rewrite repeat_length; unfold zlen in Hz; lia|].
    apply all_repeat. unfold is_byte; lia.
  - destruct v as [| | | |pres vs ovs]; try contradiction. pose proof Hd as Hd0. cbn [wt desc_ok] in Hw, Hd.
    destruct Hw as (Hz & Hu & Hw1 & Hw2). destruct Hd as (_ & _ & Hdf & _). apply all_Forall in Hu.
    destruct (fields_clear_ok (n_optional fs) fs vs 0 pres Hf Hdf Hw1) as (pres' & vs' & E & Hz' & Hu' & Hp' & Hw1' & Hcv); try lia; auto.
    destruct (oneofs_clear_ok fs os ovs Hd0 Hw2) as (ovs' & E' & Hw2' & Hc2' & Hv2').
    exists (VM pres' vs' ovs'). cbn [clear]. rewrite E. cbn [bind]. rewrite E'. cbn [bind]. split; [reflexivity|].
    destruct (Hcv pres') as [Hc Hv].
    { intros j Hj. rewrite Hp' by lia. destruct ((0 <=? j) && (j <? 0 + n_optional fs)) eqn:Ej; [reflexivity|lia]. }
    cbn [sdefault]. apply good_intro; auto.
Qed.
