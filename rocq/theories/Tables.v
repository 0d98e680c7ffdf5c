(** Field tables: how views, validity and cleanness of a message relate to those of its fields. *)
From Verif Require Import Base Buffers Wire Schema Fields Message Spec BitLemmas Struct SerProofs.
From Coq Require Import ZifyBool ZifyNat ZifyN.
Ltac Zify.zify_post_hook ::= Z.div_mod_to_equations.

Definition vtab (fs : list fdesc) := map (fun '(_, k, t) => (k, view t)) fs.
Definition ctab (fs : list fdesc) := map (fun '(_, k, t) => (k, t, clean t)) fs.
Definition dtab (fuel : nat) (fs : list fdesc) : list dfield :=
  map (fun '(num, k, t) => (num, k, t, deserialize fuel t)) fs.
Definition votab (os : list odesc) := map (map (fun '(num, t) => (num, view t))) os.
Definition dotab (fuel : nat) (os : list odesc) : list (list dmember) :=
  map (map (fun '(num, t) => (num, t, deserialize fuel t))) os.

(** The presence bits of all optional fields but the one at [pos] agree. *)
Definition agree_but (fs : list fdesc) (i : Z) (pos : nat) (pres pres' : list Z) : Prop :=
  forall q num t, nth_error fs q = Some (num, KOpt, t) -> q <> pos ->
  present pres' (i + optix fs q) = present pres (i + optix fs q).

Lemma agree_but_refl fs i pos pres : agree_but fs i pos pres pres.
Proof. intros q num t _ _. reflexivity. Qed.

Lemma agree_but_tail num k t fs i pos pres pres' :
  agree_but ((num, k, t) :: fs) i (S pos) pres pres' -> agree_but fs (succ_opt k i) pos pres pres'.
Proof.
  intros H q n' t' Hq Hne. specialize (H (S q) n' t' Hq ltac:(lia)). cbn [optix] in H.
  rewrite succ_opt_add. replace (i + succ_opt k 0 + optix fs q) with (i + (succ_opt k 0 + optix fs q)) by lia. exact H.
Qed.

Lemma view_fields_agree fs : forall i pres pres' vs,
  (forall q num t, nth_error fs q = Some (num, KOpt, t) -> present pres' (i + optix fs q) = present pres (i + optix fs q)) ->
  view_fields (vtab fs) i pres' vs = view_fields (vtab fs) i pres vs.
Proof.
  induction fs as [|[[num k] t] fs IH]; intros i pres pres' vs H; cbn [vtab map view_fields]; [reflexivity|].
  destruct vs as [|v vs]; [reflexivity|]. f_equal.
  - destruct k; cbn [view_field]; auto. specialize (H 0%nat num t eq_refl). cbn [optix] in H. rewrite Z.add_0_r in H.
    now rewrite H.
  - apply IH. intros q n' t' Hq. specialize (H (S q) n' t' Hq). cbn [optix] in H. rewrite succ_opt_add.
    now rewrite <- Z.add_assoc.
Qed.

Lemma view_fields_nth fs : forall pos i pres vs num k t o, nth_error fs pos = Some (num, k, t) ->
  nth_error (view_fields (vtab fs) i pres vs) pos = Some o ->
  exists x, nth_error vs pos = Some x /\ o = view_field k (view t) (i + optix fs pos) pres x.
Proof.
  induction fs as [|[[n' k'] t'] fs IH]; intros [|pos] i pres vs num k t o Hf Ho; cbn [nth_error] in Hf; try discriminate;
    destruct vs as [|v vs]; try discriminate.
  - injection Hf as -> -> ->. cbn in Ho. injection Ho as <-. exists v. cbn [optix]. rewrite Z.add_0_r. auto.
  - cbn [vtab map view_fields nth_error] in Ho. destruct (IH _ _ _ _ _ _ _ _ Hf Ho) as (x & Hx & ->).
    exists x. split; [exact Hx|]. cbn [optix]. rewrite succ_opt_add. now rewrite Z.add_assoc.
Qed.

Lemma view_fields_nth_fwd fs : forall pos i pres vs num k t x, nth_error fs pos = Some (num, k, t) ->
  nth_error vs pos = Some x ->
  nth_error (view_fields (vtab fs) i pres vs) pos = Some (view_field k (view t) (i + optix fs pos) pres x).
Proof.
  induction fs as [|[[n' k'] t'] fs IH]; intros [|pos] i pres vs num k t x Hf Hx; cbn [nth_error] in Hf; try discriminate;
    destruct vs as [|v vs]; try discriminate.
  - injection Hf as -> -> ->. cbn in Hx. injection Hx as <-. cbn [optix]. rewrite Z.add_0_r. reflexivity.
  - cbn [vtab map view_fields nth_error]. cbn [nth_error] in Hx. rewrite (IH _ _ _ _ _ _ _ _ Hf Hx).
    cbn [optix]. rewrite succ_opt_add. now rewrite Z.add_assoc.
Qed.

Lemma view_fields_upd fs : forall pos i pres pres' vs num k t x', nth_error fs pos = Some (num, k, t) ->
  agree_but fs i pos pres pres' ->
  view_fields (vtab fs) i pres' (upd pos x' vs)
  = upd pos (view_field k (view t) (i + optix fs pos) pres' x') (view_fields (vtab fs) i pres vs).
Proof.
  induction fs as [|[[n' k'] t'] fs IH]; intros [|pos] i pres pres' vs num k t x' Hf Ha; cbn [nth_error] in Hf; try discriminate;
    destruct vs as [|v vs]; try reflexivity.
  - injection Hf as -> -> ->. cbn [optix]. rewrite Z.add_0_r. cbn [vtab map view_fields upd]. f_equal.
    apply view_fields_agree. intros q num' t'' Hq. specialize (Ha (S q) num' t'' Hq ltac:(lia)). cbn [optix] in Ha.
    rewrite succ_opt_add. now rewrite <- Z.add_assoc.
  - cbn [vtab map view_fields upd]. f_equal.
    + destruct k'; cbn [view_field]; auto. specialize (Ha 0%nat n' t' eq_refl ltac:(lia)). cbn [optix] in Ha.
      rewrite Z.add_0_r in Ha. now rewrite Ha.
    + apply agree_but_tail in Ha. change (map (fun '(_, k0, t0) => (k0, view t0)) fs) with (vtab fs).
      rewrite (IH _ _ _ _ _ _ _ _ _ Hf Ha). cbn [optix]. rewrite succ_opt_add. now rewrite Z.add_assoc.
Qed.

Lemma clean_fields_agree fs : forall i pres pres' vs,
  (forall q num t, nth_error fs q = Some (num, KOpt, t) -> present pres' (i + optix fs q) = present pres (i + optix fs q)) ->
  clean_fields (ctab fs) i pres vs -> clean_fields (ctab fs) i pres' vs.
Proof.
  induction fs as [|[[num k] t] fs IH]; intros i pres pres' vs H; cbn [ctab map clean_fields]; [auto|].
  destruct vs as [|v vs]; [auto|]. intros [H1 H2]. split.
  - destruct k; cbn [clean_field] in *; auto. specialize (H 0%nat num t eq_refl). cbn [optix] in H. rewrite Z.add_0_r in H.
    now rewrite H.
  - eapply IH; [|exact H2]. intros q n' t' Hq. specialize (H (S q) n' t' Hq). cbn [optix] in H. rewrite succ_opt_add.
    now rewrite <- Z.add_assoc.
Qed.

Lemma clean_fields_nth fs : forall pos i pres vs num k t x, nth_error fs pos = Some (num, k, t) ->
  nth_error vs pos = Some x -> clean_fields (ctab fs) i pres vs ->
  clean_field k t (clean t) (i + optix fs pos) pres x.
Proof.
  induction fs as [|[[n' k'] t'] fs IH]; intros [|pos] i pres vs num k t o Hf Ho; cbn [nth_error] in Hf; try discriminate;
    destruct vs as [|v vs]; try discriminate; cbn [ctab map clean_fields]; intros [H1 H2].
  - injection Hf as -> -> ->. cbn in Ho. injection Ho as <-. cbn [optix]. rewrite Z.add_0_r. auto.
  - cbn [optix]. rewrite Z.add_assoc, <- succ_opt_add. eapply IH; eauto.
Qed.

Lemma clean_fields_upd fs : forall pos i pres pres' vs num k t x', nth_error fs pos = Some (num, k, t) ->
  agree_but fs i pos pres pres' -> clean_fields (ctab fs) i pres vs ->
  clean_field k t (clean t) (i + optix fs pos) pres' x' ->
  clean_fields (ctab fs) i pres' (upd pos x' vs).
Proof.
  induction fs as [|[[n' k'] t'] fs IH]; intros [|pos] i pres pres' vs num k t x' Hf Ha; cbn [nth_error] in Hf; try discriminate;
    destruct vs as [|v vs]; auto; cbn [ctab map clean_fields upd optix]; intros [H1 H2] Hc.
  - injection Hf as -> -> ->. rewrite Z.add_0_r in Hc. split; [exact Hc|].
    eapply clean_fields_agree; [|exact H2]. intros q num' t'' Hq. specialize (Ha (S q) num' t'' Hq ltac:(lia)). cbn [optix] in Ha.
    rewrite succ_opt_add. now rewrite <- Z.add_assoc.
  - split.
    + destruct k'; cbn [clean_field] in *; auto. specialize (Ha 0%nat n' t' eq_refl ltac:(lia)). cbn [optix] in Ha.
      rewrite Z.add_0_r in Ha. now rewrite Ha.
    + apply agree_but_tail in Ha. eapply IH; eauto. rewrite succ_opt_add, <- Z.add_assoc. exact Hc.
Qed.

(** *** find_field, find_oneof *)

Lemma find_field_gen fuel fs : forall pos oi i num k t, NoDup (map (fun '(n, _, _) => n) fs) ->
  nth_error fs i = Some (num, k, t) ->
  find_field (dtab fuel fs) pos oi num = Some ((pos + i)%nat, oi + optix fs i, (num, k, t, deserialize fuel t)).
Proof.
  induction fs as [|[[n' k'] t'] fs IH]; intros pos oi [|i] num k t Hd Hf; cbn [nth_error] in Hf; try discriminate;
    cbn [dtab map find_field optix].
  - injection Hf as -> -> ->. rewrite Z.eqb_refl, Nat.add_0_r, Z.add_0_r. reflexivity.
  - inversion Hd as [|? ? Hn Hd']; subst.
    destruct (Z.eqb_spec n' num) as [->|Hne].
    + exfalso. apply Hn. apply nth_error_In in Hf. apply (in_map (fun '(n, _, _) => n)) in Hf. exact Hf.
    + change (map (fun '(num0, k0, t0) => (num0, k0, t0, deserialize fuel t0)) fs) with (dtab fuel fs).
      rewrite (IH _ _ _ _ _ _ Hd' Hf), next_opt_succ, succ_opt_add.
      replace (S pos + i)%nat with (pos + S i)%nat by lia.
      replace (oi + succ_opt k' 0 + optix fs i) with (oi + (succ_opt k' 0 + optix fs i)) by lia. reflexivity.
Qed.

Lemma find_field_none fuel fs : forall pos oi num, ~ In num (map (fun '(n, _, _) => n) fs) ->
  find_field (dtab fuel fs) pos oi num = None.
Proof.
  induction fs as [|[[n' k'] t'] fs IH]; intros pos oi num Hn; cbn [dtab map find_field]; [reflexivity|].
  cbn [map In] in Hn. destruct (Z.eqb_spec n' num) as [->|Hne]; [tauto|]. apply IH. tauto.
Qed.

(** Inversion: whatever [find_field] returns is the table entry with that number. *)
Lemma find_field_inv fuel fs : forall pos oi id p o f, find_field (dtab fuel fs) pos oi id = Some (p, o, f) ->
  exists i k t, p = (pos + i)%nat /\ o = oi + optix fs i /\ nth_error fs i = Some (id, k, t)
              /\ f = (id, k, t, deserialize fuel t).
Proof.
  induction fs as [|[[n' k'] t'] fs IH]; intros pos oi id p o f; cbn [dtab map find_field]; [discriminate|].
  destruct (Z.eqb_spec n' id) as [->|Hne].
  - intros [= <- <- <-]. exists 0%nat, k', t'. cbn [optix nth_error]. repeat split; lia.
  - intros H. destruct (IH _ _ _ _ _ _ H) as (i & k & t & -> & -> & Hi & ->).
    exists (S i), k, t. cbn [nth_error optix]. rewrite next_opt_succ, succ_opt_add. repeat split; auto; lia.
Qed.

Lemma find_oneof_gen fuel os : forall pos j ms num t, NoDup (flat_map (map fst) os) ->
  nth_error os j = Some ms -> lookup ms num = Some t ->
  find_oneof (dotab fuel os) pos num = Some ((pos + j)%nat, map (fun '(n, t) => (n, t, deserialize fuel t)) ms).
Proof.
  induction os as [|ms' os IH]; intros pos [|j] ms num t Hd Hn Hl; cbn [nth_error] in Hn; try discriminate;
    cbn [dotab map find_oneof]; rewrite find_member_map.
  - injection Hn as ->. rewrite Hl, Nat.add_0_r. reflexivity.
  - cbn [flat_map] in Hd. destruct (lookup ms' num) as [t'|] eqn:E.
    + exfalso. apply lookup_In in E, Hl. apply (in_map fst) in E, Hl. cbn [fst] in *.
      assert (In num (flat_map (map fst) os)).
      { apply in_flat_map. exists ms. split; [eapply nth_error_In; eauto|exact Hl]. }
      clear IH. revert Hd E. generalize (map fst ms') as l. induction l as [|a l IHl]; cbn; [tauto|].
      intros Hd [->|Hin]; inversion Hd as [|? ? Hni Hd']; subst; [apply Hni, in_or_app; auto|auto].
    + change (map (map (fun '(num0, t0) => (num0, t0, deserialize fuel t0))) os) with (dotab fuel os).
      erewrite IH; eauto; [now replace (S pos + j)%nat with (pos + S j)%nat by lia|].
      clear -Hd. revert Hd. generalize (map fst ms') as l. induction l as [|a l IHl]; cbn; auto.
      intros Hd. inversion Hd; auto.
Qed.

Lemma lookup_None {A} (ms : list (Z * A)) id : ~ In id (map fst ms) -> lookup ms id = None.
Proof.
  induction ms as [|[n x] ms IH]; cbn [map fst In lookup]; intros H; [reflexivity|].
  destruct (Z.eqb_spec n id); [tauto|]. apply IH. tauto.
Qed.

Lemma find_oneof_none fuel os : forall pos num, ~ In num (flat_map (map fst) os) -> find_oneof (dotab fuel os) pos num = None.
Proof.
  induction os as [|ms os IH]; intros pos num Hn; cbn [dotab map find_oneof]; [reflexivity|].
  cbn [flat_map] in Hn. rewrite in_app_iff in Hn. rewrite find_member_map, lookup_None by tauto. apply IH. tauto.
Qed.

Lemma find_oneof_inv fuel os : forall pos id p dms, find_oneof (dotab fuel os) pos id = Some (p, dms) ->
  exists j ms t, p = (pos + j)%nat /\ nth_error os j = Some ms /\ lookup ms id = Some t
              /\ dms = map (fun '(n, t) => (n, t, deserialize fuel t)) ms.
Proof.
  induction os as [|ms os IH]; intros pos id p dms; cbn [dotab map find_oneof]; [discriminate|].
  rewrite find_member_map. destruct (lookup ms id) as [t|] eqn:E.
  - intros [= <- <-]. exists 0%nat, ms, t. rewrite Nat.add_0_r. auto.
  - intros H. destruct (IH _ _ _ _ H) as (j & ms' & t & -> & Hj & Hl & ->). exists (S j), ms', t. repeat split; auto; lia.
Qed.

(** *** Default objects *)

Lemma all_repeat {A} (P : A -> Prop) x n : P x -> all P (repeat x n).
Proof. intros H. induction n; cbn; auto. Qed.

Lemma map_repeat' {A B} (f : A -> B) x n : map f (repeat x n) = repeat (f x) n.
Proof. induction n; cbn; congruence. Qed.

Lemma default_ok t : desc_ok t ->
  wt t (default_value t) /\ clean t (default_value t) /\ view t (default_value t) = sdefault t.
Proof.
  induction t as [sc|st max|fs os Hf Ho] using ety_ind'; intros Hd.
  - cbn. split; [destruct sc; cbn; lia|auto].
  - cbn in *. unfold capacity_ok in Hd. split; [|auto]. repeat split; try lia.
    + apply zlen_zrepeat. lia.
    + apply all_repeat. unfold is_byte. lia.
  - cbn [desc_ok] in Hd. destruct Hd as (_ & Hr & Hd & _). cbn [default_value wt clean view sdefault].
    set (pres := zrepeat 0 (presence_size (n_optional fs))).
    assert (Hps : 0 <= presence_size (n_optional fs)).
    { unfold presence_size. pose proof (n_optional_nonneg fs). destruct (Z.ltb_spec 0 (n_optional fs mod 32)); lia. }
    assert (Hp : forall i, present pres i = false) by (intros; apply present_zrepeat).
    assert (H0 : Forall (fun ms : odesc => lookup ms 0 = None) os).
    { apply all_Forall in Hr. unfold field_numbers in Hr. apply Forall_app in Hr. destruct Hr as [_ Hr].
      clear -Hr. induction os as [|ms os IH]; constructor; cbn [flat_map] in Hr; apply Forall_app in Hr; destruct Hr as [H1 H2].
      - apply lookup_None. intros Hin. eapply Forall_forall in H1; [|exact Hin]. cbn in H1. lia.
      - now apply IH. }
    split; [split; [apply zlen_zrepeat; exact Hps|split; [apply all_repeat; unfold is_u32; lia|split]]|split; [split|]].
    + clear pres Hp Hps Ho Hr H0 os. induction Hf as [|[[num k] t] fs Ht Hf IH]; cbn [map all2]; [auto|].
      cbn [all] in Hd. destruct Hd as [[Hd1 Hk] Hd]. split; [|auto]. cbn [snd] in Ht. destruct (Ht Hd1) as (Hw & _).
      destruct k; cbn [default_field_of wt_field]; auto. unfold capacity_ok in Hk.
      split; [lia|]. split; [apply zlen_zrepeat; lia|now apply all_repeat].
    + clear -H0. induction H0 as [|ms os H H0 IH]; cbn [map all2]; auto. split; [|exact IH]. unfold wt_oneof. cbn [fst].
      rewrite lookup_map, H. reflexivity.
    + clear Hr H0 Ho. generalize 0 as i. clearbody pres. clear Hps. induction Hf as [|[[num k] t] fs Ht Hf IH]; intros i; cbn [map clean_fields]; [auto|].
      cbn [all] in Hd. destruct Hd as [[Hd1 Hk] Hd]. split; [|auto]. cbn [snd] in Ht. destruct (Ht Hd1) as (Hw & Hc & Hv).
      destruct k; cbn [default_field_of clean_field]; auto. destruct t as [sc|st max'|fs' os']; auto.
      rewrite skipn_O. apply all_repeat. auto.
    + clear -H0. induction H0 as [|ms os H H0 IH]; cbn [map all2]; auto. split; [|exact IH]. unfold clean_oneof. cbn [fst].
      rewrite lookup_map, H. exact I.
    + f_equal.
      * clear Hr H0 Ho. generalize 0 as i. clearbody pres. clear Hps. induction Hf as [|[[num k] t] fs Ht Hf IH]; intros i; cbn [map view_fields]; [auto|].
        cbn [all] in Hd. destruct Hd as [[Hd1 Hk] Hd]. f_equal; [|auto]. cbn [snd] in Ht. destruct (Ht Hd1) as (Hw & Hc & Hv).
        destruct k; cbn [default_field_of view_field sdefault_field]; auto. now rewrite Hp.
      * clear -H0. induction H0 as [|ms os H H0 IH]; cbn [map view_oneofs]; auto. f_equal; [|exact IH]. unfold view_oneof. cbn [fst].
        rewrite lookup_map, H. reflexivity.
Qed.

Lemma clean_tab fs os pres vs ovs : clean (EMsg fs os) (VM pres vs ovs)
  = (clean_fields (ctab fs) 0 pres vs
     /\ all2 (fun ms => clean_oneof (map (fun '(num, t) => (num, clean t)) ms)) os ovs).
Proof. reflexivity. Qed.
Lemma view_tab fs os pres vs ovs : view (EMsg fs os) (VM pres vs ovs)
  = SvM (view_fields (vtab fs) 0 pres vs) (view_oneofs (votab os) ovs).
Proof. reflexivity. Qed.

(** *** Oneofs *)
Lemma view_oneofs_nth os : forall ovs j ms o, nth_error os j = Some ms -> nth_error (view_oneofs (votab os) ovs) j = Some o ->
  exists x, nth_error ovs j = Some x /\ o = view_oneof (map (fun '(num, t) => (num, view t)) ms) x.
Proof.
  induction os as [|ms' os IH]; intros ovs [|j] ms o Hs Ho; cbn [nth_error] in Hs; try discriminate;
    destruct ovs as [|x ovs]; try discriminate; cbn [votab map view_oneofs nth_error] in *.
  - injection Hs as ->. injection Ho as <-. eauto.
  - eapply IH; eauto.
Qed.

Lemma view_oneofs_upd os : forall ovs j ms x, nth_error os j = Some ms ->
  view_oneofs (votab os) (upd j x ovs)
  = upd j (view_oneof (map (fun '(num, t) => (num, view t)) ms) x) (view_oneofs (votab os) ovs).
Proof.
  induction os as [|ms' os IH]; intros ovs [|j] ms x Hs; cbn [nth_error] in Hs; try discriminate;
    destruct ovs as [|y ovs]; auto; cbn [votab map view_oneofs upd].
  - now injection Hs as ->.
  - f_equal. now apply IH.
Qed.
