(** A bound on the calls of push() that depends on how messages and lists are nested (C72). *)
From Verif Require Import Base Buffers Wire Schema Fields Message Spec Contracts BitLemmas WriteProofs
  ReadProofs ScalarProofs BufferProofs Struct SerProofs SerProps SpecWork Metered MeteredProofs MeteredProps.
From Coq Require Import ZifyBool ZifyNat ZifyN.
Ltac Zify.zify_post_hook ::= Z.div_mod_to_equations.

Definition paced (t : ety) : Prop := match t with EBytes _ _ => True | _ => forall x, work t x <= passes t * zlen (enc t x) end.
Lemma passes_pos t : 1 <= passes t.
Proof. destruct t; cbn [passes]; lia. Qed.

Lemma again_le p : again p 1 <= zlen p.
Proof. destruct p; cbn [again]; [cbn; lia|rewrite zlen_cons; pose proof (zlen_nonneg p); lia]. Qed.

Lemma paced_elem num t x C k : match k with KRep _ => False | _ => True end -> paced t -> 1 <= C -> passes_field k t (passes t) <= C ->
  work_elem num t (enc t x) (work t x) <= C * zlen (enc_elem num t (enc t x)).
Proof.
  intros Hk Hb H1 HC. pose proof (passes_pos t) as Hp.
  destruct t as [sc|st max|fs os]; cbn [work_elem enc_elem].
  - rewrite zlen_app. pose proof (zlen_nonneg (tag num (scalar_wiretype sc))). pose proof (zlen_nonneg (enc (EScalar sc) x)). nia.
  - rewrite zlen_record. set (p := enc (EBytes st max) x). pose proof (header_pos num p). pose proof (zlen_nonneg p). pose proof (again_le p). nia.
  - rewrite zlen_record. set (t := EMsg fs os) in *. specialize (Hb x). change (work t x <= passes t * zlen (enc t x)) in Hb.
    assert (HC' : 2 * passes t <= C) by (destruct k; [exact HC|exact HC|destruct Hk|exact HC]).
    pose proof (header_pos num (enc t x)). pose proof (zlen_nonneg (enc t x)).
    pose proof (mul_mono (2 * passes t) (zlen (enc t x)) C). pose proof (mul_mono 1 (header num (enc t x)) C). 
    pose proof (work_nonneg t x). lia.
Qed.

Lemma paced_item num max t x C : paced t -> is_packed t = false -> passes_field (KRep max) t (passes t) <= C ->
  2 * work_item num (enc t) (work t) x <= C * zlen (enc_elem num t (enc t x)).
Proof.
  intros Hb Hp HC. pose proof (passes_pos t) as H1.
  unfold work_item. destruct t as [sc|st m|fs os]; [discriminate| |]; cbn [enc_elem passes_field] in *; rewrite zlen_record.
  - cbn [work]. set (p := enc (EBytes st m) x). pose proof (header_pos num p). pose proof (zlen_nonneg p).
    assert (again p 1 <= 1 /\ (again p 1 <= zlen p)) by (split; [destruct p; cbn [again]; lia|apply again_le]). nia.
  - set (t := EMsg fs os) in *. specialize (Hb x). change (work t x <= passes t * zlen (enc t x)) in Hb.
    pose proof (header_pos num (enc t x)). pose proof (zlen_nonneg (enc t x)).
    pose proof (mul_mono (4 * passes t) (zlen (enc t x)) C). pose proof (mul_mono 2 (header num (enc t x)) C).
    assert (again (enc t x) (work t x) <= work t x) by (pose proof (work_nonneg t x); destruct (enc t x); cbn [again]; lia). lia.
Qed.

Lemma paced_field num k t v C : paced t -> 1 <= C -> passes_field k t (passes t) <= C ->
  work_field num k t (enc t) (work t) v <= C * zlen (enc_field num k t (enc t) v).
Proof.
  intros Hb H1 HC.
  assert (H0 : forall l : list Z, 0 <= C * zlen l) by (intros l; pose proof (zlen_nonneg l); nia).
  assert (He : match k with KRep _ => False | _ => True end -> forall x, work_elem num t (enc t x) (work t x) <= C * zlen (enc_elem num t (enc t x)))
    by (intros Hk x; eapply paced_elem; eassumption).
  assert (Hm : forall x, is_packed t = true \/ (match t with EMsg _ _ => True | _ => False end) -> enc t x = [] -> work t x <= 0).
  { intros x Ht E. destruct t as [sc|st max|fs os]; [|destruct Ht; [discriminate|tauto]|]; specialize (Hb x); rewrite E in Hb; change (zlen []) with 0 in Hb; lia. }
  destruct k; cbn [work_field enc_field]; try (apply H0).
  - specialize (He I). destruct t as [sc|st max|fs os].
    + assert (G : match enc (EScalar sc) v with [] => work (EScalar sc) v | _ => work_elem num (EScalar sc) (enc (EScalar sc) v) (work (EScalar sc) v) end
        <= C * zlen (match enc (EScalar sc) v with [] => [] | p => enc_elem num (EScalar sc) p end)).
      { specialize (Hm v (or_introl eq_refl)). specialize (He v). destruct (enc (EScalar sc) v); [change (zlen []) with 0; specialize (Hm eq_refl); lia|exact He]. }
      destruct v; try exact G. destruct (is_zero sc z); [apply H0|apply He].
    + assert (G : again (enc (EBytes st max) v) (work_elem num (EBytes st max) (enc (EBytes st max) v) (work (EBytes st max) v))
        <= C * zlen (match enc (EBytes st max) v with [] => [] | p => enc_elem num (EBytes st max) p end)).
      { specialize (He v). destruct (enc (EBytes st max) v); cbn [again]; [apply (H0 [])|exact He]. }
      destruct v; exact G.
    + assert (G : match enc (EMsg fs os) v with [] => work (EMsg fs os) v | _ => work_elem num (EMsg fs os) (enc (EMsg fs os) v) (work (EMsg fs os) v) end
        <= C * zlen (match enc (EMsg fs os) v with [] => [] | p => enc_elem num (EMsg fs os) p end)).
      { specialize (Hm v (or_intror I)). specialize (He v). destruct (enc (EMsg fs os) v); [change (zlen []) with 0; specialize (Hm eq_refl); lia|exact He]. }
      destruct v; exact G.
  - destruct v; try apply (H0 []). apply He. exact I.
  - destruct v; try apply (H0 []). destruct t as [sc|st m|fs os].
    + cbv zeta. set (p := flat_map (enc (EScalar sc)) elems). destruct elems as [|y l] eqn:El; [subst p; cbn; lia|].
      rewrite zlen_record. fold p. pose proof (header_pos num p). pose proof (zlen_nonneg p). cbn [passes_field] in HC.
      assert (again p (header num p + zlen p) <= header num p + zlen p) by (destruct p; cbn [again]; lia). nia.
    + assert (Hi : forall x, 2 * work_item num (enc (EBytes st m)) (work (EBytes st m)) x <= C * zlen (enc_elem num (EBytes st m) (enc (EBytes st m) x)))
        by (intros x; eapply paced_item; [exact Hb|reflexivity|exact HC]).
      clear He Hm Hb HC. induction elems as [|y l IH]; [cbn; lia|]. cbn [map zsum fold_right flat_map]. rewrite zlen_app. specialize (Hi y). unfold zsum in IH. lia.
    + assert (Hi : forall x, 2 * work_item num (enc (EMsg fs os)) (work (EMsg fs os)) x <= C * zlen (enc_elem num (EMsg fs os) (enc (EMsg fs os) x)))
        by (intros x; eapply paced_item; [exact Hb|reflexivity|exact HC]).
      clear He Hm Hb HC. induction elems as [|y l IH]; [cbn; lia|]. cbn [map zsum fold_right flat_map]. rewrite zlen_app. specialize (Hi y). unfold zsum in IH. lia.
Qed.

Lemma paced_all t : paced t.
Proof.
  induction t as [sc|st max|fs os Hf Ho] using ety_ind'; [|exact I|].
  - intros x. cbn [work passes]. lia.
  - intros x. pose proof (passes_pos (EMsg fs os)) as H1. set (C := passes (EMsg fs os)) in *. cbn [work enc]. pose proof (zlen_nonneg (enc (EMsg fs os) x)) as Hz.
    assert (H0 : forall l : list Z, 0 <= C * zlen l) by (intros l; pose proof (zlen_nonneg l); nia).
    destruct x; try (apply (H0 [])). rewrite zlen_app, Z.mul_add_distr_l. apply Z.add_le_mono.
    + assert (Hc : Forall (fun f : fdesc => paced (snd f) /\ passes_field (snd (fst f)) (snd f) (passes (snd f)) <= C) fs).
      { apply Forall_forall. intros f Hin. split; [eapply Forall_forall in Hf; [exact Hf|exact Hin]|].
        unfold C. cbn [passes]. pose proof (fold_max_In (fun f : fdesc => passes_field (snd (fst f)) (snd f) (passes (snd f))) f fs Hin) as H. cbv beta in H. lia. }
      clearbody C. clear Hf Ho Hz. revert fields. induction Hc as [|[[num k] t] fs (H2 & H3) Hc IH]; intros vs; cbn [map work_fields enc_fields]; [apply (H0 [])|].
      destruct vs as [|v vs]; [apply (H0 [])|]. rewrite zlen_app, Z.mul_add_distr_l. specialize (IH vs). pose proof (paced_field num k t v C H2 H1 H3). lia.
    + assert (Hc : Forall (Forall (fun m : Z * ety => paced (snd m) /\ passes_field KPlain (snd m) (passes (snd m)) <= C)) os).
      { apply Forall_forall. intros ms Hms. apply Forall_forall. intros m Hin. eapply Forall_forall in Ho; [|exact Hms]. eapply Forall_forall in Ho; [|exact Hin].
        split; [exact Ho|]. unfold C. cbn [passes]. pose proof (fold_max_In (fun m : Z * ety => passes_field KPlain (snd m) (passes (snd m))) m ms Hin) as H2.
        pose proof (fold_max_In (fun ms : odesc => fold_right Z.max 0 (map (fun m : Z * ety => passes_field KPlain (snd m) (passes (snd m))) ms)) ms os Hms) as H3. cbv beta in *. lia. }
      clearbody C. clear Hf Ho Hz. revert oneofs. induction Hc as [|ms os Hm Hc IH]; intros vs; cbn [map work_oneofs enc_oneofs]; [apply (H0 [])|].
      destruct vs as [|[w v] vs]; [apply (H0 [])|]. rewrite zlen_app, Z.mul_add_distr_l. specialize (IH vs). apply Z.add_le_mono; [|exact IH].
      unfold work_oneof, enc_oneof. cbn [fst snd]. rewrite (lookup_map (fun t => (t, enc t, work t))), (lookup_map (fun t => (t, enc t))).
      destruct (lookup ms w) as [t|] eqn:E; [|apply (H0 [])]. apply lookup_In in E. eapply Forall_forall in Hm; [|exact E]. destruct Hm as (H2 & H3).
      destruct v; try apply (H0 []). apply (paced_elem w t v C KPlain I H2 H1 H3).
Qed.

Theorem work_passes : forall fs os x, work (EMsg fs os) x <= passes (EMsg fs os) * zlen (enc (EMsg fs os) x).
Proof. intros fs os x. exact (paced_all (EMsg fs os) x). Qed.

(** The calls that are made, for every buffer. *)
Theorem calls_passes : forall fs os v, let t := EMsg fs os in wt t v -> desc_ok t -> zlen (enc t (view t v)) < 2 ^ 32 ->
  forall S (W : wops S) s e s' k, metered_serialize t v S W (s, 0) = Done (e, (s', k)) -> k <= passes t * zlen (enc t (view t v)).
Proof.
  intros fs os v t Hw Hd Hl S W s e s' k E. pose proof (serialize_count t v Hw Hd Hl S W s) as H. rewrite E in H. destruct H as (_ & H & _).
  pose proof (work_passes fs os (view t v)) as H'. fold t in H'. lia.
Qed.
