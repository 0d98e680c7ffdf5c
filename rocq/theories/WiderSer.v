(** A class with room for more encodes the same (C90). *)
From Verif Require Import Base BitLemmas Buffers Wire Schema Fields Message Spec Struct SerProofs Contracts SpecWider WiderProofs.
Require Import Lia.

Lemma calc_takes : takes_only calc_ops.
Proof. intros s a b n _ _ _ _. reflexivity. Qed.

Lemma wfix_takes cap : takes_only (wfix_ops cap).
Proof.
  intros s a b n H0 Ha Hb E. cbn [wfix_ops w_pushn]. unfold wfix_pushn. destruct (_ <? cap); [|reflexivity].
  unfold memcpy. rewrite E. replace (n <=? zlen a) with true by (symmetry; now apply Z.leb_le).
  now replace (n <=? zlen b) with true by (symmetry; now apply Z.leb_le).
Qed.

(** Both objects show the same: the same is written. *)
Definition ser_same (t t' : ety) (v v' : value) : Prop :=
  forall S (W : wops S) s, takes_only W -> serialize t v S W s = serialize t' v' S W s.

Lemma size_same t t' v v' : ser_same t t' v v' -> serialized_size (serialize t v) = serialized_size (serialize t' v').
Proof. intros H. unfold serialized_size. now rewrite (H _ _ _ calc_takes). Qed.

Lemma firstn_zlen_eq {A} (a b : list A) m n : 0 <= m <= zlen a -> 0 <= n <= zlen b ->
  firstn (Z.to_nat m) a = firstn (Z.to_nat n) b -> m = n.
Proof.
  intros Hm Hn E. apply (f_equal (@List.length A)) in E. rewrite !firstn_length in E. unfold zlen in *. lia.
Qed.

Lemma bytes_same st max st' max' v v' : wt (EBytes st max) v -> wt (EBytes st' max') v' -> view (EBytes st max) v = view (EBytes st' max') v' ->
  exists n a b, v = VB n a /\ v' = VB n b /\ 0 <= n <= zlen a /\ n <= zlen b /\ firstn (Z.to_nat n) a = firstn (Z.to_nat n) b.
Proof.
  intros Hw Hw' E. destruct v as [| |n a| |]; cbn in Hw; try tauto. destruct v' as [| |m b| |]; cbn in Hw'; try tauto.
  cbn in E. injection E as E. assert (n = m) by (eapply firstn_zlen_eq; [..|exact E]; lia). subst m. exists n, a, b. repeat split; auto; lia.
Qed.

Lemma bytes_ser_same n a b {S} (W : wops S) s : takes_only W -> 0 <= n <= zlen a -> n <= zlen b -> firstn (Z.to_nat n) a = firstn (Z.to_nat n) b ->
  bytes_serialize (VB n a) S W s = bytes_serialize (VB n b) S W s.
Proof. intros Ht Ha Hb E. unfold bytes_serialize. now rewrite (Ht s a b n) by (try lia; auto). Qed.

Lemma elem_same t t' v v' num opt {S} (W : wops S) s : takes_only W -> wider t t' -> wt t v -> wt t' v' -> view t v = view t' v' -> ser_same t t' v v' ->
  elem_serialize_with_id t (serialize t) v num opt S W s = elem_serialize_with_id t' (serialize t') v' num opt S W s.
Proof.
  intros Ht Hd Hw Hw' E H. destruct t as [sc|st max|fs os], t' as [sc'|st' max'|fs' os']; try (cbn in Hd; tauto); cbn [elem_serialize_with_id].
  - cbn in Hd. subst sc'. destruct v, v'; cbn in Hw, Hw'; try tauto. cbn in E. injection E as ->. reflexivity.
  - destruct (bytes_same _ _ _ _ _ _ Hw Hw' E) as (n & a & b & -> & -> & Ha & Hb & Ef). unfold bytes_serialize_with_id.
    destruct (_ || _); [|reflexivity]. destruct (_ <=? _); [|reflexivity].
    destruct (SerializeVarint W (MakeTag num LENDEL) s) as [[e s1]| |]; cbn [bind]; try reflexivity.
    destruct (if is_ok e then _ else _) as [[e2 s2]| |]; cbn [bind]; try reflexivity.
    destruct (_ && _); [|reflexivity]. now apply bytes_ser_same.
  - rewrite (size_same _ _ _ _ H). destruct (serialized_size _) as [z| |]; cbn [bind]; try reflexivity.
    destruct (_ || _); [|reflexivity].
    destruct (SerializeVarint W (MakeTag num LENDEL) s) as [[e s1]| |]; cbn [bind]; try reflexivity. destruct (is_ok e); [|reflexivity].
    destruct (SerializeVarint W z s1) as [[e2 s2]| |]; cbn [bind]; try reflexivity. destruct (is_ok e2); [|reflexivity].
    destruct (_ <=? _); [|reflexivity]. now apply H.
Qed.

(** Elements: the first [n] of the two arrays are pairwise the same. *)
Definition elems_same (t t' : ety) (n : Z) (a b : list value) : Prop :=
  forall i, 0 <= i < n -> exists x y, rep_get_const a i = Done x /\ rep_get_const b i = Done y /\ ser_same t t' x y.

Lemma packed_same t t' m a b {S} (W : wops S) : takes_only W -> elems_same t t' m a b ->
  forall n i s, 0 <= i -> i + Z.of_nat n <= m ->
  rep_serialize_packed (serialize t) n i a W s = rep_serialize_packed (serialize t') n i b W s.
Proof.
  intros Ht H. induction n as [|n IH]; intros i s Hi Hm; cbn [rep_serialize_packed]; [reflexivity|].
  destruct (H i ltac:(lia)) as (x & y & -> & -> & Hs). cbn [bind]. rewrite (Hs _ _ _ Ht).
  destruct (serialize t' y S W s) as [[e s1]| |]; cbn [bind]; try reflexivity. destruct (is_ok e); [|reflexivity]. apply IH; lia.
Qed.

Lemma unpacked_same t t' m a b num {S} (W : wops S) : takes_only W -> elems_same t t' m a b ->
  forall n i s, 0 <= i -> i + Z.of_nat n <= m ->
  rep_serialize_unpacked (serialize t) num n i a W s = rep_serialize_unpacked (serialize t') num n i b W s.
Proof.
  intros Ht H. induction n as [|n IH]; intros i s Hi Hm; cbn [rep_serialize_unpacked]; [reflexivity|].
  destruct (H i ltac:(lia)) as (x & y & -> & -> & Hs). cbn [bind]. rewrite (size_same _ _ _ _ Hs).
  destruct (serialized_size _) as [z| |]; cbn [bind]; try reflexivity.
  destruct (SerializeVarint W (MakeTag num LENDEL) s) as [[e s1]| |]; cbn [bind]; try reflexivity.
  assert (E : (if is_ok e then let* (e0, s2) := SerializeVarint W z s1 in
                 if is_ok e0 && (0 <? z) then serialize t x S W s2 else Done (e0, s2) else Done (e, s1))
            = (if is_ok e then let* (e0, s2) := SerializeVarint W z s1 in
                 if is_ok e0 && (0 <? z) then serialize t' y S W s2 else Done (e0, s2) else Done (e, s1))).
  { destruct (is_ok e); [|reflexivity]. destruct (SerializeVarint W z s1) as [[e2 s2]| |]; cbn [bind]; try reflexivity.
    destruct (_ && _); [|reflexivity]. now apply Hs. }
  rewrite E. clear E. match goal with |- bind ?x _ = _ => destruct x as [[e2 s2]| |]; cbn [bind]; try reflexivity end. destruct (is_ok e2); [|reflexivity]. apply IH; lia.
Qed.

Lemma rep_const_in (data : list value) i : 0 <= i < zlen data -> zlen data < 2 ^ 31 -> rep_get_const data i = aget data i.
Proof. intros Hi Hz. unfold rep_get_const. rewrite u32_small by lia. now rewrite Z.min_l by lia. Qed.

Lemma elems_are_same t t' n a b : 0 <= n <= zlen a -> n <= zlen b -> zlen a < 2 ^ 31 -> zlen b < 2 ^ 31 ->
  all (wt t) a -> all (wt t') b ->
  (forall v v', wt t v -> wt t' v' -> view t v = view t' v' -> ser_same t t' v v') ->
  map (view t) (firstn (Z.to_nat n) a) = map (view t') (firstn (Z.to_nat n) b) -> elems_same t t' n a b.
Proof.
  intros Hn Hb Hza Hzb Hwa Hwb IH E i Hi.
  rewrite !rep_const_in by lia.
  destruct (aget_ok a i ltac:(lia)) as (x & Ex & Nx). destruct (aget_ok b i ltac:(lia)) as (y & Ey & Ny).
  exists x, y. split; [exact Ex|]. split; [exact Ey|]. apply IH.
  - apply all_Forall in Hwa. eapply Forall_forall; [exact Hwa|]. eapply nth_error_In; eauto.
  - apply all_Forall in Hwb. eapply Forall_forall; [exact Hwb|]. eapply nth_error_In; eauto.
  - apply (f_equal (fun l => nth_error l (Z.to_nat i))) in E. rewrite !nth_error_map in E.
    assert (Hf : forall A (l : list A) k j, (j < k)%nat -> nth_error (firstn k l) j = nth_error l j).
    { clear. intros A l k. revert l. induction k as [|k IHk]; intros [|z l] [|j] Hj; cbn; try lia; auto. apply IHk. lia. }
    rewrite !Hf in E by lia. rewrite Nx, Ny in E. cbn in E. congruence.
Qed.

Lemma rep_same t t' v v' max max' num opt {S} (W : wops S) s : takes_only W -> wider t t' -> capacity_ok max -> capacity_ok max' ->
  wt_field (KRep max) (wt t) v -> wt_field (KRep max') (wt t') v' ->
  (forall x y, wt t x -> wt t' y -> view t x = view t' y -> ser_same t t' x y) ->
  view_field (KRep max) (view t) 0 [] v = view_field (KRep max') (view t') 0 [] v' ->
  rep_serialize_with_id t (serialize t) v num opt S W s = rep_serialize_with_id t' (serialize t') v' num opt S W s.
Proof.
  unfold capacity_ok. intros Ht Hd Hc Hc' Hw Hw' IH E. destruct v as [| | |n a|]; cbn in Hw; try tauto. destruct v' as [| | |m b|]; cbn in Hw'; try tauto.
  cbn in E. injection E as E. assert (n = m).
  { apply (f_equal (@List.length _)) in E. rewrite !map_length, !firstn_length in E. unfold zlen in *. lia. }
  subst m. pose proof (elems_are_same t t' n a b ltac:(lia) ltac:(lia) ltac:(lia) ltac:(lia) (proj2 (proj2 Hw)) (proj2 (proj2 Hw')) IH E) as H.
  unfold rep_serialize_with_id. rewrite <- (wider_packed _ _ Hd). destruct (is_packed t).
  - unfold serialized_size. rewrite (packed_same t t' n a b calc_ops calc_takes H _ 0 0) by lia.
    destruct (rep_serialize_packed (serialize t') (Z.to_nat n) 0 b calc_ops 0) as [[e0 z]| |]; cbn [bind]; try reflexivity.
    destruct (_ || _); [|reflexivity].
    destruct (SerializeVarint W (MakeTag num LENDEL) s) as [[e s1]| |]; cbn [bind]; try reflexivity. destruct (is_ok e); [|reflexivity].
    destruct (SerializeVarint W z s1) as [[e2 s2]| |]; cbn [bind]; try reflexivity. destruct (is_ok e2); [|reflexivity].
    destruct (_ <=? _); [|reflexivity]. apply (packed_same t t' n); auto; lia.
  - unfold serialized_size. rewrite (unpacked_same t t' n a b num calc_ops calc_takes H _ 0 0) by lia.
    destruct (rep_serialize_unpacked (serialize t') num (Z.to_nat n) 0 b calc_ops 0) as [[e0 z]| |]; cbn [bind]; try reflexivity.
    destruct (_ <=? _); [|reflexivity]. apply (unpacked_same t t' n); auto; lia.
Qed.

Lemma field_same num k k' t t' v v' oi pres pres' n {S} (W : wops S) s : takes_only W -> wider t t' -> wider_kind k k' ->
  match k with KRep max => capacity_ok max | _ => True end -> match k' with KRep max => capacity_ok max | _ => True end ->
  wt_field k (wt t) v -> wt_field k' (wt t') v' ->
  zlen pres = presence_size n -> zlen pres' = presence_size n -> (k = KOpt -> 0 <= oi < n) ->
  (forall x y, wt t x -> wt t' y -> view t x = view t' y -> ser_same t t' x y) ->
  view_field k (view t) oi pres v = view_field k' (view t') oi pres' v' ->
  field_serialize (num, k, t, serialize t) oi pres v S W s = field_serialize (num, k', t', serialize t') oi pres' v' S W s.
Proof.
  intros Ht Hd Hk Hc Hc' Hw Hw' Hp Hp' Hoi IH E.
  destruct k as [| |max|], k' as [| |max'|]; cbn in Hk; try tauto; cbn [field_serialize].
  - cbn [wt_field view_field] in *. pose proof (elem_same t t' v v' num false W s Ht Hd Hw Hw' E (IH _ _ Hw Hw' E)) as Hs.
    destruct t as [sc|st max|fs os], t' as [sc'|st' max'|fs' os']; try (cbn in Hd; tauto); try exact Hs.
    cbn in Hd. subst sc'. destruct v, v'; cbn in Hw, Hw'; try tauto. cbn in E. injection E as ->. destruct (scalar_differs_from_default sc z0); [exact Hs|reflexivity].
  - cbn [wt_field view_field] in *. specialize (Hoi eq_refl). rewrite (presence_has_ok pres oi n), (presence_has_ok pres' oi n) by auto. cbn [bind].
    destruct (present pres oi), (present pres' oi); try discriminate; [|reflexivity]. injection E as E. apply elem_same; auto.
  - now apply (rep_same t t' v v' max max').
Qed.

Lemma serialize_same t : forall t' v v', desc_ok t -> desc_ok t' -> wider t t' -> wt t v -> wt t' v' -> view t v = view t' v' -> ser_same t t' v v'.
Proof.
  induction t as [sc|st max|fs os Hf Ho] using ety_ind'; intros t' v v' Hok Hok' Hd Hw Hw' E S W s Ht;
    destruct t' as [sc'|st' max'|fs' os']; try (cbn in Hd; tauto); cbn [serialize].
  - cbn in Hd. subst sc'. destruct v, v'; cbn in Hw, Hw'; try tauto. cbn in E. injection E as ->. reflexivity.
  - destruct (bytes_same _ _ _ _ _ _ Hw Hw' E) as (n & a & b & -> & -> & Ha & Hb & Ef). now apply bytes_ser_same.
  - destruct v as [| | | |pres vs ovs]; cbn [wt] in Hw; try tauto. destruct v' as [| | | |pres' vs' ovs']; cbn [wt] in Hw'; try tauto.
    cbn [view] in E. injection E as Ef Eo. destruct Hd as (Hdf & Hdo). destruct Hw as (Hp & _ & Hwf & Hwo). destruct Hw' as (Hp' & _ & Hwf' & Hwo').
    destruct Hok as (_ & _ & Hkf & Hko). destruct Hok' as (_ & _ & Hkf' & Hko'). unfold msg_serialize.
    assert (En : n_optional fs = n_optional fs').
    { clear - Hdf. revert fs' Hdf. induction fs as [|[[n k] t] fs IH]; intros [|[[n' k'] t'] fs'] H; cbn in H; try tauto; try reflexivity.
      destruct H as ((_ & Hk & _) & H). rewrite !n_optional_cons, (IH _ H). destruct k, k'; cbn in *; try tauto; reflexivity. }
    rewrite <- En in Hp'.
    assert (F : forall fs fs' vs vs' oi s, Forall (fun f : fdesc => forall t' v v', desc_ok (snd f) -> desc_ok t' -> wider (snd f) t' -> wt (snd f) v -> wt t' v' ->
                   view (snd f) v = view t' v' -> ser_same (snd f) t' v v') fs ->
        all2 (fun '(num, k, t) '(num', k', t') => num = num' /\ wider_kind k k' /\ wider t t') fs fs' ->
        all2 (fun '(_, k, t) => wt_field k (wt t)) fs vs -> all2 (fun '(_, k, t) => wt_field k (wt t)) fs' vs' ->
        all (fun '(_, k, t) => desc_ok t /\ match k with KRep max => capacity_ok max | _ => True end) fs ->
        all (fun '(_, k, t) => desc_ok t /\ match k with KRep max => capacity_ok max | _ => True end) fs' ->
        0 <= oi -> forall n, zlen pres = presence_size n -> zlen pres' = presence_size n -> oi + n_optional fs <= n ->
        view_fields (map (fun '(_, k, t) => (k, view t)) fs) oi pres vs = view_fields (map (fun '(_, k, t) => (k, view t)) fs') oi pres' vs' ->
        fields_serialize (map (fun '(num, k, t) => (num, k, t, serialize t)) fs) oi pres vs W s
        = fields_serialize (map (fun '(num, k, t) => (num, k, t, serialize t)) fs') oi pres' vs' W s).
    { clear - Ht. induction fs as [|[[n k] t] fs IH]; intros [|[[n' k'] t'] fs'] vs vs' oi s HI Hd Hw Hw' Ho Ho' Hoi m Hp Hp' Hm E;
        cbn in Hd; try tauto; destruct vs as [|v vs], vs' as [|v' vs']; cbn in Hw, Hw'; try tauto; try reflexivity.
      destruct Hd as ((<- & Hk & Hd) & Hds). cbn [map view_fields] in E. injection E as E1 E2. inversion HI as [|? ? H1 H2]; subst. cbn [snd] in H1.
      cbn [all] in Ho, Ho'. rewrite n_optional_cons in Hm. pose proof (n_optional_nonneg fs) as Hpos. pose proof (succ_opt_range k) as Hr.
      cbn [map fields_serialize].
      assert (F : field_serialize (n, k, t, serialize t) oi pres v S W s = field_serialize (n, k', t', serialize t') oi pres' v' S W s).
      { apply field_same with (n := m); try tauto. - intros ->. cbn [succ_opt] in Hm. lia. - intros x y Hx Hy Exy. apply H1; tauto. }
      rewrite F. destruct (field_serialize (n, k', t', serialize t') oi pres' v' S W s) as [[e s1]| |]; cbn [bind]; try reflexivity.
      destruct (is_ok e); [|reflexivity].
      assert (Eo : next_opt k' oi = next_opt k oi) by (destruct k, k'; cbn in *; try tauto; reflexivity). rewrite Eo.
      assert (Es : succ_opt k' oi = succ_opt k oi) by (destruct k, k'; cbn in *; try tauto; reflexivity). rewrite Es in E2.
      rewrite (next_opt_succ k oi). pose proof (succ_opt_add k oi).
      apply IH with (n := m); try tauto; lia. }
    rewrite (F fs fs' vs vs' 0 s Hf Hdf Hwf Hwf' Hkf Hkf' ltac:(lia) _ Hp Hp' ltac:(lia) Ef). clear F Hf Hdf Hwf Hwf' Hkf Hkf' Ef En Hp Hp'.
    destruct (fields_serialize _ 0 pres' vs' W s) as [[e s1]| |]; cbn [bind]; try reflexivity. destruct (is_ok e); [|reflexivity].
    clear - Ho Hdo Hwo Hwo' Hko Hko' Eo Ht. revert os' ovs ovs' s1 Hdo Hwo Hwo' Hko' Eo.
    induction os as [|ms os IH]; intros [|ms' os'] [|[w v] ovs] [|[w' v'] ovs'] s1 Hd Hw Hw' Hk' E; cbn in Hd, Hw, Hw'; try tauto; try reflexivity.
    cbn [map view_oneofs] in E. injection E as E1 E2. inversion Ho as [|? ? H1 H2]; subst. cbn [all] in Hko, Hk'.
    cbn [map oneofs_serialize]. rewrite !find_member_map.
    destruct Hd as (Hm & Hd). destruct Hw as (Hw & Hws). destruct Hw' as (Hw' & Hws').
    unfold view_oneof in E1. cbn [fst snd] in E1. rewrite !lookup_map in E1. unfold wt_oneof in Hw, Hw'. cbn [fst snd] in Hw, Hw'. rewrite lookup_map in Hw, Hw'.
    assert (F : match match lookup ms w with Some t => Some (t, serialize t) | None => None end with
                | Some (t, ser) => elem_serialize_with_id t ser v w true S W s1 | None => Done (NoErrors, s1) end
              = match match lookup ms' w' with Some t => Some (t, serialize t) | None => None end with
                | Some (t, ser) => elem_serialize_with_id t ser v' w' true S W s1 | None => Done (NoErrors, s1) end).
    { destruct (lookup ms w) as [t|] eqn:El.
      - destruct (wider_lookup _ _ _ _ Hm El) as (t' & El' & Ht').
        destruct (lookup ms' w') as [t2|] eqn:El2; [|discriminate]. injection E1 as -> E1. rewrite El' in El2. injection El2 as <-.
        apply elem_same; auto. apply lookup_In in El. pose proof El as Eld. eapply Forall_forall in H1; [|exact El]. apply H1; auto.
        + destruct Hko as (Hko & _). apply all_Forall in Hko. eapply Forall_forall in Hko; [|exact Eld]. exact Hko.
        + destruct Hk' as (Hk' & _). apply all_Forall in Hk'. apply lookup_In in El'. eapply Forall_forall in Hk'; [|exact El']. exact Hk'.
      - destruct (lookup ms' w') as [t2|] eqn:El2; [|reflexivity]. discriminate. }
    rewrite F. match goal with |- bind ?x _ = _ => destruct x as [[e1 s2]| |]; cbn [bind]; try reflexivity end.
    destruct (is_ok e1); [|reflexivity]. apply IH; tauto.
Qed.

Lemma wider_serialize : forall fs os fs' os' v v', let t := EMsg fs os in let t' := EMsg fs' os' in
  desc_ok t -> desc_ok t' -> wider t t' -> wt t v -> wt t' v' -> view t v = view t' v' ->
  serialized_size (serialize t v) = serialized_size (serialize t' v')
  /\ forall S (W : wops S) s, takes_only W -> serialize t v S W s = serialize t' v' S W s.
Proof.
  intros fs os fs' os' v v' t t' Hd Hd' Hwd Hw Hw' E. pose proof (serialize_same t t' v v' Hd Hd' Hwd Hw Hw' E) as H.
  split; [now apply size_same|exact H].
Qed.

Lemma library_takes : takes_only calc_ops /\ forall cap, takes_only (wfix_ops cap).
Proof. split; [exact calc_takes|exact wfix_takes]. Qed.
