(** Proofs for C75: the largest encoding of a message type. *)
From Verif Require Import Base Buffers Wire Schema Fields Message Api Spec SpecApi SpecSize BitLemmas Struct Contracts SerProofs SerProps ReadProofs WireProps Tables BufferProofs RoundTrip DecodeProofs DecodeProps VersionProofs.
From Coq Require Import Lia ZifyBool ZifyNat ZifyN.
Ltac Zify.zify_post_hook ::= Z.div_mod_to_equations.

(* ------------------------------------------------------------------------------------------- *)
(** ** Lengths of varints *)

Lemma groups_mono k : forall a b, 0 <= a <= b -> zlen (varint_groups k a) <= zlen (varint_groups k b).
Proof.
  induction k as [|k IH]; intros a b H; cbn [varint_groups]; [lia|].
  destruct (Z.ltb_spec a 128), (Z.ltb_spec b 128); rewrite ?zlen_cons, ?zlen_nil; try lia.
  - pose proof (zlen_nonneg (varint_groups k (b / 128))). lia.
  - specialize (IH (a / 128) (b / 128) ltac:(lia)). lia.
Qed.

Lemma varint_mono a b : 0 <= a <= b -> zlen (varint a) <= zlen (varint b).
Proof. apply groups_mono. Qed.

Lemma le_len k : forall z, zlen (le k z) = Z.of_nat k.
Proof. induction k as [|k IH]; intros z; cbn [le]; [reflexivity|]. rewrite zlen_cons, IH. lia. Qed.

Lemma zigzag_range w z : 0 < w -> - 2 ^ (w - 1) <= z < 2 ^ (w - 1) -> 0 <= zigzag z <= 2 ^ w - 1.
Proof.
  intros Hw H. unfold zigzag. assert (E : 2 ^ w = 2 * 2 ^ (w - 1)) by (rewrite <- Z.pow_succ_r by lia; f_equal; lia).
  destruct (Z.leb_spec 0 z); lia.
Qed.

Lemma scalar_fits sc z : scalar_range sc z -> zlen (scalar_enc sc z) <= scalar_max sc.
Proof.
  assert (G : forall a b, 0 <= a <= b -> zlen (varint a) <= zlen (varint b)) by exact varint_mono.
  assert (G5 : zlen (varint (2 ^ 32 - 1)) = 5) by reflexivity. assert (G10 : zlen (varint (2 ^ 64 - 1)) = 10) by reflexivity.
  assert (H32 : forall z, 0 <= z mod 2 ^ 32 <= 2 ^ 32 - 1) by (intros y; pose proof (Z.mod_pos_bound y (2 ^ 32) ltac:(lia)); lia).
  assert (H64 : forall z, 0 <= z mod 2 ^ 64 <= 2 ^ 64 - 1) by (intros y; pose proof (Z.mod_pos_bound y (2 ^ 64) ltac:(lia)); lia).
  destruct sc; cbn [scalar_range scalar_enc scalar_max]; intros Hz; try (rewrite le_len; lia).
  - rewrite <- G5. apply G, H32.
  - rewrite <- G10. apply G, H64.
  - rewrite <- G5. apply G. lia.
  - rewrite <- G10. apply G. lia.
  - rewrite <- G5. apply G, (zigzag_range 32); lia.
  - rewrite <- G10. apply G, (zigzag_range 64); lia.
  - destruct Hz as [->| ->]; vm_compute; congruence.
  - rewrite <- G5. apply G, H32.
Qed.

(* ------------------------------------------------------------------------------------------- *)
(** ** The bound *)

Lemma enc_elem_fits num t p m : zlen p <= m -> zlen (enc_elem num t p) <= record_max num t m.
Proof.
  intros H. unfold enc_elem, record_max, delimited. pose proof (zlen_nonneg p) as Hp.
  pose proof (varint_mono (zlen p) m ltac:(lia)).
  destruct t; cbn [elem_wiretype]; rewrite ?zlen_app; lia.
Qed.

Lemma flat_map_fits {A B} (f : A -> list B) m : forall l, Forall (fun x => zlen (f x) <= m) l -> zlen (flat_map f l) <= zlen l * m.
Proof.
  induction 1 as [|x l H _ IH]; cbn [flat_map]; [now rewrite !zlen_nil|]. rewrite zlen_app, zlen_cons. nia.
Qed.

Lemma record_max_pos num t m : 0 <= m -> 1 <= record_max num t m.
Proof.
  intros H. unfold record_max. pose proof (zlen_varint_pos (num * 8 + wt_code (elem_wiretype t))) as Ht.
  unfold tag. pose proof (zlen_varint_pos m). destruct t; lia.
Qed.

Definition dfield (f : fdesc) : Prop := let '(_, k, t) := f in desc_ok t /\ match k with KRep max => capacity_ok max | _ => True end.

Definition bounded (t : ety) : Prop := desc_ok t -> 0 <= max_size t /\ forall v, wt t v -> zlen (enc t (view t v)) <= max_size t.

Lemma field_nonneg num k t : dfield (num, k, t) -> 0 <= max_size t -> 0 <= field_max num k t (max_size t).
Proof.
  intros [_ Hk] H. unfold field_max. pose proof (record_max_pos num t _ H). unfold capacity_ok in Hk.
  destruct k as [| |max|]; try lia; [destruct (_ =? _); lia|].
  destruct t; try nia. pose proof (zlen_nonneg (tag num LENDEL)). pose proof (zlen_nonneg (varint (max * max_size (EScalar sc)))). nia.
Qed.

Lemma field_fits num k t i pres v : bounded t -> dfield (num, k, t) -> wt_field k (wt t) v ->
  zlen (enc_field num k t (enc t) (view_field k (view t) i pres v)) <= field_max num k t (max_size t).
Proof.
  intros Hb Hd Hw. destruct (Hb (proj1 Hd)) as [H0 Hv]. pose proof (field_nonneg _ _ _ Hd H0) as Hn.
  destruct k as [| |max|]; cbn [wt_field] in Hw; cbn [view_field].
  - specialize (Hv v Hw). unfold enc_field, field_max in *.
    assert (G : forall p, zlen p <= max_size t -> zlen match p with [] => [] | b :: q => enc_elem num t (b :: q) end
              <= (if max_size t =? 0 then 0 else record_max num t (max_size t))).
    { intros p Hp. destruct p as [|b p']; [rewrite zlen_nil; lia|].
      destruct (Z.eqb_spec (max_size t) 0) as [E|E]; [rewrite E, zlen_cons in Hp; pose proof (zlen_nonneg p'); lia|].
      now apply enc_elem_fits. }
    destruct t as [sc|st max|fs os].
    + cbn [view enc] in *. destruct v; try contradiction. destruct (is_zero sc z); [rewrite zlen_nil; lia|].
      replace (max_size (EScalar sc) =? 0) with false by (destruct sc; reflexivity). now apply enc_elem_fits.
    + cbn [view enc] in *. destruct v; try contradiction. exact (G _ Hv).
    + cbn [view enc] in *. destruct v; try contradiction. exact (G _ Hv).
  - destruct (present pres i); [|exact Hn]. cbn [enc_field field_max]. apply enc_elem_fits, Hv, Hw.
  - destruct v as [| | |len data|]; try contradiction. destruct Hw as (Hl & Hz & Ha). rewrite all_Forall in Ha. destruct Hd as [_ Hc]. unfold capacity_ok in Hc.
    set (l := firstn (Z.to_nat len) data).
    assert (El : zlen l <= max) by (unfold l; rewrite zlen_firstn; lia).
    assert (Hf : Forall (fun x => zlen (enc t x) <= max_size t) (map (view t) l)).
    { apply Forall_map. unfold l. apply Forall_forall. intros x Hx. apply Hv. rewrite Forall_forall in Ha. apply Ha.
      rewrite <- (firstn_skipn (Z.to_nat len) data). apply in_or_app. now left. }
    pose proof (flat_map_fits _ _ _ Hf) as Hp. rewrite zlen_map in Hp.
    assert (Hm : zlen l * max_size t <= max * max_size t) by (apply Z.mul_le_mono_nonneg_r; lia).
    assert (Gu : zlen (flat_map (fun x => enc_elem num t (enc t x)) (map (view t) l)) <= max * record_max num t (max_size t)).
    { etransitivity; [apply (flat_map_fits _ (record_max num t (max_size t)))|].
      - eapply Forall_impl; [|exact Hf]. intros x Hx. now apply enc_elem_fits.
      - rewrite zlen_map. pose proof (record_max_pos num t _ H0). apply Z.mul_le_mono_nonneg_r; lia. }
    unfold enc_field, field_max in *. destruct t as [sc|st mx|fs os]; [|exact Gu|exact Gu].
    destruct (map (view (EScalar sc)) l) as [|x xs] eqn:E; [rewrite zlen_nil; exact Hn|]. unfold delimited.
    pose proof (varint_mono (zlen (flat_map (enc (EScalar sc)) (x :: xs))) (max * max_size (EScalar sc)) ltac:(pose proof (zlen_nonneg (flat_map (enc (EScalar sc)) (x :: xs))); lia)).
    rewrite !zlen_app. lia.
  - cbn. lia.
Qed.

Lemma fields_fit pres : forall fs vs i, Forall (fun f : fdesc => bounded (snd f)) fs -> Forall dfield fs ->
  all2 (fun '(_, k, t) => wt_field k (wt t)) fs vs ->
  zlen (enc_fields (map (fun '(num, k, t) => (num, k, t, enc t)) fs) (view_fields (map (fun '(_, k, t) => (k, view t)) fs) i pres vs))
  <= total (map (fun '(num, k, t) => field_max num k t (max_size t)) fs).
Proof.
  induction fs as [|[[num k] t] fs IH]; intros [|v vs] i Hb Hd Hw; cbn [all2] in Hw; try contradiction; cbn [map view_fields enc_fields total fold_right].
  - rewrite zlen_nil. lia.
  - inversion Hb as [|? ? Hb1 Hb2]; subst. inversion Hd as [|? ? Hd1 Hd2]; subst. destruct Hw as [Hw1 Hw2].
    rewrite zlen_app. pose proof (field_fits num k t i pres v Hb1 Hd1 Hw1). specialize (IH vs (succ_opt k i) Hb2 Hd2 Hw2).
    unfold total in IH. lia.
Qed.

Lemma lookup_enc id ms : lookup (map (fun '(num, t) => (num, (t, enc t))) ms) id = option_map (fun t => (t, enc t)) (lookup ms id).
Proof. exact (lookup_map (fun t => (t, enc t)) ms id). Qed.

Lemma largest_le l x : In x l -> x <= largest l.
Proof. induction l as [|y l IH]; [easy|]. cbn [largest fold_right]. intros [->|H]; [lia|]. specialize (IH H). unfold largest in IH. lia. Qed.

Lemma largest_nonneg l : 0 <= largest l.
Proof. induction l as [|y l IH]; cbn [largest fold_right]; [lia|]. unfold largest in IH. lia. Qed.

Lemma oneof_fits ms o : Forall (fun m : Z * ety => bounded (snd m)) ms -> Forall (fun m => desc_ok (snd m)) ms ->
  wt_oneof (map (fun '(num, t) => (num, wt t)) ms) o ->
  zlen (enc_oneof (map (fun '(num, t) => (num, (t, enc t))) ms) (view_oneof (map (fun '(num, t) => (num, view t)) ms) o))
  <= largest (map (fun '(num, t) => record_max num t (max_size t)) ms).
Proof.
  intros Hb Hd Hw. unfold wt_oneof, view_oneof, enc_oneof in *. rewrite lookup_map in Hw. rewrite (lookup_map view). destruct (lookup ms (fst o)) as [t|] eqn:El.
  - cbn [option_map fst snd] in *. rewrite lookup_enc, El. cbn [option_map]. apply lookup_In in El. rewrite Forall_forall in Hb, Hd.
    destruct (Hb _ El (Hd _ El)) as [_ Hv]. cbn [snd] in Hv. etransitivity; [apply enc_elem_fits, Hv, Hw|].
    apply largest_le. apply in_map_iff. now exists (fst o, t).
  - cbn [option_map fst snd]. match goal with |- context [lookup ?l 0] => destruct (lookup l 0) as [[? ?]|] end; rewrite zlen_nil; apply largest_nonneg.
Qed.

Lemma oneofs_fit : forall os ovs, Forall (Forall (fun m : Z * ety => bounded (snd m))) os -> Forall (Forall (fun m => desc_ok (snd m))) os ->
  all2 (fun ms => wt_oneof (map (fun '(num, t) => (num, wt t)) ms)) os ovs ->
  zlen (enc_oneofs (map (map (fun '(num, t) => (num, (t, enc t)))) os) (view_oneofs (map (map (fun '(num, t) => (num, view t))) os) ovs))
  <= total (map (fun ms => largest (map (fun '(num, t) => record_max num t (max_size t)) ms)) os).
Proof.
  induction os as [|ms os IH]; intros [|o ovs] Hb Hd Hw; cbn [all2] in Hw; try contradiction; cbn [map view_oneofs enc_oneofs total fold_right].
  - rewrite zlen_nil. lia.
  - inversion Hb as [|? ? Hb1 Hb2]; subst. inversion Hd as [|? ? Hd1 Hd2]; subst. destruct Hw as [Hw1 Hw2].
    rewrite zlen_app. pose proof (oneof_fits ms o Hb1 Hd1 Hw1). specialize (IH ovs Hb2 Hd2 Hw2). unfold total in IH. lia.
Qed.

Lemma total_nonneg {A} (f : A -> Z) : forall l, Forall (fun x => 0 <= f x) l -> 0 <= total (map f l).
Proof. induction 1 as [|x l H _ IH]; cbn [map total fold_right]; [lia|]. unfold total in IH. lia. Qed.

Lemma desc_parts fs os : desc_ok (EMsg fs os) -> Forall dfield fs /\ Forall (Forall (fun m : Z * ety => desc_ok (snd m))) os.
Proof.
  cbn [desc_ok]. intros (_ & _ & Hf & Ho). apply all_Forall in Hf. apply all_Forall in Ho. split.
  - eapply Forall_impl; [|exact Hf]. intros [[n k] t] H. exact H.
  - eapply Forall_impl; [|exact Ho]. intros ms H. rewrite all_Forall in H. eapply Forall_impl; [|exact H]. intros [n t] H'. exact H'.
Qed.

Lemma size_bound : forall t, bounded t.
Proof.
  induction t as [sc|st max|fs os Hf Ho] using ety_ind'; intros Hd.
  - split; [destruct sc; cbn; lia|]. intros v Hw. cbn [wt view] in *. destruct v; try contradiction. now apply scalar_fits.
  - cbn [desc_ok] in Hd. unfold capacity_ok in Hd. split; [cbn; lia|]. intros v Hw. cbn [wt view] in *. destruct v; try contradiction.
    cbn [enc max_size]. rewrite zlen_firstn. lia.
  - destruct (desc_parts _ _ Hd) as [Df Do]. split.
    + cbn [max_size]. assert (0 <= total (map (fun '(num, k, t) => field_max num k t (max_size t)) fs)).
      { apply total_nonneg. rewrite Forall_forall in *. intros [[n k] t] Hi. apply field_nonneg; [now apply Df|]. apply (Hf _ Hi). apply (Df _ Hi). }
      assert (0 <= total (map (fun ms => largest (map (fun '(num, t) => record_max num t (max_size t)) ms)) os)).
      { apply total_nonneg. apply Forall_forall. intros ms _. apply largest_nonneg. }
      lia.
    + intros v Hw. cbn [wt view] in *. destruct v as [| | | |pres vs ovs]; try contradiction. destruct Hw as (_ & _ & Hw1 & Hw2).
      cbn [enc max_size]. rewrite zlen_app. pose proof (fields_fit pres fs vs 0 Hf Df Hw1). pose proof (oneofs_fit os ovs Ho Do Hw2). lia.
Qed.

(* ------------------------------------------------------------------------------------------- *)
(** ** An object that reaches it *)

Definition big_scalar (sc : scalar) : Z :=
  match sc with
  | Int32 | Int64 => -1
  | UInt32 | Enumeration => 2 ^ 32 - 1
  | UInt64 => 2 ^ 64 - 1
  | SInt32 => - 2 ^ 31
  | SInt64 => - 2 ^ 63
  | _ => 1
  end.

Definition big_field (k : fkind) (b : value) : value :=
  match k with KPlain | KOpt => b | KRep max => VR max (zrepeat b max) | KRecursive => VIndet end.

Fixpoint pick (ms : list (Z * Z * value)) : Z * Z * value :=
  match ms with
  | [] => (0, 0, VIndet)
  | (num, size, v) :: ms' => if snd (fst (pick ms')) <? size then (num, size, v) else pick ms'
  end.

Definition chosen (x : Z * Z * value) : Z * value := (fst (fst x), snd x).

Fixpoint biggest (t : ety) : value :=
  match t with
  | EScalar sc => VS (big_scalar sc)
  | EBytes _ max => VB max (zrepeat 65 max)
  | EMsg fs os =>
      VM (zrepeat (2 ^ 32 - 1) (presence_size (n_optional fs)))
         (map (fun '(_, k, t) => big_field k (biggest t)) fs)
         (map (fun ms => chosen (pick (map (fun '(num, t) => (num, record_max num t (max_size t), biggest t)) ms))) os)
  end.

Definition reaches (t : ety) : Prop :=
  desc_ok t -> wt t (biggest t) /\ zlen (enc t (view t (biggest t))) = max_size t /\ no_neg_zero t (view t (biggest t)).

Lemma big_scalar_range sc : scalar_range sc (big_scalar sc).
Proof. destruct sc; cbn; lia. Qed.
Lemma big_scalar_size sc : zlen (scalar_enc sc (big_scalar sc)) = scalar_max sc.
Proof. destruct sc; reflexivity. Qed.
Lemma big_scalar_nonzero sc : is_zero sc (big_scalar sc) = false.
Proof. destruct sc; reflexivity. Qed.

Lemma enc_elem_size num t p : zlen (enc_elem num t p) = record_max num t (zlen p).
Proof. unfold enc_elem, record_max, delimited. destruct t; cbn [elem_wiretype]; rewrite ?zlen_app; lia. Qed.

Lemma flat_map_repeat {A B} (f : A -> list B) x n : zlen (flat_map f (repeat x n)) = Z.of_nat n * zlen (f x).
Proof. induction n as [|n IH]; cbn [repeat flat_map]; [now rewrite zlen_nil|]. rewrite zlen_app, IH. lia. Qed.

Lemma present_all n i : 0 <= i < n -> present (zrepeat (2 ^ 32 - 1) (presence_size n)) i = true.
Proof.
  intros H. unfold present, zrepeat. pose proof (presence_size_bound i n H) as Hb.
  rewrite (nth_indep _ 0 (2 ^ 32 - 1)) by (rewrite repeat_length; lia). rewrite nth_repeat.
  change (2 ^ 32 - 1) with (Z.ones 32). apply Z.ones_spec_low. lia.
Qed.

Lemma big_field_ok num k t i pres : reaches t -> dfield (num, k, t) -> (k = KOpt -> present pres i = true) ->
  let v := big_field k (biggest t) in let s := view_field k (view t) i pres v in
  wt_field k (wt t) v /\ zlen (enc_field num k t (enc t) s) = field_max num k t (max_size t) /\ no_neg_zero_field k t (no_neg_zero t) s.
Proof.
  intros Ht [Hd Hk] Hp v s. destruct (Ht Hd) as (Hw & Hs & Hn). destruct k as [| |max|]; subst v s; cbn [big_field view_field wt_field].
  - split; [exact Hw|]. destruct t as [sc|st mx|fs os].
    + cbn [biggest view] in *. split; [|cbn [no_neg_zero_field]; now rewrite big_scalar_nonzero].
      cbn [enc_field]. rewrite big_scalar_nonzero. unfold field_max. replace (max_size (EScalar sc) =? 0) with false by (destruct sc; reflexivity).
      rewrite enc_elem_size. now rewrite Hs.
    + cbn [biggest view no_neg_zero_field] in *. split; [|exact I]. cbn [enc_field enc] in *. unfold field_max. rewrite <- Hs.
      match goal with |- context [match ?p with [] => _ | _ :: _ => _ end] => destruct p as [|b q] eqn:E end; [reflexivity|].
      rewrite zlen_cons. pose proof (zlen_nonneg q). destruct (Z.eqb_spec (1 + zlen q) 0); [lia|]. rewrite enc_elem_size, zlen_cons. reflexivity.
    + split.
      2:{ destruct (view (EMsg fs os) (biggest (EMsg fs os))) eqn:E; cbn [biggest view] in E; try discriminate. exact Hn. }
      unfold enc_field, field_max. rewrite <- Hs.
      match goal with |- context [match ?p with [] => _ | _ :: _ => _ end] => destruct p as [|b q] eqn:E end; [reflexivity|].
      rewrite zlen_cons. pose proof (zlen_nonneg q). destruct (Z.eqb_spec (1 + zlen q) 0); [lia|]. rewrite enc_elem_size, zlen_cons. reflexivity.
  - rewrite (Hp eq_refl). split; [exact Hw|]. split; [|exact Hn]. cbn [enc_field field_max]. now rewrite enc_elem_size, Hs.
  - unfold capacity_ok in Hk.
    assert (El : firstn (Z.to_nat max) (zrepeat (biggest t) max) = repeat (biggest t) (Z.to_nat max)).
    { apply firstn_all2. unfold zrepeat. rewrite repeat_length. lia. }
    rewrite El, map_repeat'. split; [|split].
    + split; [lia|]. split; [apply zlen_zrepeat; lia|]. apply all_repeat, Hw.
    + unfold enc_field, field_max. rewrite <- Hs.
      destruct t as [sc|st mx|fs os]; [|rewrite flat_map_repeat, enc_elem_size; lia|rewrite flat_map_repeat, enc_elem_size; lia].
      destruct (Z.to_nat max) as [|n] eqn:En; [lia|]. change (repeat ?x (S n)) with (x :: repeat x n) at 1.
      cbn iota beta. unfold delimited. rewrite !zlen_app, flat_map_repeat. replace (Z.of_nat (S n)) with max by lia. lia.
    + cbn [no_neg_zero_field]. apply all_repeat, Hn.
  - split; [exact I|]. split; [reflexivity|exact I].
Qed.

Lemma big_fields_ok pres N : (forall i, 0 <= i < N -> present pres i = true) -> forall fs i, 0 <= i -> i + n_optional fs <= N ->
  Forall (fun f : fdesc => reaches (snd f)) fs -> Forall dfield fs ->
  let vs := map (fun '(_, k, t) => big_field k (biggest t)) fs in
  let ss := view_fields (map (fun '(_, k, t) => (k, view t)) fs) i pres vs in
  all2 (fun '(_, k, t) => wt_field k (wt t)) fs vs
  /\ zlen (enc_fields (map (fun '(num, k, t) => (num, k, t, enc t)) fs) ss) = total (map (fun '(num, k, t) => field_max num k t (max_size t)) fs)
  /\ all2 (fun '(_, k, t) => no_neg_zero_field k t (no_neg_zero t)) fs ss.
Proof.
  intros Hp. induction fs as [|[[num k] t] fs IH]; intros i Hi HN Hr Hd; [repeat split; reflexivity|].
  inversion Hr as [|? ? Hr1 Hr2]; subst. inversion Hd as [|? ? Hd1 Hd2]; subst. cbn [snd] in Hr1.
  assert (Hopt : 0 <= n_optional fs). { clear. induction fs as [|[[n k] t] fs IH]; cbn [n_optional]; [lia|]. destruct k; lia. }
  destruct (big_field_ok num k t i pres Hr1 Hd1) as (A1 & A2 & A3).
  { intros ->. apply Hp. cbn [n_optional] in HN. lia. }
  destruct (IH (succ_opt k i)) as (B1 & B2 & B3); auto.
  { destruct k; cbn [succ_opt]; lia. }
  { destruct k; cbn [succ_opt n_optional] in *; lia. }
  cbn [map view_fields enc_fields all2 total fold_right]. rewrite zlen_app, A2. split; [auto|]. split; [|auto]. unfold total in B2. now rewrite <- B2.
Qed.

Lemma pick_spec (f : Z -> ety -> Z) (g : ety -> value) : forall ms, Forall (fun m : Z * ety => 1 <= f (fst m) (snd m)) ms ->
  let x := pick (map (fun '(num, t) => (num, f num t, g t)) ms) in
  (ms = [] /\ x = (0, 0, VIndet)
   \/ exists num t, In (num, t) ms /\ x = (num, f num t, g t))
  /\ snd (fst x) = largest (map (fun '(num, t) => f num t) ms).
Proof.
  induction ms as [|[num t] ms IH]; intros H; [split; [now left|reflexivity]|]. inversion H as [|? ? H1 H2]; subst. cbn [fst snd] in H1.
  destruct (IH H2) as [Hx Hl]. cbn [map pick largest fold_right]. unfold largest in Hl.
  destruct (Z.ltb_spec (snd (fst (pick (map (fun '(num0, t0) => (num0, f num0 t0, g t0)) ms)))) (f num t)) as [L|L].
  - split; [right; exists num, t; split; [now left|reflexivity]|]. cbn [fst snd]. lia.
  - split; [|lia]. destruct Hx as [[-> Hx]|(n' & t' & Hi & Hx)].
    + rewrite Hx in L. cbn in L. lia.
    + right. exists n', t'. split; [now right|exact Hx].
Qed.

Lemma lookup_nodup {X} : forall (ms : list (Z * X)) num x, NoDup (map fst ms) -> In (num, x) ms -> lookup ms num = Some x.
Proof.
  induction ms as [|[n y] ms IH]; intros num x Hn Hi; [easy|]. cbn [map fst lookup] in *. inversion Hn as [|? ? H1 H2]; subst.
  destruct Hi as [[= -> ->]|Hi]; [now rewrite Z.eqb_refl|]. destruct (Z.eqb_spec n num) as [->|]; [|now apply IH].
  exfalso. apply H1. apply in_map_iff. now exists (num, x).
Qed.

Lemma big_oneof_ok ms : Forall (fun m : Z * ety => reaches (snd m)) ms -> Forall (fun m => desc_ok (snd m)) ms -> NoDup (map fst ms) ->
  let o := chosen (pick (map (fun '(num, t) => (num, record_max num t (max_size t), biggest t)) ms)) in
  let s := view_oneof (map (fun '(num, t) => (num, view t)) ms) o in
  wt_oneof (map (fun '(num, t) => (num, wt t)) ms) o
  /\ zlen (enc_oneof (map (fun '(num, t) => (num, (t, enc t))) ms) s) = largest (map (fun '(num, t) => record_max num t (max_size t)) ms)
  /\ no_neg_zero_oneof (map (fun '(num, t) => (num, no_neg_zero t)) ms) s.
Proof.
  intros Hr Hd Hn o s.
  destruct (pick_spec (fun num t => record_max num t (max_size t)) biggest ms) as [Hx Hl].
  { rewrite Forall_forall in *. intros [num t] Hi. apply record_max_pos. exact (proj1 (size_bound t (Hd _ Hi))). }
  destruct Hx as [[-> Hx]|(num & t & Hi & Hx)].
  - subst o s. cbn. repeat split; reflexivity.
  - assert (Hlk : lookup ms num = Some t) by now apply lookup_nodup.
    rewrite Forall_forall in Hr, Hd. destruct (Hr _ Hi (Hd _ Hi)) as (A & B & C). cbn [snd] in *.
    assert (Eo : o = (num, biggest t)) by (unfold o; rewrite Hx; reflexivity).
    assert (Es : s = (num, SvSome (view t (biggest t)))).
    { unfold s. rewrite Eo. unfold view_oneof. cbn [fst snd]. now rewrite (lookup_map view), Hlk. }
    rewrite Es, Eo. unfold wt_oneof, enc_oneof, no_neg_zero_oneof. cbn [fst snd].
    rewrite (lookup_map wt), (lookup_map no_neg_zero), lookup_enc, Hlk. cbn [option_map]. split; [exact A|]. split; [|exact C].
    rewrite enc_elem_size, B, <- Hl, Hx. reflexivity.
Qed.

Lemma big_oneofs_ok : forall os, Forall (Forall (fun m : Z * ety => reaches (snd m))) os -> Forall (Forall (fun m => desc_ok (snd m))) os ->
  Forall (fun ms => NoDup (map fst ms)) os ->
  let ovs := map (fun ms => chosen (pick (map (fun '(num, t) => (num, record_max num t (max_size t), biggest t)) ms))) os in
  let ss := view_oneofs (map (map (fun '(num, t) => (num, view t))) os) ovs in
  all2 (fun ms => wt_oneof (map (fun '(num, t) => (num, wt t)) ms)) os ovs
  /\ zlen (enc_oneofs (map (map (fun '(num, t) => (num, (t, enc t)))) os) ss)
     = total (map (fun ms => largest (map (fun '(num, t) => record_max num t (max_size t)) ms)) os)
  /\ all2 (fun ms => no_neg_zero_oneof (map (fun '(num, t) => (num, no_neg_zero t)) ms)) os ss.
Proof.
  induction os as [|ms os IH]; intros Hr Hd Hn; [repeat split; reflexivity|].
  inversion Hr as [|? ? Hr1 Hr2]; subst. inversion Hd as [|? ? Hd1 Hd2]; subst. inversion Hn as [|? ? Hn1 Hn2]; subst.
  destruct (big_oneof_ok ms Hr1 Hd1 Hn1) as (A1 & A2 & A3). destruct (IH Hr2 Hd2 Hn2) as (B1 & B2 & B3).
  cbn [map view_oneofs enc_oneofs all2 total fold_right]. rewrite zlen_app, A2. split; [auto|]. split; [|auto]. unfold total in B2. now rewrite <- B2.
Qed.

Lemma NoDup_app_r {A} (l l' : list A) : NoDup (l ++ l') -> NoDup l'.
Proof. induction l as [|x l IH]; cbn [app]; [auto|]. inversion 1; auto. Qed.

Lemma NoDup_app_l {A} (l l' : list A) : NoDup (l ++ l') -> NoDup l.
Proof.
  induction l as [|x l IH]; cbn [app]; [constructor|]. inversion 1 as [|? ? H1 H2]; subst. constructor; [|auto].
  intros Hi. apply H1. apply in_or_app. now left.
Qed.

Lemma NoDup_members : forall (os : list odesc), NoDup (flat_map (map fst) os) -> Forall (fun ms => NoDup (map fst ms)) os.
Proof.
  induction os as [|ms os IH]; intros H; [constructor|]. cbn [flat_map] in H. constructor; [exact (NoDup_app_l _ _ H)|].
  apply IH. exact (NoDup_app_r _ _ H).
Qed.

Lemma biggest_ok : forall t, reaches t.
Proof.
  induction t as [sc|st max|fs os Hf Ho] using ety_ind'; intros Hd.
  - cbn [biggest wt view enc max_size no_neg_zero]. split; [apply big_scalar_range|]. split; [apply big_scalar_size|exact I].
  - cbn [desc_ok] in Hd. unfold capacity_ok in Hd. cbn [biggest wt view enc max_size no_neg_zero]. rewrite firstn_all2 by (unfold zrepeat; rewrite repeat_length; lia).
    rewrite zlen_zrepeat by lia. repeat split; try lia. apply all_repeat. unfold is_byte. lia.
  - destruct (desc_parts _ _ Hd) as [Df Do]. assert (Hn : Forall (fun ms => NoDup (map fst ms)) os).
    { cbn [desc_ok] in Hd. destruct Hd as (Hn & _). unfold field_numbers in Hn. apply NoDup_members. exact (NoDup_app_r _ _ Hn). }
    assert (Hopt : 0 <= n_optional fs). { clear. induction fs as [|[[n k] t] fs IH]; cbn [n_optional]; [lia|]. destruct k; lia. }
    destruct (big_fields_ok (zrepeat (2 ^ 32 - 1) (presence_size (n_optional fs))) (n_optional fs) (present_all _) fs 0 ltac:(lia) ltac:(lia) Hf Df) as (A1 & A2 & A3).
    destruct (big_oneofs_ok os Ho Do Hn) as (B1 & B2 & B3).
    cbn [biggest]. split; [|split].
    + cbn [wt]. split; [apply zlen_zrepeat; unfold presence_size; destruct (0 <? n_optional fs mod 32); lia|].
      split; [apply all_repeat; unfold is_u32; lia|]. split; [exact A1|exact B1].
    + cbn [view enc max_size]. rewrite zlen_app, A2, B2. reflexivity.
    + cbn [view no_neg_zero]. split; [exact A3|exact B3].
Qed.

(* ------------------------------------------------------------------------------------------- *)
(** ** The property *)

Lemma worst_case fs os v : let t := EMsg fs os in desc_ok t -> wt t v -> max_size t < 2 ^ 32 ->
  exists n, serialized_size (serialize t v) = Done n /\ 0 <= n <= max_size t
  /\ forall cap b c room, wfix_rel cap b c (Some room) -> max_size t < room \/ max_size t = room /\ no_bytes t ->
     exists b', serialize t v wfix (wfix_ops cap) b = Done (NoErrors, b').
Proof.
  intros t Hd Hw Hm. destruct (size_bound t Hd) as [_ Hb]. specialize (Hb v Hw).
  exists (zlen (enc t (view t v))). assert (Hs : serialized_size (serialize t v) = Done (zlen (enc t (view t v)))) by (apply serialized_size_enc; auto; lia).
  split; [exact Hs|]. split; [pose proof (zlen_nonneg (enc t (view t v))); lia|]. intros cap b c room Hr Hroom.
  destruct (exact_space_partial fs os v cap b c room Hw Hd Hr _ Hs ltac:(fold t; lia)) as (e & b' & E & H1 & H2 & _).
  exists b'. fold t in E. rewrite E. do 2 f_equal. destruct Hroom as [H|[H Hb']]; [apply H1; lia|].
  destruct (Z.eq_dec (zlen (enc t (view t v))) room) as [Eq|Ne]; [apply H2; auto|apply H1; lia].
Qed.

Lemma worst_case_reached fs os : let t := EMsg fs os in desc_ok t -> max_size t < 2 ^ 32 ->
  exists bytes, op_ok (OElem t) (OpDeserialize bytes) /\
  forall fuel, (length bytes < fuel)%nat -> exists v,
    run_op fuel (OpDeserialize bytes) (OElem t) (construct (OElem t)) = Done (NoErrors, v)
    /\ serialized_size (serialize t v) = Done (max_size t).
Proof.
  intros t Hd Hm. destruct (biggest_ok t Hd) as (Hw & Hs & Hn).
  assert (Hz : zlen (enc t (view t (biggest t))) < 2 ^ 32) by lia.
  pose proof (enc_bytes t (biggest t) Hw Hd Hz) as Hby.
  exists (enc t (view t (biggest t))). split; [split; [exact Hby|exact Hz]|]. intros fuel Hf.
  destruct (default_ok t Hd) as (D1 & D2 & D3).
  assert (Hmd : mdec fs os (view t (default_value t)) (enc t (view t (biggest t))) (norm t (view t (biggest t)))).
  { rewrite D3. pose proof (enc_decodes true t (biggest t) Hw Hd Hz) as He. now inversion He. }
  destruct (decode_merge fs os (default_value t) _ _ Hd D1 D2 Hmd _ _ _ (rfix_ok (zlen (enc t (view t (biggest t))))) _ (rfix_of_rel _ Hz Hby) fuel Hf)
    as (v' & s' & E & _ & Hv & Hw' & _).
  exists v'. rewrite (norm_id t _ Hw Hn) in Hv. fold t in Hv, Hw'. split.
  - cbn [run_op construct]. unfold t in E |- *. rewrite E. reflexivity.
  - rewrite serialized_size_enc; auto; rewrite Hv; [now rewrite Hs|exact Hz].
Qed.
