(** Memory safety of the message decoder for arbitrary input, by induction on the message type. *)
From Verif Require Import Base Buffers Wire Schema Fields Message Spec Contracts BitLemmas
  ReadProofs ScalarProofs BufferProofs Struct SerProofs Tables DecodeProofs ClearProofs SafetyProofs.
From Coq Require Import ZifyBool ZifyNat ZifyN.
Ltac Zify.zify_post_hook ::= Z.div_mod_to_equations.

(** No UB; running out of fuel only when the measure was not below it; a result satisfies [Q] and the
    buffer invariant. *)
Definition out_ok {A S} (inv : S -> nat -> Prop) (strict : Prop) (f m : nat) (Q : err -> A -> S -> Prop)
    (r : res (err * A * S)) : Prop :=
  match r with
  | Done (e, v', s') => Q e v' s' /\ exists m', inv s' m' /\ (strict -> (m' <= m)%nat)
  | UB => False
  | Fuel => strict -> (f <= m)%nat
  end.

Definition no_post {A S} (P : err -> A -> Prop) : err -> A -> S -> Prop := fun e v _ => P e v.

Lemma out_ok_bind {A B S} (inv : S -> nat -> Prop) (strict : Prop) f m (Q : err -> A -> S -> Prop)
    (Q' : err -> B -> S -> Prop) r (k : err * A * S -> res (err * B * S)) :
  out_ok inv strict f m Q r ->
  (forall e v s m', Q e v s -> inv s m' -> (strict -> (m' <= m)%nat) -> out_ok inv strict f m Q' (k (e, v, s))) ->
  out_ok inv strict f m Q' (bind r k).
Proof.
  intros H Hk. destruct r as [[[e v] s]| |]; cbn [bind out_ok] in *; auto.
  destruct H as (HQ & m' & Hi & Hm). eapply Hk; eauto.
Qed.

Lemma out_ok_weaken {A S} (inv : S -> nat -> Prop) (strict : Prop) f m m0 (Q Q' : err -> A -> S -> Prop) r :
  out_ok inv strict f m Q r -> (strict -> (m <= m0)%nat) -> (forall e v s, Q e v s -> Q' e v s) -> out_ok inv strict f m0 Q' r.
Proof.
  intros H Hm HQ. destruct r as [[[e v] s]| |]; cbn [out_ok] in *; auto.
  - destruct H as (H1 & m' & Hi & Hs). split; [auto|]. exists m'. split; [exact Hi|]. intros Hst. specialize (Hm Hst). specialize (Hs Hst). lia.
  - intros Hst. specialize (Hm Hst). specialize (H Hst). lia.
Qed.

(** What is required of the object before the call: messages must be valid, the others may be anything. *)
Definition pre (t : ety) (v : value) : Prop := match t with EMsg _ _ => wt t v | _ => True end.
(** ... and after: valid if it was, and in any case on success. *)
Definition post (t : ety) (v : value) (e : err) (v' : value) : Prop := (e = NoErrors \/ wt t v) -> wt t v'.

Definition deser_ok (fuel : nat) (t : ety) : Prop := desc_ok t ->
  forall S (R : rops S) inv strict bound, decoder_safe R inv strict bound -> forall v s m, inv s m -> pre t v ->
  out_ok inv strict fuel m (fun e v' s' => post t v e v'
      /\ match t with EMsg _ _ => e = NoErrors -> ended (R := R) (inv := inv) s' | _ => True end)
    (deserialize fuel t S R v s).

Section Elem.
Context {S : Type} {R : rops S} {inv : S -> nat -> Prop} {strict : Prop} {bound : Z} (ok : decoder_safe R inv strict bound).

Lemma scalar_deserialize_safe fuel sc v s m : inv s m ->
  out_ok inv strict fuel m (fun e v' s' => post (EScalar sc) v e v' /\ (e = EndOfBuffer -> ended (R := R) (inv := inv) s')
      /\ (strict -> e = NoErrors -> exists m', inv s' m' /\ (m' < m)%nat))
    (scalar_deserialize sc S R v s).
Proof.
  intros Hi. unfold scalar_deserialize. destruct (scalar_safe (ds_pop _ _ _ _ ok) sc s m Hi) as (e & o & s' & m' & -> & Hi' & Hs & Hr & He & Ho).
  cbn [bind out_ok]. split; [|exists m'; split; auto]. split; [|split; [exact He|intros; exists m'; split; auto]].
  unfold post. destruct e; [destruct Ho as (x & -> & Hx); intros _; exact Hx|subst o; intros [|]; [discriminate|assumption]..].
Qed.

Lemma bytes_deserialize_safe fuel st max v s m : capacity_ok max -> inv s m ->
  out_ok inv strict fuel m (no_post (post (EBytes st max) v)) (bytes_deserialize max S R v s).
Proof.
  intros Hc Hi. unfold bytes_deserialize, capacity_ok in *.
  destruct (varint_safe (ds_pop _ _ _ _ ok) 32 s m (or_introl eq_refl) Hi) as (e & o & s' & m' & -> & Hi' & Hs & Hr & He & Ho). cbn [bind].
  destruct e; [destruct Ho as (n & -> & Hn)|subst o..];
    try (cbn [out_ok]; split; [intros [|]; [discriminate|assumption]|exists m'; split; auto]).
  destruct (Z.leb_spec n max).
  - destruct (bytes_loop_safe (ds_pop _ _ _ _ ok) (Z.to_nat n) 0 (zrepeat 0 max) s' m' Hi') as (l & d & s2 & m2 & E2 & Hi2 & Hs2 & Hl & Hz & Hd);
      [lia|rewrite zlen_zrepeat; lia|apply zrepeat_bytes|].
    rewrite E2. cbn [bind out_ok]. rewrite zlen_zrepeat in Hz by lia. split.
    + intros _. cbn [wt]. split; [lia|]. split; [exact Hz|]. apply all_Forall. exact Hd.
    + exists m2. split; [exact Hi2|]. intros Hst. specialize (Hs Hst). specialize (Hs2 Hst). lia.
  - cbn [out_ok]. split; [intros [|]; [discriminate|assumption]|exists m'; split; auto].
Qed.

(** A message decoded from a section. *)
Lemma mk_section_inv s m n : inv s m -> dsec_inv (inv := inv) (bound := bound) (mk_section R s n) m.
Proof. intros Hi. split; [exact Hi|]. pose proof (ds_size _ _ _ _ ok _ _ Hi). cbn [mk_section sec_size]. lia. Qed.

Lemma in_section fuel (d : deserializer) (t : ety) v s m n (P : err -> value -> Prop) : inv s m ->
  (forall S' (R' : rops S') inv' strict' bound', decoder_safe R' inv' strict' bound' -> forall s' m', inv' s' m' ->
     out_ok inv' strict' fuel m' (fun e v' _ => P e v') (d S' R' v s')) ->
  out_ok inv strict fuel m (no_post P)
    (let* (e, v', sec) := d (section S) (sec_ops R) v (mk_section R s n) in Done (e, v', sec_parent sec)).
Proof.
  intros Hi H. specialize (H _ _ _ _ _ (dsec_safe ok) (mk_section R s n) m (mk_section_inv s m n Hi)).
  destruct (d (section S) (sec_ops R) v (mk_section R s n)) as [[[e v'] sec]| |]; cbn [bind out_ok] in *; auto.
  destruct H as (HQ & m' & (Hi' & _) & Hm). split; [exact HQ|]. exists m'. auto.
Qed.

Lemma elem_check_safe fuel t v w s m : deser_ok fuel t -> desc_ok t -> inv s m -> pre t v ->
  out_ok inv strict fuel m (no_post (post t v)) (elem_deserialize_check_type t (deserialize fuel t) w S R v s).
Proof.
  intros Hd Hok Hi Hp.
  assert (Hbad : out_ok inv strict fuel m (no_post (post t v)) (Done (InvalidWiretype, v, s))).
  { cbn [out_ok]. split; [intros [|]; [discriminate|assumption]|]. exists m. split; auto. }
  destruct t as [sc|st max|fs os]; unfold elem_deserialize_check_type; (destruct (wt_eqb _ w); [|exact Hbad]).
  - eapply out_ok_weaken; [apply (Hd Hok S R inv strict bound ok v s m Hi Hp)|lia|]. intros e v' s' [H _]. exact H.
  - eapply out_ok_weaken; [apply (Hd Hok S R inv strict bound ok v s m Hi Hp)|lia|]. intros e v' s' [H _]. exact H.
  - unfold deserialize_section.
    destruct (varint_safe (ds_pop _ _ _ _ ok) 32 s m (or_introl eq_refl) Hi) as (e & o & s1 & m1 & -> & Hi1 & Hs & Hr & He & Ho). cbn [bind].
    destruct e; [destruct Ho as (n & -> & Hn)|subst o..];
      try (cbn [out_ok]; split; [intros [|]; [discriminate|assumption]|exists m1; split; auto]).
    eapply out_ok_weaken; [apply (in_section fuel (deserialize fuel (EMsg fs os)) (EMsg fs os) v s1 m1 n (post (EMsg fs os) v) Hi1)|exact Hs|auto].
    intros S' R' inv' strict' bound' ok' s' m' Hi'.
    eapply out_ok_weaken; [apply (Hd Hok S' R' inv' strict' bound' ok' v s' m' Hi' Hp)|lia|]. intros e v' s2 [H _]. exact H.
Qed.
End Elem.

Lemma rep_packed_loop_safe {S} (R : rops S) inv strict bound (ok : decoder_safe R inv strict bound) sc max :
  max < 2 ^ 31 -> forall fuel x len data s m, inv s m -> 0 <= len <= max -> zlen data = max -> all (wt (EScalar sc)) data ->
  match rep_packed_loop sc fuel x len data R s with
  | Done (e, len', data', s') => 0 <= len' <= max /\ zlen data' = max /\ all (wt (EScalar sc)) data'
      /\ e <> NoErrors /\ (e = EndOfBuffer -> ended (R := R) (inv := inv) s') /\ exists m', inv s' m' /\ (strict -> (m' <= m)%nat)
  | UB => False
  | Fuel => strict -> (fuel <= m)%nat
  end.
Proof.
  intros Hmax. induction fuel as [|fuel IH]; intros x len data s m Hi Hl Hz Hw; cbn [rep_packed_loop]; [lia|].
  destruct (scalar_safe (ds_pop _ _ _ _ ok) sc s m Hi) as (e & o & s1 & m1 & E & Hi1 & Hs & Hr & He & Ho).
  unfold scalar_deserialize. rewrite E. cbn [bind].
  destruct e; [destruct Ho as (z & -> & Hx)|subst o..]; cbn [is_ok];
    try (repeat (split; [first [assumption|lia|discriminate]|]); exists m1; split; auto).
  unfold rep_add_scalar. destruct (Z.ltb_spec len (zlen data)).
  - rewrite aset_ok by lia. cbn [bind is_ok].
    specialize (IH (VS z) (len + 1) (upd (Z.to_nat len) (VS z) data) s1 m1 Hi1 ltac:(lia)).
    rewrite zlen_upd in IH. specialize (IH Hz).
    assert (Hw' : all (wt (EScalar sc)) (upd (Z.to_nat len) (VS z) data)).
    { apply all_Forall. apply Forall_upd; [apply all_Forall; exact Hw|exact Hx]. }
    specialize (IH Hw').
    destruct (rep_packed_loop sc fuel _ _ _ R s1) as [[[[e len'] data'] s']| |]; auto.
    + destruct IH as (H1 & H2 & H3 & H4 & H5 & m' & H6 & H7). repeat (split; [assumption|]). exists m'. split; [exact H6|].
      intros Hst. specialize (Hs Hst). specialize (H7 Hst). lia.
    + intros Hst. specialize (IH Hst). specialize (Hr Hst eq_refl). lia.
  - cbn [bind is_ok]. repeat (split; [first [assumption|lia|discriminate]|]). exists m1. split; auto.
Qed.

Section Rep.
Context {S : Type} {R : rops S} {inv : S -> nat -> Prop} {strict : Prop} {bound : Z} (ok : decoder_safe R inv strict bound).

Lemma rep_packed_safe fuel sc max v s m : capacity_ok max -> inv s m -> wt_field (KRep max) (wt (EScalar sc)) v ->
  out_ok inv strict fuel m (no_post (fun _ v' => wt_field (KRep max) (wt (EScalar sc)) v')) (rep_deserialize_packed fuel sc S R v s).
Proof.
  intros Hc Hi Hw. destruct v as [| | |len data|]; try contradiction. destruct Hw as (Hl & Hz & Hw). unfold capacity_ok in Hc.
  cbn [rep_deserialize_packed].
  destruct (varint_safe (ds_pop _ _ _ _ ok) 32 s m (or_introl eq_refl) Hi) as (e & o & s1 & m1 & -> & Hi1 & Hs & Hr & He & Ho). cbn [bind].
  set (size := match o with Some n => n | None => 0 end).
  pose proof (rep_packed_loop_safe (sec_ops R) _ _ _ (dsec_safe ok) sc max ltac:(lia) fuel VIndet len data (mk_section R s1 size) m1
               (mk_section_inv ok s1 m1 size Hi1) Hl Hz Hw) as H.
  destruct (rep_packed_loop sc fuel VIndet len data (sec_ops R) (mk_section R s1 size)) as [[[[e2 len'] data'] sec]| |]; cbn [bind out_ok]; auto.
  - destruct H as (H1 & H2 & H3 & _ & _ & m' & (H4 & _) & H5). split; [split; [exact H1|split; [exact H2|exact H3]]|].
    exists m'. split; [exact H4|]. intros Hst. specialize (Hs Hst). specialize (H5 Hst). lia.
  - intros Hst. specialize (H Hst). specialize (Hs Hst). lia.
Qed.

Lemma rep_unpacked_safe fuel t max v s m : deser_ok fuel t -> desc_ok t -> capacity_ok max -> is_packed t = false ->
  inv s m -> wt_field (KRep max) (wt t) v ->
  out_ok inv strict fuel m (no_post (fun _ v' => wt_field (KRep max) (wt t) v')) (rep_deserialize_unpacked t (deserialize fuel t) S R v s).
Proof.
  intros Hd Hok Hc Hpk Hi Hw. pose proof Hw as Hw0. destruct v as [| | |len data|]; try contradiction. destruct Hw as (Hl & Hz & Hw). unfold capacity_ok in Hc.
  cbn [rep_deserialize_unpacked]. destruct (Z.ltb_spec len (zlen data)).
  2:{ cbn [out_ok]. split; [exact Hw0|]. exists m. split; auto. }
  assert (Hget : rep_get len data len = (len, len + 1)).
  { unfold rep_get. rewrite u32_small by lia. rewrite Z.min_l by lia. rewrite Z.leb_refl. reflexivity. }
  rewrite Hget. destruct (aget_ok data len) as (x & Ex & Hx); [lia|]. rewrite Ex. cbn [bind].
  assert (Hwx : wt t x). { apply all_Forall in Hw. eapply Forall_forall in Hw; [exact Hw|]. eapply nth_error_In; eauto. }
  assert (Hpx : pre t x) by (destruct t; [exact I|exact I|exact Hwx]).
  assert (Hfin : forall e x' s' m', (strict -> (m' <= m)%nat) -> wt t x' -> inv s' m' ->
     out_ok inv strict fuel m (no_post (fun _ v' => wt_field (KRep max) (wt t) v'))
       (let* data' := aset data len x' in Done (e, VR (len + 1) data', s'))).
  { intros e x' s' m' Hm Hwx' Hi'. rewrite aset_ok by lia. cbn [bind out_ok]. split.
    - cbn [wt_field no_post]. unfold no_post. split; [lia|]. split; [rewrite zlen_upd; exact Hz|]. apply all_Forall. apply Forall_upd; [apply all_Forall; exact Hw|exact Hwx'].
    - exists m'. auto. }
  assert (Hplain : out_ok inv strict fuel m (no_post (fun _ v' => wt_field (KRep max) (wt t) v'))
     (let* (e, x', s1) := deserialize fuel t S R x s in let* data' := aset data len x' in Done (e, VR (len + 1) data', s1))).
  { eapply out_ok_bind; [apply (Hd Hok S R inv strict bound ok x s m Hi Hpx)|]. intros e x' s' m' [HP _] Hi' Hm. apply (Hfin e x' s' m'); auto. }
  destruct t as [sc|st mx|fs os]; [discriminate|exact Hplain|]. clear Hplain.
  destruct (varint_safe (ds_pop _ _ _ _ ok) 32 s m (or_introl eq_refl) Hi) as (e & o & s1 & m1 & -> & Hi1 & Hs & Hr & He & Ho). cbn [bind].
  destruct e; [destruct Ho as (n & -> & Hn)|subst o..];
    try (cbn [out_ok]; split; [exact Hw0|exists m1; split; auto]).
  pose proof (in_section ok fuel (deserialize fuel (EMsg fs os)) (EMsg fs os) x s1 m1 n (post (EMsg fs os) x) Hi1) as HS.
  assert (H0 : forall S' (R' : rops S') inv' strict' bound', decoder_safe R' inv' strict' bound' -> forall s' m', inv' s' m' ->
     out_ok inv' strict' fuel m' (fun e v' _ => post (EMsg fs os) x e v') (deserialize fuel (EMsg fs os) S' R' x s')).
  { intros S' R' inv' strict' bound' ok' s' m' Hi'.
    eapply out_ok_weaken; [apply (Hd Hok S' R' inv' strict' bound' ok' x s' m' Hi' Hpx)|lia|]. intros e2 v' s2 [H2 _]. exact H2. }
  specialize (HS H0). clear H0. rename HS into HH.
  destruct (deserialize fuel (EMsg fs os) (section S) (sec_ops R) x (mk_section R s1 n)) as [[[e x'] sec]| |]; cbn [bind out_ok] in *; auto.
  - destruct HH as (HP & m' & Hi' & Hm). apply (Hfin e x' (sec_parent sec) m'); [|apply HP; auto|exact Hi'].
    intros Hst. specialize (Hs Hst). specialize (Hm Hst). lia.
  - intros Hst. specialize (Hs Hst). specialize (HH Hst). lia.
Qed.

Lemma field_deserialize_safe fuel num k t oi n w pres v s m : deser_ok fuel t -> desc_ok t ->
  match k with KRep max => capacity_ok max | _ => True end -> inv s m -> wt_field k (wt t) v ->
  zlen pres = presence_size n -> Forall is_u32 pres -> (k = KOpt -> 0 <= oi < n) ->
  match field_deserialize fuel (num, k, t, deserialize fuel t) oi w pres v R s with
  | Done (e, pres', v', s') => zlen pres' = presence_size n /\ Forall is_u32 pres' /\ wt_field k (wt t) v'
      /\ exists m', inv s' m' /\ (strict -> (m' <= m)%nat)
  | UB => False
  | Fuel => strict -> (fuel <= m)%nat
  end.
Proof.
  intros Hd Hok Hk Hi Hw Hz Hu Ho. cbn [field_deserialize]. destruct k as [| |max|]; cbn [wt_field] in *.
  - pose proof (elem_check_safe ok fuel t v w s m Hd Hok Hi) as H.
    specialize (H ltac:(destruct t; [exact I|exact I|exact Hw])).
    destruct (elem_deserialize_check_type t _ w S R v s) as [[[e v'] s']| |]; cbn [bind out_ok] in *; auto.
    destruct H as (H1 & m' & H2 & H3). repeat (split; [first [assumption|apply H1; auto]|]). exists m'; auto.
  - destruct (presence_set_ok pres oi n (Ho eq_refl) Hz Hu) as (pres' & -> & Hz' & Hu' & _). cbn [bind].
    pose proof (elem_check_safe ok fuel t v w s m Hd Hok Hi) as H.
    specialize (H ltac:(destruct t; [exact I|exact I|exact Hw])).
    destruct (elem_deserialize_check_type t _ w S R v s) as [[[e v'] s']| |]; cbn [bind out_ok] in *; auto.
    destruct H as (H1 & m' & H2 & H3). repeat (split; [first [assumption|apply H1; auto]|]). exists m'; auto.
  - assert (H : out_ok inv strict fuel m (no_post (fun _ v' => wt_field (KRep max) (wt t) v'))
                  (rep_deserialize_check_type fuel t (deserialize fuel t) w S R v s)).
    { unfold rep_deserialize_check_type. destruct (wt_eqb LENDEL w).
      2:{ cbn [out_ok]. split; [exact Hw|]. exists m. split; auto. }
      destruct t as [sc|st mx|fs os]; [apply rep_packed_safe; assumption|..]; apply rep_unpacked_safe; auto. }
    destruct (rep_deserialize_check_type fuel t _ w S R v s) as [[[e v'] s']| |]; cbn [bind out_ok] in *; [|exact H|exact H].
    destruct H as (H1 & m' & H2 & H3). repeat (split; [assumption|]). exists m'; auto.
  - repeat (split; [assumption|]). exists m; auto.
Qed.

Lemma oneof_clear_wt {X} (ms : odesc) (f : ety -> X) o : lookup ms 0 = None ->
  wt_oneof (map (fun '(num, t) => (num, wt t)) ms) (oneof_clear (map (fun '(num, t) => (num, t, f t)) ms) o).
Proof.
  intros H0. unfold wt_oneof, oneof_clear. rewrite find_member_map. destruct (lookup ms (fst o)) as [t|]; cbn [fst snd];
    rewrite (lookup_map wt), H0; reflexivity.
Qed.

Lemma oneof_deserialize_safe fuel (ms : odesc) id w o s m :
  (forall num t, lookup ms num = Some t -> deser_ok fuel t /\ desc_ok t /\ 1 <= num) ->
  (exists t, lookup ms id = Some t) ->
  inv s m -> wt_oneof (map (fun '(num, t) => (num, wt t)) ms) o ->
  match oneof_deserialize (map (fun '(num, t) => (num, t, deserialize fuel t)) ms) id w o R s with
  | Done (e, o', s') => wt_oneof (map (fun '(num, t) => (num, wt t)) ms) o'
      /\ (e <> NoErrors -> fst o' = 0)
      /\ (e = NoErrors -> fst o' = id)
      /\ exists m', inv s' m' /\ (strict -> (m' <= m)%nat)
  | UB => False
  | Fuel => strict -> (fuel <= m)%nat
  end.
Proof.
  intros Hms [t Ht] Hi Hw. assert (H0 : lookup ms 0 = None).
  { destruct (lookup ms 0) eqn:E; [|reflexivity]. destruct (Hms _ _ E) as (_ & _ & H). lia. }
  unfold oneof_deserialize.
  set (o1 := if id =? fst o then o else oneof_init (map (fun '(num, t) => (num, t, deserialize fuel t)) ms) id o).
  destruct (Hms id t Ht) as (Hd & Hok & Hid).
  assert (Ho1 : fst o1 = id /\ pre t (snd o1)).
  { unfold o1. destruct (Z.eqb_spec id (fst o)) as [E|E].
    - split; [congruence|]. unfold wt_oneof in Hw. rewrite (lookup_map wt), <- E, Ht in Hw. destruct t; [exact I|exact I|exact Hw].
    - unfold oneof_init. rewrite find_member_map, Ht. cbn [fst snd]. split; [reflexivity|].
      destruct t as [sc|st mx|fs os]; try exact I. cbn [is_enum placement_new pre]. apply default_ok. exact Hok. }
  destruct Ho1 as [Ef Hp]. rewrite Ef, find_member_map, Ht.
  pose proof (elem_check_safe ok fuel t (snd o1) w s m Hd Hok Hi Hp) as H.
  destruct (elem_deserialize_check_type t (deserialize fuel t) w S R (snd o1) s) as [[[e v'] s']| |]; cbn [bind out_ok] in *; auto.
  destruct H as (H1 & m' & H2 & H3). destruct e; cbn [is_ok];
    try (split; [apply oneof_clear_wt; exact H0|]; split; [intros _; unfold oneof_clear; cbn [fst]; rewrite find_member_map, Ht; reflexivity|];
         split; [discriminate|]; exists m'; auto).
  split; [unfold wt_oneof; cbn [fst snd]; rewrite (lookup_map wt), Ht; apply H1; auto|].
  split; [congruence|]. split; [reflexivity|]. exists m'; auto.
Qed.

Lemma skip_unknown_safe w s m : inv s m ->
  exists e s' m', skip_unknown_field w R s = Done (e, s') /\ inv s' m' /\ (strict -> (m' <= m)%nat).
Proof.
  intros Hi. destruct w; cbn [skip_unknown_field].
  - destruct (varint_safe (ds_pop _ _ _ _ ok) 64 s m (or_intror eq_refl) Hi) as (e & o & s1 & m1 & -> & Hi1 & Hs & _). cbn [bind]. do 3 eexists. eauto.
  - unfold DeserializeDouble. destruct (fixed_safe (ds_pop _ _ _ _ ok) 64 s m (or_intror eq_refl) Hi) as (e & o & s1 & m1 & -> & Hi1 & Hs & _). cbn [bind]. do 3 eexists. eauto.
  - apply (ds_skip _ _ _ _ ok s m Hi).
  - do 3 eexists. split; [reflexivity|]. split; [exact Hi|auto].
  - do 3 eexists. split; [reflexivity|]. split; [exact Hi|auto].
  - unfold DeserializeFloat. destruct (fixed_safe (ds_pop _ _ _ _ ok) 32 s m (or_introl eq_refl) Hi) as (e & o & s1 & m1 & -> & Hi1 & Hs & _). cbn [bind]. do 3 eexists. eauto.
Qed.

Lemma dispatch_safe fuel fs os id w v s m :
  Forall (fun f : fdesc => deser_ok fuel (snd f)) fs -> Forall (Forall (fun p : Z * ety => deser_ok fuel (snd p))) os ->
  desc_ok (EMsg fs os) -> inv s m -> wt (EMsg fs os) v ->
  out_ok inv strict fuel m (no_post (fun _ v' => wt (EMsg fs os) v')) (msg_dispatch fuel (dtab fuel fs) (dotab fuel os) id w R v s).
Proof.
  intros Hf Ho Hok Hi Hw. destruct v as [| | | |pres vs ovs]; try contradiction. pose proof Hw as Hw0.
  cbn [wt] in Hw. destruct Hw as (Hz & Hu & Hw1 & Hw2). apply all_Forall in Hu. cbn [msg_dispatch].
  destruct (find_field (dtab fuel fs) 0 0 id) as [[[p oi] f]|] eqn:Ef.
  - apply find_field_inv in Ef. destruct Ef as (i & k & t & Ep & Eo & En & ->). cbn [Nat.add] in Ep. subst p.
    destruct (desc_field fs os i id k t Hok En) as (Hdt & Hnum & Hk).
    destruct (all2_nth _ _ _ _ _ Hw1 En) as (x & Ex & Hwx). rewrite (aget_nat _ _ _ Ex). cbn [bind].
    assert (Hdo : deser_ok fuel t). { eapply Forall_forall in Hf; [|eapply nth_error_In; exact En]. exact Hf. }
    pose proof (field_deserialize_safe fuel id k t oi (n_optional fs) w pres x s m Hdo Hdt Hk Hi Hwx Hz Hu) as H.
    assert (Hoi : k = KOpt -> 0 <= oi < n_optional fs). { intros ->. pose proof (optix_bound fs i id t En). lia. }
    specialize (H Hoi).
    destruct (field_deserialize fuel _ oi w pres x R s) as [[[[e pres'] x'] s']| |]; cbn [bind out_ok]; auto.
    destruct H as (H1 & H2 & H3 & m' & H4 & H5). rewrite aset_nat by (eapply nth_error_lt; exact Ex). cbn [bind out_ok].
    split; [|exists m'; auto]. unfold no_post. cbn [wt]. split; [exact H1|]. split; [apply all_Forall; exact H2|].
    split; [|exact Hw2]. eapply all2_upd; [exact Hw1|exact En|exact H3].
  - destruct (find_oneof (dotab fuel os) 0 id) as [[p dms]|] eqn:Eo.
    + apply find_oneof_inv in Eo. destruct Eo as (j & ms & t & Ep & En & El & ->). cbn [Nat.add] in Ep. subst p.
      destruct (all2_nth _ _ _ _ _ Hw2 En) as (o & Ex & Hwo). rewrite (aget_nat _ _ _ Ex). cbn [bind].
      pose proof (oneof_deserialize_safe fuel ms id w o s m) as H.
      assert (Hms : forall num t, lookup ms num = Some t -> deser_ok fuel t /\ desc_ok t /\ 1 <= num).
      { intros num t' El'. destruct (desc_member fs os j ms num t' Hok En El') as [Hd Hn]. split; [|split; [exact Hd|lia]].
        eapply Forall_forall in Ho; [|eapply nth_error_In; exact En]. eapply Forall_forall in Ho; [|eapply lookup_In; exact El']. exact Ho. }
      specialize (H Hms (ex_intro _ t El) Hi Hwo).
      destruct (oneof_deserialize _ id w o R s) as [[[e o'] s']| |]; cbn [bind out_ok]; auto.
      destruct H as (H1 & _ & _ & m' & H4 & H5). rewrite aset_nat by (eapply nth_error_lt; exact Ex). cbn [bind out_ok].
      split; [|exists m'; auto]. unfold no_post. cbn [wt]. split; [exact Hz|]. split; [apply all_Forall; exact Hu|].
      split; [exact Hw1|]. eapply all2_upd; [exact Hw2|exact En|exact H1].
    + destruct (id =? 0).
      * cbn [out_ok]. split; [exact Hw0|]. exists m; auto.
      * destruct (skip_unknown_safe w s m Hi) as (e & s' & m' & -> & Hi' & Hs'). cbn [bind out_ok]. split; [exact Hw0|]. exists m'; auto.
Qed.

Lemma loop_safe fuel0 fs os :
  Forall (fun f : fdesc => deser_ok fuel0 (snd f)) fs -> Forall (Forall (fun p : Z * ety => deser_ok fuel0 (snd p))) os ->
  desc_ok (EMsg fs os) -> forall fuel v s m, (fuel <= fuel0)%nat -> inv s m -> wt (EMsg fs os) v ->
  out_ok inv strict fuel m (fun e v' s' => wt (EMsg fs os) v' /\ (e = NoErrors -> ended (R := R) (inv := inv) s'))
    (msg_loop fuel0 fuel (dtab fuel0 fs) (dotab fuel0 os) R v s).
Proof.
  intros Hf Ho Hok. induction fuel as [|fuel IH]; intros v s m Hle Hi Hw; cbn [msg_loop]; [cbn [out_ok]; lia|].
  destruct (tag_safe (ds_pop _ _ _ _ ok) s m Hi) as (e & o & s1 & m1 & -> & Hi1 & Hs & Hr & He & Hx). cbn [bind].
  destruct e; [destruct Hx as ([w id] & -> & _)|subst o..];
    try (cbn [out_ok]; split; [split; [exact Hw|first [discriminate | intros _; apply He; reflexivity]]|exists m1; split; auto]).
  pose proof (dispatch_safe fuel0 fs os id w v s1 m1 Hf Ho Hok Hi1 Hw) as H.
  destruct (msg_dispatch fuel0 _ _ id w R v s1) as [[[e v'] s2]| |]; cbn [bind out_ok] in *; auto.
  - destruct H as (Hw' & m2 & Hi2 & Hs2).
    destruct e; cbn [is_ok out_ok]; try (split; [split; [exact Hw'|discriminate]|]; exists m2; split; [exact Hi2|]; intros Hst; specialize (Hs Hst); specialize (Hs2 Hst); lia).
    pose proof (IH v' s2 m2 ltac:(lia) Hi2 Hw') as H.
    destruct (msg_loop fuel0 fuel _ _ R v' s2) as [[[e v2] s3]| |]; cbn [out_ok] in *; auto.
    + destruct H as (H1 & m3 & H2 & H3). split; [exact H1|]. exists m3. split; [exact H2|]. intros Hst. specialize (Hs Hst). specialize (Hs2 Hst). specialize (H3 Hst). lia.
    + intros Hst. specialize (H Hst). specialize (Hr Hst eq_refl). specialize (Hs2 Hst). lia.
  - intros Hst. specialize (H Hst). specialize (Hr Hst eq_refl). lia.
Qed.
End Rep.

Theorem deserialize_safe fuel t : deser_ok fuel t.
Proof.
  induction t as [sc|st max|fs os Hf Ho] using ety_ind'; intros Hok S R inv strict bound ok v s m Hi Hp; cbn [deserialize].
  - eapply out_ok_weaken; [apply (scalar_deserialize_safe ok); exact Hi|lia|]. intros e v' s' (H & _). split; [exact H|exact I].
  - eapply out_ok_weaken; [apply (bytes_deserialize_safe ok fuel st max v s m Hok Hi)|lia|]. intros e v' s' H. split; [exact H|exact I].
  - eapply out_ok_weaken; [apply (loop_safe ok fuel fs os Hf Ho Hok fuel v s m (le_n _) Hi Hp)|lia|].
    intros e v' s' [H1 H2]. split; [intros _; exact H1|exact H2].
Qed.
