(** serialize writes the specification encoding. *)
From Verif Require Import Base Buffers Wire Schema Fields Message Spec Contracts BitLemmas WriteProofs
  ReadProofs ScalarProofs BufferProofs Struct.
From Coq Require Import ZifyBool ZifyNat ZifyN.
Ltac Zify.zify_post_hook ::= Z.div_mod_to_equations.

(** What is proved of each element type. *)
Definition ser_ok (t : ety) : Prop := forall v, wt t v -> desc_ok t ->
  zlen (enc t (view t v)) < 2 ^ 32 ->
  forall (S : Type) (W : wops S) rel exact, writer_ok W rel exact ->
  forall s c room, rel s c room ->
  (room = None \/ match t with EBytes _ _ => enc t (view t v) <> [] | _ => True end) ->
  wrote rel c room (enc t (view t v)) (exact \/ no_bytes t) (serialize t v S W s).

Lemma serialized_size_wrote (ser : serializer) bs tight :
  zlen bs < 2 ^ 32 -> wrote calc_rel [] None bs tight (ser Z calc_ops 0) ->
  serialized_size ser = Done (zlen bs).
Proof.
  intros Hl (e & s' & E & [(-> & (H & _) & _)|(_ & n & _ & _ & [=] & _)]).
  unfold serialized_size. rewrite E. cbn [bind]. rewrite H. cbn [app].
  rewrite u32_small; [reflexivity|]. pose proof (zlen_nonneg bs). lia.
Qed.

Lemma ser_ok_size t v : ser_ok t -> wt t v -> desc_ok t -> zlen (enc t (view t v)) < 2 ^ 32 ->
  serialized_size (serialize t v) = Done (zlen (enc t (view t v))).
Proof.
  intros H Hw Hd Hl. eapply serialized_size_wrote; [exact Hl|].
  eapply H; eauto using calc_ok, calc_init.
Qed.

(** ** Elements *)

Lemma ser_ok_scalar sc : ser_ok (EScalar sc).
Proof.
  intros v Hw _ _ S W rel exact ok s c room Hr _. destruct v; cbn [wt] in Hw; try tauto.
  cbn [serialize view enc no_bytes]. unfold scalar_serialize.
  eapply wrote_weaken; [|eapply (scalar_serialize_z_wrote ok); eauto]. auto.
Qed.

Lemma bytes_serialize_wrote st max v S (W : wops S) rel exact : writer_ok W rel exact ->
  forall s c room, wt (EBytes st max) v -> capacity_ok max -> rel s c room ->
  (room = None \/ enc (EBytes st max) (view (EBytes st max) v) <> []) ->
  wrote rel c room (enc (EBytes st max) (view (EBytes st max) v)) exact (bytes_serialize v S W s).
Proof.
  intros ok s c room Hw Hc Hr Hne. destruct v as [| |len data| |]; cbn [wt] in Hw; try tauto.
  destruct Hw as (Hlen & Hd & Hb). apply all_Forall in Hb. unfold capacity_ok in Hc.
  cbn [view enc] in *. unfold bytes_serialize.
  assert (Hl : zlen (firstn (Z.to_nat len) data) = len) by (rewrite zlen_firstn; lia).
  destruct room as [n|].
  - destruct Hne as [[=]|Hne].
    destruct (wo_pushn _ _ _ ok s c data len n Hr Hb) as (b & s' & -> & H); try lia. cbn [bind].
    destruct b.
    + exists NoErrors, s'. split; [reflexivity|]. left. split; [reflexivity|].
      destruct H as (Hn & H). cbn [option_map]. rewrite Hl. split; [exact H|]. intros m [= ->]. lia.
    + destruct H as (Hn & Ht & H). exists BufferFull, s'. split; [reflexivity|]. right.
      split; [reflexivity|]. exists n, [], (firstn (Z.to_nat len) data).
      rewrite app_nil_r, zlen_nil, Z.sub_0_r, Hl. pose proof (wo_room _ _ _ ok _ _ _ Hr).
      repeat split; auto; lia.
  - destruct (wo_pushn_inf _ _ _ ok s c data len Hr Hb) as (s' & -> & H); try lia. cbn [bind].
    exists NoErrors, s'. split; [reflexivity|]. left. split; [reflexivity|]. split; [exact H|]. discriminate.
Qed.

Lemma ser_ok_bytes st max : ser_ok (EBytes st max).
Proof.
  intros v Hw Hd Hl S W rel exact ok s c room Hr Hne. cbn [serialize].
  eapply wrote_weaken; [|eapply (bytes_serialize_wrote st max); eauto].
  cbn [no_bytes]. tauto.
Qed.

Section Elem.
Context {S : Type} {W : wops S} {rel : S -> list Z -> option Z -> Prop} {exact : Prop}
        (ok : writer_ok W rel exact).

(** "if the size fits, continue, else BUFFER_FULL". *)
Lemma wrote_check c room bs tight s k : rel s c room -> zlen bs < 2 ^ 32 ->
  wrote rel c room bs tight k ->
  wrote rel c room bs tight (if zlen bs <=? w_get_available_size W s then k else Done (BufferFull, s)).
Proof.
  intros Hr Hl Hk. destruct (Z.leb_spec (zlen bs) (w_get_available_size W s)); [exact Hk|].
  destruct room as [n|].
  - pose proof (wo_avail _ _ _ ok _ _ _ Hr). apply (wrote_full ok) with n; auto; [|lia].
    intros ->. pose proof (wo_room _ _ _ ok _ _ _ Hr). rewrite zlen_nil in *. lia.
  - rewrite (wo_avail_inf _ _ _ ok _ _ Hr) in *. lia.
Qed.

Lemma tag_wrote num w tight s c room : 1 <= num < 2 ^ 29 -> rel s c room ->
  wrote rel c room (tag num w) tight (SerializeVarint W (MakeTag num w) s).
Proof.
  intros Hn Hr. rewrite MakeTag_spec by lia. eapply wrote_weaken; [|apply (SerializeVarint_wrote ok); auto].
  - tauto.
  - pose proof (wt_code_range w). lia.
Qed.

Lemma len_wrote n tight s c room : 0 <= n < 2 ^ 32 -> rel s c room ->
  wrote rel c room (varint n) tight (SerializeVarint W n s).
Proof.
  intros Hn Hr. eapply wrote_weaken; [|apply (SerializeVarint_wrote ok); auto]; [tauto|lia].
Qed.

Lemma zlen_delimited p : zlen p <= zlen (delimited p).
Proof. unfold delimited. rewrite zlen_app. pose proof (zlen_nonneg (varint (zlen p))). lia. Qed.

Lemma tag_nonempty num w : tag num w <> [].
Proof. apply varint_nonempty. Qed.

Definition elem_enc (optional : bool) (num : Z) (t : ety) (p : list Z) : list Z :=
  match t with
  | EScalar _ => enc_elem num t p
  | _ => if optional then enc_elem num t p else match p with [] => [] | _ => enc_elem num t p end
  end.

Lemma bytes_enc_len st max v : wt (EBytes st max) v ->
  exists len data, v = VB len data /\ zlen (enc (EBytes st max) (view (EBytes st max) v)) = len
    /\ 0 <= len <= max.
Proof.
  intros Hw. destruct v as [| |len data| |]; cbn [wt] in Hw; try tauto.
  exists len, data. split; [reflexivity|]. cbn [view enc]. rewrite zlen_firstn. lia.
Qed.

Lemma elem_serialize_wrote t v num optional s c room :
  ser_ok t -> wt t v -> desc_ok t -> 1 <= num < 2 ^ 29 ->
  zlen (elem_enc optional num t (enc t (view t v))) < 2 ^ 32 -> rel s c room ->
  wrote rel c room (elem_enc optional num t (enc t (view t v))) (exact \/ no_bytes t)
    (elem_serialize_with_id t (serialize t) v num optional S W s).
Proof.
  intros IH Hw Hd Hn Hl Hr. unfold elem_serialize_with_id. destruct t as [sc|st max|fs os].
  - cbn [elem_enc enc_elem] in *. destruct v; cbn [wt] in Hw; try tauto.
    unfold scalar_serialize_with_id. apply (with_tag_wrote ok); auto; [lia|].
    intros s' c' room' Hr'. cbn [view enc]. unfold scalar_serialize.
    eapply wrote_weaken; [|eapply (scalar_serialize_z_wrote ok); eauto]. auto.
  - cbn [desc_ok] in Hd. destruct (bytes_enc_len _ _ _ Hw) as (len & data & Ev & El & Hlen).
    set (p := enc (EBytes st max) (view (EBytes st max) v)) in *.
    unfold bytes_serialize_with_id. subst v. unfold capacity_ok in Hd.
    assert (Hp : zlen p < 2 ^ 32) by lia.
    destruct ((0 <? len) || optional) eqn:Ec.
    + assert (Ee : elem_enc optional num (EBytes st max) p = tag num LENDEL ++ delimited p).
      { cbn [elem_enc enc_elem]. destruct optional; [reflexivity|]. destruct p; [|reflexivity].
        rewrite zlen_nil in El. lia. }
      rewrite Ee in *. clear Ee.
      destruct (Z.leb_spec len (w_get_available_size W s)) as [Hav|Hav].
      * unfold delimited. rewrite El.
        assert (Hbind : forall r (k : S -> res (err * S)),
           (let* (e, s1) := r in
            let* (e, s2) := if is_ok e then SerializeVarint W len s1 else Done (e, s1) in
            if is_ok e && (0 <? len) then k s2 else Done (e, s2))
           = (let* (e, s1) := r in
              if is_ok e then
                let* (e, s2) := SerializeVarint W len s1 in
                if is_ok e then (if 0 <? len then k s2 else Done (NoErrors, s2)) else Done (e, s2)
              else Done (e, s1))).
        { intros r k. destruct r as [[e s1]| |]; cbn [bind]; auto. destruct e; cbn [bind is_ok andb]; auto.
          destruct (SerializeVarint W len s1) as [[e s2]| |]; cbn [bind]; auto.
          destruct e; cbn [is_ok andb]; auto. }
        rewrite (Hbind _ (fun s2 => bytes_serialize (VB len data) S W s2)).
        apply (wrote_bind); [apply tag_wrote; auto|]. intros s1 H1.
        apply (wrote_bind); [apply len_wrote; auto; lia|]. intros s2 H2.
        destruct (Z.ltb_spec 0 len).
        -- apply (wrote_weaken _ _ _ exact); [cbn [no_bytes]; tauto|].
           eapply (bytes_serialize_wrote st max); eauto. right. fold p. intros E.
           rewrite E, zlen_nil in *. lia.
        -- assert (Ep : p = []) by (apply zlen_0; lia). rewrite Ep.
           now apply (wrote_nil ok).
      * destruct room as [n|].
        -- pose proof (wo_avail _ _ _ ok _ _ _ Hr). apply (wrote_full ok) with n; auto.
           ++ destruct (tag num LENDEL) eqn:E; [now apply tag_nonempty in E|discriminate].
           ++ rewrite zlen_app. pose proof (zlen_delimited p). pose proof (zlen_nonneg (tag num LENDEL)). lia.
        -- rewrite (wo_avail_inf _ _ _ ok _ _ Hr) in *. lia.
    + destruct optional; [rewrite orb_true_r in Ec; discriminate|]. rewrite orb_false_r in Ec.
      assert (Ep : p = []) by (apply zlen_0; lia). cbn [elem_enc]. rewrite Ep.
      now apply (wrote_nil ok).
  - set (t := EMsg fs os) in *. set (p := enc t (view t v)) in *.
    assert (Hp : zlen p < 2 ^ 32).
    { cbn [elem_enc t] in Hl. unfold elem_enc, t, enc_elem in Hl.
      destruct optional; [|destruct p eqn:E; [cbn; lia|rewrite <- E in *]];
        rewrite zlen_app in Hl; pose proof (zlen_delimited p);
        pose proof (zlen_nonneg (tag num LENDEL)); lia. }
    rewrite (ser_ok_size t v IH Hw Hd Hp). fold p. cbn [bind].
    destruct ((0 <? zlen p) || optional) eqn:Ec.
    + assert (Ee : elem_enc optional num t p = tag num LENDEL ++ delimited p).
      { unfold elem_enc, t. destruct optional; [reflexivity|].
        assert (Hne : p <> []) by (intros E; rewrite E in Ec; discriminate).
        destruct p; [congruence|reflexivity]. }
      rewrite Ee. unfold delimited.
      apply (wrote_bind); [apply tag_wrote; auto|]. intros s1 H1.
      apply (wrote_bind); [apply len_wrote; auto; pose proof (zlen_nonneg p); lia|]. intros s2 H2.
      apply wrote_check; auto. eapply IH; eauto. right. exact I.
    + destruct optional; [rewrite orb_true_r in Ec; discriminate|]. rewrite orb_false_r in Ec.
      assert (Ep : p = []) by (apply zlen_0; pose proof (zlen_nonneg p); lia).
      unfold elem_enc, t. rewrite Ep. now apply (wrote_nil ok).
Qed.

(** ** Repeated fields *)

Lemma rep_get_const_nth data i x : nth_error data i = Some x -> zlen data < 2 ^ 31 ->
  rep_get_const data (Z.of_nat i) = Done x.
Proof.
  intros H Hl. unfold rep_get_const. pose proof (nth_error_lt _ _ _ H). 
  rewrite u32_small by (unfold zlen in *; lia).
  replace (Z.min (Z.of_nat i) (zlen data - 1)) with (Z.of_nat i) by (unfold zlen in *; lia).
  now apply aget_nat.
Qed.

Lemma firstn_skipn_cons {A} n i (l : list A) : (i + Datatypes.S n <= length l)%nat ->
  exists x, nth_error l i = Some x /\ firstn (Datatypes.S n) (skipn i l) = x :: firstn n (skipn (Datatypes.S i) l).
Proof.
  intros H. destruct (nth_error l i) as [x|] eqn:E.
  - exists x. split; auto. rewrite (skipn_cons_nth _ _ _ E). reflexivity.
  - apply nth_error_None in E. lia.
Qed.


Lemma rep_packed_wrote sc data : zlen data < 2 ^ 31 -> forall n i s c room,
  (i + n <= length data)%nat -> all (wt (EScalar sc)) data -> rel s c room ->
  wrote rel c room (flat_map (enc (EScalar sc)) (map (view (EScalar sc)) (firstn n (skipn i data)))) True
    (rep_serialize_packed (serialize (EScalar sc)) n (Z.of_nat i) data W s).
Proof.
  intros Hl. induction n as [|n IH]; intros i s c room Hi Hw Hr.
  - cbn [firstn map flat_map rep_serialize_packed]. now apply (wrote_nil ok).
  - destruct (firstn_skipn_cons n i data) as (x & Hx & ->); [lia|].
    cbn [map flat_map rep_serialize_packed]. rewrite (rep_get_const_nth _ _ _ Hx Hl). cbn [bind].
    apply (wrote_bind).
    + eapply wrote_weaken; [|eapply ser_ok_scalar; eauto].
      * cbn. auto.
      * apply all_Forall in Hw. eapply Forall_forall in Hw; [exact Hw|]. eapply nth_error_In; eauto.
      * exact I.
      * apply all_Forall in Hw. eapply Forall_forall in Hw; [|eapply nth_error_In; eauto].
        destruct x; cbn [wt] in Hw; try tauto. cbn [view enc].
        assert (Hlen : (length (scalar_enc sc z) <= 10)%nat).
        { assert (Hv : forall k m, (length (varint_groups k m) <= k)%nat).
          { induction k; intros m; cbn [varint_groups length]; [lia|]. destruct (m <? 128); cbn; [lia|].
            specialize (IHk (m / 128)). lia. }
          destruct sc; cbn [scalar_enc]; rewrite ?le_length; try (apply Hv); lia. }
        unfold zlen. lia.
    + intros s' Hs'. replace (Z.of_nat i + 1) with (Z.of_nat (Datatypes.S i)) by lia.
      apply IH; auto. lia.
Qed.

Lemma rep_unpacked_wrote t num data : zlen data < 2 ^ 31 -> is_packed t = false -> ser_ok t -> desc_ok t ->
  1 <= num < 2 ^ 29 -> forall n i s c room,
  (i + n <= length data)%nat -> all (wt t) data ->
  zlen (flat_map (fun x => enc_elem num t (enc t x)) (map (view t) (firstn n (skipn i data)))) < 2 ^ 32 ->
  rel s c room ->
  wrote rel c room (flat_map (fun x => enc_elem num t (enc t x)) (map (view t) (firstn n (skipn i data))))
    (exact \/ no_bytes t)
    (rep_serialize_unpacked (serialize t) num n (Z.of_nat i) data W s).
Proof.
  intros Hl Hpk IHt Hd Hnum. induction n as [|n IH]; intros i s c room Hi Hw Hlen Hr.
  - cbn [firstn map flat_map rep_serialize_unpacked]. now apply (wrote_nil ok).
  - destruct (firstn_skipn_cons n i data) as (x & Hx & E); [lia|]. rewrite E in *.
    cbn [map flat_map rep_serialize_unpacked] in *. rewrite (rep_get_const_nth _ _ _ Hx Hl). cbn [bind].
    set (p := enc t (view t x)) in *.
    assert (Hwx : wt t x).
    { apply all_Forall in Hw. eapply Forall_forall in Hw; [exact Hw|]. eapply nth_error_In; eauto. }
    assert (Ee : enc_elem num t p = tag num LENDEL ++ delimited p) by (destruct t; [discriminate|reflexivity..]).
    rewrite Ee in *. rewrite !zlen_app in Hlen.
    match type of Hlen with _ + zlen ?rest < _ => pose proof (zlen_nonneg rest) end.
    pose proof (zlen_delimited p). pose proof (zlen_nonneg (tag num LENDEL)). pose proof (zlen_nonneg p).
    rewrite (ser_ok_size t x IHt Hwx Hd) by (fold p; lia). fold p. cbn [bind].
    assert (Hbind : forall r (k : S -> res (err * S)) (kk : S -> res (err * S)),
           (let* (e, s1) := r in
            let* (e, s2) := if is_ok e then 
                               let* (e, s2) := SerializeVarint W (zlen p) s1 in
                               if is_ok e && (0 <? zlen p) then k s2 else Done (e, s2)
                            else Done (e, s1) in
            if is_ok e then kk s2 else Done (e, s2))
           = (let* (e, s3) := (let* (e, s1) := r in
              if is_ok e then
                let* (e, s2) := SerializeVarint W (zlen p) s1 in
                if is_ok e then (if 0 <? zlen p then k s2 else Done (NoErrors, s2)) else Done (e, s2)
              else Done (e, s1)) in
              if is_ok e then kk s3 else Done (e, s3))).
    { intros r k kk. destruct r as [[e s1]| |]; cbn [bind]; auto. destruct e; cbn [bind is_ok andb]; auto.
      destruct (SerializeVarint W (zlen p) s1) as [[e s2]| |]; cbn [bind]; auto.
      destruct e; cbn [is_ok andb bind]; auto. }
    rewrite (Hbind _ (fun s2 => serialize t x S W s2)). clear Hbind.
    apply (wrote_bind).
    + unfold delimited. apply (wrote_bind); [apply tag_wrote; auto|]. intros s1 Hs1.
      apply (wrote_bind); [apply len_wrote; auto; lia|]. intros s2 Hs2.
      destruct (Z.ltb_spec 0 (zlen p)) as [Hp|Hp].
      * assert (Hp0 : p <> []) by (intros Ep; apply (f_equal zlen) in Ep; change (zlen p = 0) in Ep; lia).
        eapply IHt; eauto; [fold p; lia|]. right. fold p. destruct t; auto.
      * assert (Ep : p = []) by (apply zlen_0; lia). rewrite Ep in Hs2 |- *. now apply (wrote_nil ok).
    + intros s' Hs'. replace (Z.of_nat i + 1) with (Z.of_nat (Datatypes.S i)) by lia.
      apply IH; auto; lia.
Qed.

End Elem.

Lemma flat_map_nil_iff {A B} (f : A -> list B) l : Forall (fun x => f x <> []) l -> flat_map f l = [] -> l = [].
Proof. intros H E. destruct l; auto. inversion H; subst. cbn in E. apply app_eq_nil in E. tauto. Qed.

(** ** Fields *)

Section Field.
Context {S : Type} {W : wops S} {rel : S -> list Z -> option Z -> Prop} {exact : Prop}
        (ok : writer_ok W rel exact).

Lemma rep_serialize_wrote t max v num s c room :
  ser_ok t -> wt_field (KRep max) (wt t) v -> desc_ok t -> capacity_ok max -> 1 <= num < 2 ^ 29 ->
  zlen (enc_field num (KRep max) t (enc t) (view_field (KRep max) (view t) 0 [] v)) < 2 ^ 32 ->
  rel s c room ->
  wrote rel c room (enc_field num (KRep max) t (enc t) (view_field (KRep max) (view t) 0 [] v))
    (exact \/ no_bytes t) (rep_serialize_with_id t (serialize t) v num false S W s).
Proof.
  intros IH Hw Hd Hc Hn Hl Hr. unfold capacity_ok in Hc.
  destruct v as [| | |len data|]; cbn [wt_field] in Hw; try tauto. destruct Hw as (Hlen & Hdata & Hall).
  cbn [view_field] in *. unfold rep_serialize_with_id.
  set (l := map (view t) (firstn (Z.to_nat len) data)) in *.
  assert (El : l = map (view t) (firstn (Z.to_nat len) (skipn 0 data))) by reflexivity.
  destruct (is_packed t) eqn:Hp.
  - destruct t as [sc| |]; try discriminate. cbn [enc_field] in *.
    set (p := flat_map (enc (EScalar sc)) l) in *.
    assert (Hne : Forall (fun x => enc (EScalar sc) x <> []) l).
    { unfold l. apply Forall_forall. intros y Hy. apply in_map_iff in Hy. destruct Hy as (x & <- & Hx).
      apply all_Forall in Hall. eapply Forall_forall in Hall.
      2: { rewrite <- (firstn_skipn (Z.to_nat len) data). apply in_or_app. left. exact Hx. }
      destruct x; cbn [wt] in Hall; try tauto. cbn [view enc]. now apply scalar_enc_nonempty. }
    assert (Hpl : zlen p < 2 ^ 32).
    { destruct l as [|x l'] eqn:E; [cbn; lia|]. unfold p in *. rewrite zlen_app in Hl.
      match type of Hl with _ + zlen (delimited ?q) < _ => pose proof (zlen_delimited q) end.
      pose proof (zlen_nonneg (tag num LENDEL)). lia. }
    rewrite (serialized_size_wrote _ p True).
    + cbn [bind]. rewrite orb_false_r. destruct (Z.ltb_spec 0 (zlen p)) as [Hpos|Hz].
      * assert (Ene : exists x l', l = x :: l').
        { destruct l as [|x l']; [unfold p in Hpos; cbn in Hpos; lia|eauto]. }
        destruct Ene as (x & l' & Ene).
        assert (Ee : (match l with [] => [] | _ :: _ => tag num LENDEL ++ delimited p end)
                     = tag num LENDEL ++ delimited p) by (rewrite Ene; reflexivity).
        rewrite Ee. unfold delimited.
        apply (wrote_bind); [apply (tag_wrote ok); auto|]. intros s1 H1.
        apply (wrote_bind); [apply (len_wrote ok); auto; lia|]. intros s2 H2.
        apply (wrote_check ok); auto.
        eapply wrote_weaken; [|apply (rep_packed_wrote ok sc data) with (i := O); auto; unfold zlen in *; lia].
        auto.
      * assert (Ep : p = []) by (apply zlen_0; pose proof (zlen_nonneg p); lia).
        apply flat_map_nil_iff in Ep; [|exact Hne]. rewrite Ep. now apply (wrote_nil ok).
    + exact Hpl.
    + apply (rep_packed_wrote calc_ok sc data) with (i := O); auto using calc_init; unfold zlen in *; lia.
  - assert (Ee : enc_field num (KRep max) t (enc t) (SvR l) = flat_map (fun x => enc_elem num t (enc t x)) l)
      by (destruct t; [discriminate|reflexivity..]).
    rewrite Ee in *. clear Ee.
    erewrite serialized_size_wrote; [|exact Hl|].
    + cbn [bind]. apply (wrote_check ok); auto.
      apply (rep_unpacked_wrote ok t num data) with (i := O); auto; unfold zlen in *; lia.
    + apply (rep_unpacked_wrote calc_ok t num data) with (i := O); auto using calc_init; unfold zlen in *; lia.
Qed.

Lemma differs_is_zero sc z : scalar_differs_from_default sc z = negb (is_zero sc z).
Proof. destruct sc; reflexivity. Qed.

Lemma field_serialize_wrote num k t v oi pres n s c room :
  ser_ok t -> wt_field k (wt t) v -> desc_ok t ->
  match k with KRep max => capacity_ok max | _ => True end -> 1 <= num < 2 ^ 29 ->
  zlen pres = presence_size n -> 0 <= oi -> oi + succ_opt k 0 <= n ->
  zlen (enc_field num k t (enc t) (view_field k (view t) oi pres v)) < 2 ^ 32 ->
  rel s c room ->
  wrote rel c room (enc_field num k t (enc t) (view_field k (view t) oi pres v))
    (exact \/ no_bytes t) (field_serialize (num, k, t, serialize t) oi pres v S W s).
Proof.
  intros IH Hw Hd Hc Hn Hp Hoi Hoi' Hl Hr. unfold field_serialize. destruct k as [| |max|].
  - cbn [wt_field] in Hw. cbn [view_field] in *. destruct t as [sc|st max|fs os].
    + destruct v; cbn [wt] in Hw; try tauto. rewrite differs_is_zero. cbn [view enc_field] in *.
      destruct (is_zero sc z); cbn [negb]; [now apply (wrote_nil ok)|].
      apply (elem_serialize_wrote ok (EScalar sc) (VS z) num false); auto.
    + assert (Ee : enc_field num KPlain (EBytes st max) (enc (EBytes st max)) (view (EBytes st max) v)
              = elem_enc false num (EBytes st max) (enc (EBytes st max) (view (EBytes st max) v))).
      { unfold enc_field, elem_enc. generalize (enc (EBytes st max)) as f. intros f.
        destruct (view (EBytes st max) v) as [?|?|?| |?|? ?]; match goal with |- context [f ?x] => destruct (f x) end; reflexivity. }
      rewrite Ee in *. replace (match v with VS _ => _ | _ => _ end) with
        (elem_serialize_with_id (EBytes st max) (serialize (EBytes st max)) v num false S W s) by (destruct v; reflexivity).
      apply (elem_serialize_wrote ok); auto.
    + assert (Ee : enc_field num KPlain (EMsg fs os) (enc (EMsg fs os)) (view (EMsg fs os) v)
              = elem_enc false num (EMsg fs os) (enc (EMsg fs os) (view (EMsg fs os) v))).
      { unfold enc_field, elem_enc. generalize (enc (EMsg fs os)) as f. intros f.
        destruct (view (EMsg fs os) v) as [?|?|?| |?|? ?]; match goal with |- context [f ?x] => destruct (f x) end; reflexivity. }
      rewrite Ee in *. replace (match v with VS _ => _ | _ => _ end) with
        (elem_serialize_with_id (EMsg fs os) (serialize (EMsg fs os)) v num false S W s) by (destruct v; reflexivity).
      apply (elem_serialize_wrote ok); auto.
  - cbn [succ_opt] in Hoi'. rewrite (presence_has_ok pres oi n) by lia. cbn [bind view_field] in *.
    destruct (present pres oi); [|cbn [enc_field]; now apply (wrote_nil ok)].
    cbn [enc_field wt_field] in *.
    assert (Ee : enc_elem num t (enc t (view t v)) = elem_enc true num t (enc t (view t v))) by (destruct t; reflexivity).
    rewrite Ee in *. apply (elem_serialize_wrote ok); auto.
  - apply rep_serialize_wrote; auto.
  - cbn [view_field enc_field]. now apply (wrote_nil ok).
Qed.

Lemma all_Forall' {A} (P : A -> Prop) l : all P l -> Forall P l.
Proof. apply all_Forall. Qed.

Lemma fields_serialize_wrote pres n : zlen pres = presence_size n -> forall fs vs oi s c room (tight : Prop),
  Forall (fun f : fdesc => ser_ok (snd f)) fs ->
  all (fun '(_, k, t) => desc_ok t /\ match k with KRep max => capacity_ok max | _ => True end) fs ->
  Forall (fun n => 1 <= n < 2 ^ 29) (map (fun '(num, _, _) => num) fs) ->
  all2 (fun '(_, k, t) => wt_field k (wt t)) fs vs ->
  0 <= oi -> oi + n_optional fs <= n ->
  zlen (enc_fields (map (fun '(num, k, t) => (num, k, t, enc t)) fs)
          (view_fields (map (fun '(_, k, t) => (k, view t)) fs) oi pres vs)) < 2 ^ 32 ->
  (tight -> exact \/ all (fun '(_, _, t) => no_bytes t) fs) ->
  rel s c room ->
  wrote rel c room (enc_fields (map (fun '(num, k, t) => (num, k, t, enc t)) fs)
          (view_fields (map (fun '(_, k, t) => (k, view t)) fs) oi pres vs)) tight
    (fields_serialize (map (fun '(num, k, t) => (num, k, t, serialize t)) fs) oi pres vs W s).
Proof.
  intros Hp. induction fs as [|[[num k] t] fs IHfs]; intros vs oi s c room tight HI Hd Hn Hw Hoi Hoi' Hl Ht Hr;
    destruct vs as [|v vs]; cbn [all2] in Hw; try tauto.
  - cbn [map view_fields enc_fields fields_serialize]. now apply (wrote_nil ok).
  - cbn [map view_fields enc_fields fields_serialize] in *.
    inversion HI; subst. inversion Hn; subst. cbn [all] in Hd. destruct Hd as ((Hd1 & Hd2) & Hd3).
    rewrite n_optional_cons in Hoi'. pose proof (n_optional_nonneg fs). pose proof (succ_opt_range k).
    rewrite zlen_app in Hl.
    match type of Hl with zlen ?a + zlen ?b < _ => pose proof (zlen_nonneg a); pose proof (zlen_nonneg b) end.
    apply (wrote_bind).
    + eapply wrote_weaken; [|eapply field_serialize_wrote with (n := n); eauto; try tauto; lia].
      intros HT. specialize (Ht HT). cbn [all] in Ht. tauto.
    + intros s' Hs'. pose proof (succ_opt_add k oi). rewrite (next_opt_succ k oi). apply IHfs; auto; try tauto; try lia.
      intros HT. specialize (Ht HT). cbn [all] in Ht. tauto.
Qed.

Lemma find_member_map {X} (f : ety -> X) (ms : odesc) id :
  find_member (map (fun '(num, t) => (num, t, f t)) ms) id
  = match lookup ms id with Some t => Some (t, f t) | None => None end.
Proof.
  induction ms as [|[num t] ms IH]; cbn [map find_member lookup]; [reflexivity|].
  destruct (num =? id); auto.
Qed.
Lemma lookup_map {A B} (f : A -> B) (ms : list (Z * A)) id :
  lookup (map (fun '(num, t) => (num, f t)) ms) id
  = match lookup ms id with Some t => Some (f t) | None => None end.
Proof.
  induction ms as [|[num t] ms IH]; cbn [map lookup]; [reflexivity|]. destruct (num =? id); auto.
Qed.
Lemma lookup_In {A} (ms : list (Z * A)) id x : lookup ms id = Some x -> In (id, x) ms.
Proof.
  induction ms as [|[num t] ms IH]; cbn [lookup]; [discriminate|].
  destruct (Z.eqb_spec num id); [intros [= ->]; subst; now left|right; auto].
Qed.

Lemma oneofs_serialize_wrote : forall os ovs s c room (tight : Prop),
  Forall (Forall (fun m : Z * ety => ser_ok (snd m))) os ->
  all (all (fun '(_, t) => desc_ok t)) os ->
  Forall (fun n => 1 <= n < 2 ^ 29) (flat_map (map fst) os) ->
  all2 (fun ms => wt_oneof (map (fun '(num, t) => (num, wt t)) ms)) os ovs ->
  zlen (enc_oneofs (map (map (fun '(num, t) => (num, (t, enc t)))) os)
          (view_oneofs (map (map (fun '(num, t) => (num, view t))) os) ovs)) < 2 ^ 32 ->
  (tight -> exact \/ all (all (fun '(_, t) => no_bytes t)) os) ->
  rel s c room ->
  wrote rel c room (enc_oneofs (map (map (fun '(num, t) => (num, (t, enc t)))) os)
          (view_oneofs (map (map (fun '(num, t) => (num, view t))) os) ovs)) tight
    (oneofs_serialize (map (map (fun '(num, t) => (num, t, serialize t))) os) ovs W s).
Proof.
  induction os as [|ms os IHos]; intros ovs s c room tight HI Hd Hn Hw Hl Ht Hr;
    destruct ovs as [|[which v] ovs]; cbn [all2] in Hw; try tauto.
  - cbn [map view_oneofs enc_oneofs oneofs_serialize]. now apply (wrote_nil ok).
  - cbn [map view_oneofs enc_oneofs oneofs_serialize flat_map] in *.
    inversion HI; subst. apply Forall_app in Hn. destruct Hn as (Hn1 & Hn2). cbn [all] in Hd.
    rewrite zlen_app in Hl.
    match type of Hl with zlen ?a + zlen ?b < _ => pose proof (zlen_nonneg a); pose proof (zlen_nonneg b) end.
    apply (wrote_bind).
    + rewrite find_member_map. destruct Hw as (Hw & _). unfold wt_oneof in Hw. cbn [fst snd] in Hw.
      unfold view_oneof, enc_oneof in *. cbn [fst snd] in *. rewrite lookup_map in *.
      rewrite lookup_map in *.
      destruct (lookup ms which) as [t|] eqn:El.
      * cbn [fst snd] in *. rewrite El in Hl, H |- *.
        pose proof (lookup_In _ _ _ El) as Hin.
        assert (Ee : enc_elem which t (enc t (view t v)) = elem_enc true which t (enc t (view t v))) by (destruct t; reflexivity).
        rewrite Ee in *. eapply wrote_weaken; [|apply (elem_serialize_wrote ok); auto; try lia].
        -- intros HT. specialize (Ht HT). cbn [all] in Ht. destruct Ht as [Ht|(Ht & _)]; [now left|right].
           apply all_Forall in Ht. eapply Forall_forall in Ht; [|exact Hin]. exact Ht.
        -- eapply Forall_forall in H1; [|exact Hin]. exact H1.
        -- rewrite lookup_map, El in Hw. exact Hw.
        -- destruct Hd as (Hd & _). apply all_Forall in Hd. eapply Forall_forall in Hd; [|exact Hin]. exact Hd.
        -- eapply Forall_forall in Hn1; [|apply in_map_iff; exists (which, t); eauto]. exact Hn1.
      * destruct (lookup ms (fst (0, SvNone))) as [?|]; now apply (wrote_nil ok).
    + intros s' Hs'. apply IHos; auto; try tauto; try lia.
      intros HT. specialize (Ht HT). cbn [all] in Ht. tauto.
Qed.

End Field.

Lemma ser_ok_msg fs os : Forall (fun f : fdesc => ser_ok (snd f)) fs ->
  Forall (Forall (fun m : Z * ety => ser_ok (snd m))) os -> ser_ok (EMsg fs os).
Proof.
  intros Hf Ho v Hw Hd Hl S W rel exact ok s c room Hr _.
  destruct v as [| | | |pres vs ovs]; cbn [wt] in Hw; try tauto.
  destruct Hw as (Hp & Hu & Hw1 & Hw2). cbn [desc_ok] in Hd. destruct Hd as (_ & Hn & Hd1 & Hd2).
  apply all_Forall in Hn. unfold field_numbers in Hn. apply Forall_app in Hn. destruct Hn as (Hn1 & Hn2).
  cbn [serialize]. unfold msg_serialize. cbn [view enc] in *. rewrite zlen_app in Hl.
  match type of Hl with zlen ?a + zlen ?b < _ => pose proof (zlen_nonneg a); pose proof (zlen_nonneg b) end.
  apply (wrote_bind).
  - eapply (fields_serialize_wrote ok) with (n := n_optional fs); eauto; try lia.
    cbn [no_bytes]. tauto.
  - intros s' Hs'. eapply (oneofs_serialize_wrote ok); eauto; try lia. cbn [no_bytes]. tauto.
Qed.

(** serialize writes the specification encoding, for every type and object. *)
Theorem serialize_wrote t : ser_ok t.
Proof.
  induction t using ety_ind'; auto using ser_ok_scalar, ser_ok_bytes, ser_ok_msg.
Qed.

Theorem serialized_size_enc t v : wt t v -> desc_ok t -> zlen (enc t (view t v)) < 2 ^ 32 ->
  serialized_size (serialize t v) = Done (zlen (enc t (view t v))).
Proof. intros. apply ser_ok_size; auto. apply serialize_wrote. Qed.
