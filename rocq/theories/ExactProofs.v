(** Which objects fit in exactly serialized_size() bytes (C17). *)
From Verif Require Import Base Buffers Wire Schema Fields Message Spec SpecExact Contracts BitLemmas WriteProofs
  ReadProofs ScalarProofs BufferProofs Struct SerProofs SerProps.
From Coq Require Import ZifyBool ZifyNat ZifyN.
Ltac Zify.zify_post_hook ::= Z.div_mod_to_equations.

Definition nonempty {A} (l : list A) : bool := match l with [] => false | _ => true end.
Lemma nonempty_false {A} (l : list A) : nonempty l = false <-> l = [].
Proof. destruct l; cbn; split; congruence. Qed.
Lemma nonempty_true {A} (l : list A) : nonempty l = true <-> l <> [].
Proof. destruct l; cbn; split; congruence. Qed.
Lemma nonempty_zlen (l : list Z) : l <> [] <-> 0 < zlen l.
Proof. destruct l; [cbn; split; [congruence|lia]|]. rewrite zlen_cons. pose proof (zlen_nonneg l). split; [lia|discriminate]. Qed.

(** Two pieces after one another. *)
Definition join (b2 : list Z) (f1 f2 : bool) : bool := if nonempty b2 then f2 else f1.

Section X.
Variable cap : Z.
Let rel := wfix_rel cap.
Let W := wfix_ops cap.

Definition exactly (bs : list Z) (flag : bool) (f : wfix -> res (err * wfix)) : Prop :=
  forall s c, rel s c (Some (zlen bs)) -> exists e s', f s = Done (e, s') /\ (e = NoErrors <-> flag = false).

Definition writes (bs : list Z) (f : wfix -> res (err * wfix)) : Prop :=
  forall s c room, rel s c room -> exists tight, wrote rel c room bs tight (f s).

Lemma exactly_tight bs (f : wfix -> res (err * wfix)) :
  (forall s c room, rel s c room -> wrote rel c room bs True (f s)) -> exactly bs false f.
Proof.
  intros H s c Hs. destruct (H s c _ Hs) as (e & s' & E & [(-> & _)|(-> & n & pre & suf & [= <-] & _ & _ & _ & _ & Ht)]).
  - exists NoErrors, s'. tauto.
  - specialize (Ht I). lia.
Qed.

Lemma exactly_bind bs1 bs2 f1 f2 f k :
  writes bs1 f -> (bs2 = [] -> exactly bs1 f1 f) -> (bs2 = [] -> f2 = false) -> exactly bs2 f2 k ->
  exactly (bs1 ++ bs2) (join bs2 f1 f2) (fun s => let* (e, s') := f s in if is_ok e then k s' else Done (e, s')).
Proof.
  intros Hw Hx H2 Hk s c Hs. unfold join. destruct (nonempty bs2) eqn:En.
  - apply nonempty_true, nonempty_zlen in En. rewrite zlen_app in Hs.
    destruct (Hw s c _ Hs) as (tight & e & s' & E & [(-> & H & _)|(-> & n & pre & suf & [= <-] & _ & _ & _ & Hp & _)]); [|lia].
    rewrite E. cbn [bind is_ok option_map] in *. replace (zlen bs1 + zlen bs2 - zlen bs1) with (zlen bs2) in H by lia.
    exact (Hk s' _ H).
  - apply nonempty_false in En. subst bs2. rewrite app_nil_r in Hs. specialize (H2 eq_refl). subst f2.
    destruct (Hx eq_refl s c Hs) as (e & s' & E & He).
    destruct (Hw s c _ Hs) as (tight & e' & s'' & E' & Hc). rewrite E in E'. injection E' as <- <-. rewrite E. cbn [bind].
    destruct Hc as [(-> & H & _)|(-> & _)].
    + cbn [is_ok option_map] in *. replace (zlen bs1 - zlen bs1) with 0 in H by lia.
      destruct (Hk s' _ H) as (e2 & s2 & E2 & He2). exists e2, s2. split; [exact E2|]. tauto.
    + exists BufferFull, s'. split; [reflexivity|]. exact He.
Qed.

Lemma writes_bind bs1 bs2 f k : writes bs1 f -> writes bs2 k ->
  writes (bs1 ++ bs2) (fun s => let* (e, s') := f s in if is_ok e then k s' else Done (e, s')).
Proof.
  intros H1 H2 s c room Hs. exists False. apply wrote_bind.
  - destruct (H1 s c room Hs) as (tight & H). eapply wrote_weaken; [|exact H]. tauto.
  - intros s' Hs'. destruct (H2 s' _ _ Hs') as (tight & H). eapply wrote_weaken; [|exact H]. tauto.
Qed.

Lemma exactly_nil : exactly [] false (fun s => Done (NoErrors, s)).
Proof. intros s c Hs. exists NoErrors, s. tauto. Qed.

Lemma exactly_check bs flag f : zlen bs < 2 ^ 32 -> exactly bs flag f ->
  exactly bs flag (fun s => if zlen bs <=? w_get_available_size W s then f s else Done (BufferFull, s)).
Proof.
  intros Hl H s c Hs. pose proof (wo_avail _ _ _ (wfix_ok cap) _ _ _ Hs) as Ha. fold W in Ha.
  destruct (Z.leb_spec (zlen bs) (w_get_available_size W s)); [|lia]. exact (H s c Hs).
Qed.

Lemma exactly_ext bs flag f g : (forall s, f s = g s) -> exactly bs flag g -> exactly bs flag f.
Proof. intros E H s c Hs. rewrite E. exact (H s c Hs). Qed.

(** What is shown of an element type. *)
Definition sharp (t : ety) : Prop := forall v, wt t v -> desc_ok t -> zlen (enc t (view t v)) < 2 ^ 32 ->
  (match t with EBytes _ _ => enc t (view t v) <> [] | _ => True end) ->
  exactly (enc t (view t v)) (ends_in_bytes t (view t v)) (serialize t v wfix W).

Lemma sharp_scalar sc : sharp (EScalar sc).
Proof.
  intros v Hw Hd Hl _. cbn [ends_in_bytes]. apply exactly_tight. intros s c room Hs.
  eapply wrote_weaken; [|eapply (ser_ok_scalar sc v Hw Hd Hl _ _ _ _ (wfix_ok cap)); [exact Hs|auto]]. cbn. auto.
Qed.

Lemma pushn_full s c src len : rel s c (Some len) -> 0 < len < 2 ^ 31 -> w_pushn W s src len = Done (false, s).
Proof.
  intros (Hd & Hcap & Hw & _ & _ & [= Hn]) Hl. cbn [W wfix_ops w_pushn]. unfold wfix_pushn.
  rewrite u32_small by lia. destruct (Z.ltb_spec (wf_w s + len) cap); [lia|reflexivity].
Qed.

Lemma sharp_bytes st max : sharp (EBytes st max).
Proof.
  intros v Hw Hd Hl Hne s c Hs. destruct (bytes_enc_len _ _ _ Hw) as (len & data & -> & El & Hlen).
  rewrite El in Hs. apply nonempty_zlen in Hne. rewrite El in Hne. cbn [serialize]. unfold bytes_serialize.
  cbn [desc_ok] in Hd. unfold capacity_ok in Hd. rewrite (pushn_full s c data len Hs) by lia. cbn [bind].
  exists BufferFull, s. split; [reflexivity|]. cbn [view ends_in_bytes enc] in *.
  destruct (firstn (Z.to_nat len) data) eqn:E; [rewrite zlen_nil in El; lia|]. split; discriminate.
Qed.

Lemma writes_tag num w : 1 <= num < 2 ^ 29 -> writes (tag num w) (SerializeVarint W (MakeTag num w)).
Proof. intros Hn s c room Hs. exists True. now apply (tag_wrote (wfix_ok cap)). Qed.
Lemma exactly_tag num w : 1 <= num < 2 ^ 29 -> exactly (tag num w) false (SerializeVarint W (MakeTag num w)).
Proof. intros Hn. apply exactly_tight. intros s c room Hs. now apply (tag_wrote (wfix_ok cap)). Qed.
Lemma writes_len n : 0 <= n < 2 ^ 32 -> writes (varint n) (SerializeVarint W n).
Proof. intros Hn s c room Hs. exists True. now apply (len_wrote (wfix_ok cap)). Qed.
Lemma exactly_len n : 0 <= n < 2 ^ 32 -> exactly (varint n) false (SerializeVarint W n).
Proof. intros Hn. apply exactly_tight. intros s c room Hs. now apply (len_wrote (wfix_ok cap)). Qed.

(** A record with a length in front of its payload. *)
Lemma exactly_record num p flag k : 1 <= num < 2 ^ 29 -> zlen p < 2 ^ 32 -> (p = [] -> flag = false) ->
  exactly p flag k ->
  exactly (tag num LENDEL ++ delimited p) flag
    (fun s => let* (e, s1) := SerializeVarint W (MakeTag num LENDEL) s in
      if is_ok e then (let* (e, s2) := SerializeVarint W (zlen p) s1 in if is_ok e then k s2 else Done (e, s2)) else Done (e, s1)).
Proof.
  intros Hn Hl Hp Hk. pose proof (zlen_nonneg p). unfold delimited.
  assert (H1 : exactly (varint (zlen p) ++ p) (join p false flag)
    (fun s1 => let* (e, s2) := SerializeVarint W (zlen p) s1 in if is_ok e then k s2 else Done (e, s2))).
  { apply exactly_bind; auto; [apply writes_len|intros _; apply exactly_len]; lia. }
  assert (Ej : join p false flag = flag) by (unfold join; destruct p; cbn; auto; symmetry; auto).
  rewrite Ej in H1.
  assert (Hv : varint (zlen p) ++ p <> []) by (intros E; apply app_eq_nil in E; destruct E as [E _]; now apply varint_nonempty in E).
  pose proof (exactly_bind (tag num LENDEL) (varint (zlen p) ++ p) false flag (SerializeVarint W (MakeTag num LENDEL)) _
    (writes_tag num LENDEL Hn) (fun _ => exactly_tag num LENDEL Hn) (fun E => False_ind _ (Hv E)) H1) as H2.
  unfold join in H2. rewrite (proj2 (nonempty_true _) Hv) in H2. exact H2.
Qed.

Lemma last_nil_aux : forall l acc, (forall p, In p l -> fst p = []) -> fold_left (fun a (p : list Z * bool) => match fst p with [] => a | _ => snd p end) l acc = acc.
Proof.
  induction l as [|p l IH]; intros acc H; [reflexivity|]. cbn [fold_left]. rewrite (H p (or_introl eq_refl)). apply IH. intros q Hq. apply H. now right.
Qed.

Definition bytes_of (l : list (list Z * bool)) : list Z := flat_map fst l.

Lemma bytes_of_nil l : bytes_of l = [] -> forall p, In p l -> fst p = [].
Proof.
  induction l as [|q l IH]; intros H p Hp; [destruct Hp|]. cbn [bytes_of flat_map] in H. apply app_eq_nil in H. destruct H as [H1 H2].
  destruct Hp as [->|Hp]; auto.
Qed.

Lemma last_piece_nil l : bytes_of l = [] -> last_piece l = false.
Proof. intros H. apply last_nil_aux. now apply bytes_of_nil. Qed.

Lemma last_aux : forall l acc, bytes_of l <> [] ->
  fold_left (fun a (p : list Z * bool) => match fst p with [] => a | _ => snd p end) l acc = last_piece l.
Proof.
  unfold last_piece. induction l as [|p l IH]; intros acc H; [now destruct H|]. cbn [fold_left].
  destruct (bytes_of l) as [|b bl] eqn:E.
  - cbn [bytes_of flat_map] in H. fold (bytes_of l) in H. rewrite E, app_nil_r in H. destruct (fst p); [now destruct H|].
    reflexivity.
  - etransitivity; [apply IH; discriminate|]. symmetry. apply IH. discriminate.
Qed.

Lemma last_piece_app l1 l2 : last_piece (l1 ++ l2) = join (bytes_of l2) (last_piece l1) (last_piece l2).
Proof.
  unfold last_piece at 1. rewrite fold_left_app. unfold join. destruct (nonempty (bytes_of l2)) eqn:E.
  - apply nonempty_true in E. now apply last_aux.
  - apply nonempty_false in E. apply last_nil_aux. now apply bytes_of_nil.
Qed.

Lemma last_piece_one bs f : last_piece [(bs, f)] = if nonempty bs then f else false.
Proof. destruct bs; reflexivity. Qed.

Lemma ends_nil t v : enc t v = [] -> ends_in_bytes t v = false.
Proof.
  destruct t as [sc|st max|fs os]; cbn [enc ends_in_bytes]; [reflexivity|destruct v as [|[|]| | | |]; congruence|].
  destruct v as [| | | | |vs ovs]; try reflexivity. intros H. apply last_piece_nil.
  unfold bytes_of. rewrite flat_map_app. apply app_eq_nil in H. destruct H as [H1 H2].
  assert (E1 : forall fs vs, flat_map fst (field_pieces (map (fun '(num, k, t) => (num, k, t, enc t, ends_in_bytes t)) fs) vs)
    = enc_fields (map (fun '(num, k, t) => (num, k, t, enc t)) fs) vs).
  { induction fs0 as [|[[num k] t] fs0 IH]; intros [|v vs0]; cbn [map field_pieces enc_fields flat_map fst]; auto. now rewrite IH. }
  assert (E2 : forall os ovs, flat_map fst (oneof_pieces (map (map (fun '(num, t) => (num, (t, enc t, ends_in_bytes t)))) os) ovs)
    = enc_oneofs (map (map (fun '(num, t) => (num, (t, enc t)))) os) ovs).
  { induction os0 as [|ms os0 IH]; intros [|[id x] ovs0]; cbn [map oneof_pieces enc_oneofs flat_map]; auto. rewrite IH. f_equal.
    unfold enc_oneof. cbn [fst snd]. rewrite !(lookup_map (fun t => (t, enc t))), !(lookup_map (fun t => (t, enc t, ends_in_bytes t))).
    destruct (lookup ms id); [|reflexivity]. destruct x; reflexivity. }
  now rewrite E1, E2, H1, H2.
Qed.

(** An element with its tag: plain fields leave out an empty string, bytes or message. *)
Lemma elem_exactly t v num optional :
  sharp t -> wt t v -> desc_ok t -> 1 <= num < 2 ^ 29 ->
  zlen (elem_enc optional num t (enc t (view t v))) < 2 ^ 32 ->
  exactly (elem_enc optional num t (enc t (view t v))) (ends_in_bytes t (view t v))
    (elem_serialize_with_id t (serialize t) v num optional wfix W).
Proof.
  intros IH Hw Hd Hn Hl. destruct t as [sc|st max|fs os].
  - cbn [ends_in_bytes]. apply exactly_tight. intros s c room Hs.
    eapply wrote_weaken; [|apply (elem_serialize_wrote (wfix_ok cap) (EScalar sc) v num optional); auto; apply serialize_wrote].
    cbn. auto.
  - unfold elem_serialize_with_id. pose proof Hd as Hd0. cbn [desc_ok] in Hd. destruct (bytes_enc_len _ _ _ Hw) as (len & data & Ev & El & Hlen).
    specialize (IH v Hw Hd0). set (p := enc (EBytes st max) (view (EBytes st max) v)) in *.
    pose proof (ends_nil (EBytes st max) (view (EBytes st max) v)) as He. fold p in He.
    set (flag := ends_in_bytes (EBytes st max) (view (EBytes st max) v)) in *. clearbody flag.
    unfold capacity_ok in Hd. unfold bytes_serialize_with_id. rewrite Ev in IH |- *. clearbody p.
    destruct ((0 <? len) || optional) eqn:Ec.
    + assert (Ee : elem_enc optional num (EBytes st max) p = tag num LENDEL ++ delimited p).
      { cbn [elem_enc enc_elem]. destruct optional; [reflexivity|]. destruct p; [|reflexivity]. rewrite zlen_nil in El. lia. }
      rewrite Ee in *. clear Ee.
      assert (Hrec : exactly (tag num LENDEL ++ delimited p) flag
        (fun s => let* (e, s1) := SerializeVarint W (MakeTag num LENDEL) s in
           if is_ok e then (let* (e, s2) := SerializeVarint W (zlen p) s1 in
             if is_ok e then (if 0 <? len then bytes_serialize (VB len data) wfix W s2 else Done (NoErrors, s2)) else Done (e, s2)) else Done (e, s1))).
      { apply exactly_record with (k := fun s2 => if 0 <? len then bytes_serialize (VB len data) wfix W s2 else Done (NoErrors, s2)); auto; [lia|].
        destruct (Z.ltb_spec 0 len).
        - apply IH; [lia|]. apply nonempty_zlen. lia.
        - assert (Ep : p = []) by (apply zlen_0; lia). rewrite (He Ep), Ep. exact exactly_nil. }
      intros s c Hs. pose proof (wo_avail _ _ _ (wfix_ok cap) _ _ _ Hs) as Ha. fold W in Ha.
      pose proof (zlen_delimited p). rewrite zlen_app in Ha. pose proof (zlen_nonneg (tag num LENDEL)).
      destruct (Z.leb_spec len (w_get_available_size W s)) as [Hav|Hav]; [|lia].
      destruct (Hrec s c Hs) as (e & s' & E & Hx). exists e, s'. split; [|exact Hx]. rewrite <- E, El.
      destruct (SerializeVarint W (MakeTag num LENDEL) s) as [[e1 s1]| |]; cbn [bind]; auto.
      destruct e1; cbn [bind is_ok andb]; auto.
      destruct (SerializeVarint W len s1) as [[e2 s2]| |]; cbn [bind]; auto. destruct e2; cbn [is_ok andb]; auto.
    + destruct optional; [rewrite orb_true_r in Ec; discriminate|]. rewrite orb_false_r in Ec.
      assert (Ep : p = []) by (apply zlen_0; lia). cbn [elem_enc]. rewrite (He Ep), Ep. exact exactly_nil.
  - unfold elem_serialize_with_id. set (t := EMsg fs os) in *. specialize (IH v Hw Hd).
    pose proof (ends_nil t (view t v)) as He. pose proof (ser_ok_size t v (serialize_wrote t) Hw Hd) as Hsz.
    set (p := enc t (view t v)) in *.
    assert (Hp : zlen p < 2 ^ 32).
    { unfold elem_enc, t, enc_elem in Hl.
      destruct optional; [|destruct p eqn:E; [cbn; lia|rewrite <- E in *]];
        rewrite zlen_app in Hl; pose proof (zlen_delimited p);
        pose proof (zlen_nonneg (tag num LENDEL)); lia. }
    specialize (Hsz Hp). specialize (IH Hp I).
    apply exactly_ext with (g := fun s => if (0 <? zlen p) || optional then
        (let* (e, s1) := SerializeVarint W (MakeTag num LENDEL) s in
         if is_ok e then (let* (e, s2) := SerializeVarint W (zlen p) s1 in
           if is_ok e then (if zlen p <=? w_get_available_size W s2 then serialize t v wfix W s2 else Done (BufferFull, s2)) else Done (e, s2))
         else Done (e, s1)) else Done (NoErrors, s)).
    { intros s. rewrite Hsz. reflexivity. }
    destruct ((0 <? zlen p) || optional) eqn:Ec.
    + assert (Ee : elem_enc optional num t p = tag num LENDEL ++ delimited p).
      { unfold elem_enc, t. destruct optional; [reflexivity|].
        assert (Hne : p <> []) by (intros E; rewrite E in Ec; discriminate).
        destruct p; [congruence|reflexivity]. }
      rewrite Ee.
      apply exactly_record with (k := fun s2 => if zlen p <=? w_get_available_size W s2 then serialize t v wfix W s2 else Done (BufferFull, s2)); auto.
      now apply exactly_check.
    + destruct optional; [rewrite orb_true_r in Ec; discriminate|]. rewrite orb_false_r in Ec.
      assert (Ep : p = []) by (apply zlen_0; pose proof (zlen_nonneg p); lia).
      rewrite (He Ep), Ep. exact exactly_nil.
Qed.

Definition last_elem (t : ety) (l : list sval) : bool := match rev l with [] => false | x :: _ => ends_in_bytes t x end.

Lemma last_elem_cons t x l : last_elem t (x :: l) = if nonempty l then last_elem t l else ends_in_bytes t x.
Proof.
  unfold last_elem. cbn [rev]. destruct l as [|y l]; [reflexivity|]. cbn [nonempty].
  destruct (rev (y :: l)) eqn:E; [|reflexivity]. apply (f_equal (@length _)) in E. rewrite rev_length in E. discriminate.
Qed.

Lemma rep_unpacked_exactly t num data : zlen data < 2 ^ 31 -> is_packed t = false -> sharp t -> desc_ok t ->
  1 <= num < 2 ^ 29 -> forall n i,
  (i + n <= length data)%nat -> all (wt t) data ->
  let l := map (view t) (firstn n (skipn i data)) in
  zlen (flat_map (fun x => enc_elem num t (enc t x)) l) < 2 ^ 32 ->
  exactly (flat_map (fun x => enc_elem num t (enc t x)) l) (last_elem t l)
    (rep_serialize_unpacked (serialize t) num n (Z.of_nat i) data W).
Proof.
  intros Hl Hpk IHt Hd Hnum. induction n as [|n IH]; intros i Hi Hw l Hlen; unfold l in *.
  - exact exactly_nil.
  - destruct (firstn_skipn_cons n i data) as (x & Hx & E); [lia|]. rewrite E in *.
    cbn [map flat_map] in *.
    set (p := enc t (view t x)) in *.
    assert (Hwx : wt t x).
    { apply all_Forall in Hw. eapply Forall_forall in Hw; [exact Hw|]. eapply nth_error_In; eauto. }
    assert (Ee : enc_elem num t p = tag num LENDEL ++ delimited p) by (destruct t; [discriminate|reflexivity..]).
    rewrite Ee in *. rewrite !zlen_app in Hlen.
    match type of Hlen with _ + zlen ?rest < _ => pose proof (zlen_nonneg rest) end.
    pose proof (zlen_delimited p). pose proof (zlen_nonneg (tag num LENDEL)). pose proof (zlen_nonneg p).
    assert (Hpl : zlen p < 2 ^ 32) by lia.
    set (f := fun s => let* (e, s1) := SerializeVarint W (MakeTag num LENDEL) s in
              if is_ok e then
                let* (e, s2) := SerializeVarint W (zlen p) s1 in
                if is_ok e then (if 0 <? zlen p then serialize t x wfix W s2 else Done (NoErrors, s2)) else Done (e, s2)
              else Done (e, s1)).
    set (k := rep_serialize_unpacked (serialize t) num n (Z.of_nat (S i)) data W).
    apply exactly_ext with (g := fun s => let* (e, s') := f s in if is_ok e then k s' else Done (e, s')).
    { intros s. cbn [rep_serialize_unpacked]. rewrite (rep_get_const_nth _ _ _ Hx Hl). cbn [bind].
      rewrite (ser_ok_size t x (serialize_wrote t) Hwx Hd Hpl). fold p. cbn [bind]. unfold f.
      destruct (SerializeVarint W (MakeTag num LENDEL) s) as [[e1 s1]| |]; cbn [bind]; auto.
      destruct e1; cbn [bind is_ok andb]; auto.
      destruct (SerializeVarint W (zlen p) s1) as [[e2 s2]| |]; cbn [bind]; auto. unfold k.
      replace (Z.of_nat i + 1) with (Z.of_nat (S i)) by lia. destruct e2; cbn [is_ok andb bind]; auto. }
    rewrite last_elem_cons.
    assert (Hne : nonempty (map (view t) (firstn n (skipn (S i) data)))
      = nonempty (flat_map (fun y => enc_elem num t (enc t y)) (map (view t) (firstn n (skipn (S i) data))))).
    { destruct (map (view t) (firstn n (skipn (S i) data))) as [|y l']; [reflexivity|]. cbn [flat_map nonempty].
      assert (Ee' : enc_elem num t (enc t y) = tag num LENDEL ++ delimited (enc t y)) by (destruct t; [discriminate|reflexivity..]).
      rewrite Ee'. destruct (tag num LENDEL) eqn:Et; [now apply tag_nonempty in Et|reflexivity]. }
    rewrite Hne.
    apply (exactly_bind (tag num LENDEL ++ delimited p) _ (ends_in_bytes t (view t x)) (last_elem t _) f k).
    + intros s c room Hs. exists False. unfold f, delimited.
      apply (wrote_bind); [apply (tag_wrote (wfix_ok cap)); auto|]. intros s1 Hs1.
      apply (wrote_bind); [apply (len_wrote (wfix_ok cap)); auto; lia|]. intros s2 Hs2.
      destruct (Z.ltb_spec 0 (zlen p)) as [Hp|Hp].
      * assert (Hp0 : p <> []) by now apply nonempty_zlen.
        eapply wrote_weaken; [|eapply serialize_wrote; [exact Hwx|exact Hd|exact Hpl|exact (wfix_ok cap)|exact Hs2|]]; [tauto|].
        right. fold p. destruct t; auto.
      * assert (Ep : p = []) by (apply zlen_0; lia). rewrite Ep in Hs2 |- *. now apply (wrote_nil (wfix_ok cap)).
    + intros _. unfold f.
      apply exactly_record with (k := fun s2 => if 0 <? zlen p then serialize t x wfix W s2 else Done (NoErrors, s2)); auto.
      * apply ends_nil.
      * destruct (Z.ltb_spec 0 (zlen p)) as [Hp|Hp].
        -- apply IHt; auto. apply nonempty_zlen in Hp. destruct t; auto.
        -- assert (Ep : p = []) by (apply zlen_0; lia). rewrite (ends_nil t (view t x) Ep). rewrite Ep. exact exactly_nil.
    + intros Eb. destruct (map (view t) (firstn n (skipn (S i) data))); [reflexivity|]. rewrite Eb in Hne. discriminate.
    + apply IH; auto; lia.
Qed.

Lemma field_exactly num k t v oi pres n :
  sharp t -> wt_field k (wt t) v -> desc_ok t ->
  match k with KRep max => capacity_ok max | _ => True end -> 1 <= num < 2 ^ 29 ->
  zlen pres = presence_size n -> 0 <= oi -> oi + succ_opt k 0 <= n ->
  let x := view_field k (view t) oi pres v in
  zlen (enc_field num k t (enc t) x) < 2 ^ 32 ->
  exactly (enc_field num k t (enc t) x) (if nonempty (enc_field num k t (enc t) x) then field_ends k t (ends_in_bytes t) x else false)
    (field_serialize (num, k, t, serialize t) oi pres v wfix W).
Proof.
  intros IH Hw Hd Hc Hn Hp Hoi Hoi' x Hl. unfold x in *. clear x.
  destruct (nonempty (enc_field num k t (enc t) (view_field k (view t) oi pres v))) eqn:Hne.
  2: { apply nonempty_false in Hne. rewrite Hne. apply exactly_tight. intros s c room Hs.
       pose proof (field_serialize_wrote (wfix_ok cap) num k t v oi pres n s c room (serialize_wrote t) Hw Hd Hc Hn Hp Hoi Hoi' Hl Hs) as H.
       rewrite Hne in H. destruct H as (e & s' & E & [H|(-> & m & pre & suf & _ & Eb & Hs' & _)]).
       - exists e, s'. split; [exact E|]. now left.
       - symmetry in Eb. apply app_eq_nil in Eb. now destruct Eb. }
  unfold field_serialize. destruct k as [| |max|].
  - cbn [wt_field] in Hw. cbn [view_field field_ends] in *. destruct t as [sc|st max|fs os].
    + destruct v; cbn [wt] in Hw; try tauto. rewrite differs_is_zero. cbn [view enc_field] in *.
      destruct (is_zero sc z); cbn [negb]; [discriminate|].
      apply (elem_exactly (EScalar sc) (VS z) num false); auto.
    + assert (Ee : enc_field num KPlain (EBytes st max) (enc (EBytes st max)) (view (EBytes st max) v)
              = elem_enc false num (EBytes st max) (enc (EBytes st max) (view (EBytes st max) v))).
      { unfold enc_field, elem_enc. generalize (enc (EBytes st max)) as f. intros f.
        destruct (view (EBytes st max) v) as [?|?|?| |?|? ?]; match goal with |- context [f ?x] => destruct (f x) end; reflexivity. }
      rewrite Ee in *.
      replace (match v with VS _ => _ | _ => _ end) with
        (elem_serialize_with_id (EBytes st max) (serialize (EBytes st max)) v num false wfix W) by (destruct v; reflexivity).
      apply elem_exactly; auto.
    + assert (Ee : enc_field num KPlain (EMsg fs os) (enc (EMsg fs os)) (view (EMsg fs os) v)
              = elem_enc false num (EMsg fs os) (enc (EMsg fs os) (view (EMsg fs os) v))).
      { unfold enc_field, elem_enc. generalize (enc (EMsg fs os)) as f. intros f.
        destruct (view (EMsg fs os) v) as [?|?|?| |?|? ?]; match goal with |- context [f ?x] => destruct (f x) end; reflexivity. }
      rewrite Ee in *.
      replace (match v with VS _ => _ | _ => _ end) with
        (elem_serialize_with_id (EMsg fs os) (serialize (EMsg fs os)) v num false wfix W) by (destruct v; reflexivity).
      apply elem_exactly; auto.
  - cbn [succ_opt] in Hoi'. apply exactly_ext with
      (g := fun s => if present pres oi then elem_serialize_with_id t (serialize t) v num true wfix W s else Done (NoErrors, s)).
    { intros s. rewrite (presence_has_ok pres oi n) by lia. reflexivity. }
    cbn [view_field] in *. destruct (present pres oi); [|discriminate].
    cbn [enc_field wt_field field_ends] in *.
    assert (Ee : enc_elem num t (enc t (view t v)) = elem_enc true num t (enc t (view t v))) by (destruct t; reflexivity).
    rewrite Ee in *. apply elem_exactly; auto.
  - destruct (is_packed t) eqn:Hpk.
    + destruct t as [sc| |]; try discriminate. replace (field_ends _ _ _ _) with false by (destruct (view_field _ _ _ _ _); reflexivity).
      apply exactly_tight. intros s c room Hs.
      eapply wrote_weaken; [|exact (field_serialize_wrote (wfix_ok cap) num (KRep max) (EScalar sc) v oi pres n s c room (serialize_wrote _) Hw Hd Hc Hn Hp Hoi Hoi' Hl Hs)]. cbn. auto.
    + unfold capacity_ok in Hc.
      destruct v as [| | |len data|]; cbn [wt_field] in Hw; try tauto. destruct Hw as (Hlen & Hdata & Hall).
      cbn [view_field] in *. unfold rep_serialize_with_id. rewrite Hpk.
      set (l := map (view t) (firstn (Z.to_nat len) data)) in *.
      assert (Ee : enc_field num (KRep max) t (enc t) (SvR l) = flat_map (fun x => enc_elem num t (enc t x)) l)
        by (destruct t; [discriminate|reflexivity..]).
      assert (Ef : field_ends (KRep max) t (ends_in_bytes t) (SvR l) = last_elem t l) by (destruct t; [discriminate|reflexivity..]).
      rewrite Ef. rewrite Ee in *. clear Ee Ef.
      match goal with |- exactly ?bs _ _ => apply exactly_ext with
        (g := fun s => if zlen bs <=? w_get_available_size W s then rep_serialize_unpacked (serialize t) num (Z.to_nat len) 0 data W s else Done (BufferFull, s)) end.
      { intros s. erewrite serialized_size_wrote; [reflexivity|exact Hl|].
        apply (rep_unpacked_wrote calc_ok t num data) with (i := O); auto using calc_init, serialize_wrote; unfold zlen in *; lia. }
      apply exactly_check; auto.
      apply (rep_unpacked_exactly t num data) with (i := O); auto; unfold zlen in *; lia.
  - discriminate.
Qed.

Definition fpieces (fs : list fdesc) (xs : list sval) : list (list Z * bool) :=
  field_pieces (map (fun '(num, k, t) => (num, k, t, enc t, ends_in_bytes t)) fs) xs.
Definition opieces (os : list odesc) (xs : list (Z * sval)) : list (list Z * bool) :=
  oneof_pieces (map (map (fun '(num, t) => (num, (t, enc t, ends_in_bytes t)))) os) xs.

Lemma last_piece_cons bs f l : last_piece ((bs, f) :: l) = join (bytes_of l) (if nonempty bs then f else false) (last_piece l).
Proof. change ((bs, f) :: l) with ([(bs, f)] ++ l). now rewrite last_piece_app, last_piece_one. Qed.

Lemma bytes_fpieces : forall fs xs, bytes_of (fpieces fs xs) = enc_fields (map (fun '(num, k, t) => (num, k, t, enc t)) fs) xs.
Proof.
  unfold fpieces, bytes_of.
  induction fs as [|[[num k] t] fs IH]; intros [|v vs]; cbn [map field_pieces enc_fields flat_map fst]; auto. now rewrite IH.
Qed.
Lemma bytes_opieces : forall os xs, bytes_of (opieces os xs) = enc_oneofs (map (map (fun '(num, t) => (num, (t, enc t)))) os) xs.
Proof.
  unfold opieces, bytes_of.
  induction os as [|ms os IH]; intros [|[id x] ovs]; cbn [map oneof_pieces enc_oneofs flat_map]; auto. rewrite IH. f_equal.
  unfold enc_oneof. cbn [fst snd]. rewrite !(lookup_map (fun t => (t, enc t))), !(lookup_map (fun t => (t, enc t, ends_in_bytes t))).
  destruct (lookup ms id); [|reflexivity]. destruct x; reflexivity.
Qed.

Lemma fields_exactly pres n : zlen pres = presence_size n -> forall fs vs oi,
  Forall (fun f : fdesc => sharp (snd f)) fs ->
  all (fun '(_, k, t) => desc_ok t /\ match k with KRep max => capacity_ok max | _ => True end) fs ->
  Forall (fun n => 1 <= n < 2 ^ 29) (map (fun '(num, _, _) => num) fs) ->
  all2 (fun '(_, k, t) => wt_field k (wt t)) fs vs ->
  0 <= oi -> oi + n_optional fs <= n ->
  let xs := view_fields (map (fun '(_, k, t) => (k, view t)) fs) oi pres vs in
  zlen (bytes_of (fpieces fs xs)) < 2 ^ 32 ->
  exactly (bytes_of (fpieces fs xs)) (last_piece (fpieces fs xs))
    (fields_serialize (map (fun '(num, k, t) => (num, k, t, serialize t)) fs) oi pres vs W).
Proof.
  intros Hp. induction fs as [|[[num k] t] fs IHfs]; intros vs oi HI Hd Hn Hw Hoi Hoi' xs Hl;
    destruct vs as [|v vs]; cbn [all2] in Hw; try tauto; unfold xs in *; clear xs.
  - exact exactly_nil.
  - apply Forall_cons_iff in HI. destruct HI as [HI1 HI2]. cbn [map] in Hn. apply Forall_cons_iff in Hn. destruct Hn as [Hn1 Hn2].
    cbn [all] in Hd. destruct Hd as ((Hd1 & Hd2) & Hd3). destruct Hw as [Hw1 Hw2].
    rewrite n_optional_cons in Hoi'. pose proof (n_optional_nonneg fs). pose proof (succ_opt_range k).
    pose proof (succ_opt_add k oi).
    cbn [map view_fields] in *. unfold fpieces in *. cbn [map field_pieces] in *.
    fold (fpieces fs (view_fields (map (fun '(_, k, t) => (k, view t)) fs) (next_opt k oi) pres vs)) in *.
    rewrite last_piece_cons. cbn [bytes_of flat_map fst] in *. fold (bytes_of (fpieces fs (view_fields (map (fun '(_, k, t) => (k, view t)) fs) (next_opt k oi) pres vs))) in *.
    rewrite zlen_app in Hl.
    match type of Hl with zlen ?a + zlen ?b < _ => pose proof (zlen_nonneg a); pose proof (zlen_nonneg b) end.
    cbn [fields_serialize].
    apply exactly_bind with (f := field_serialize (num, k, t, serialize t) oi pres v wfix W).
    + intros s c room Hs. eexists. apply (field_serialize_wrote (wfix_ok cap) num k t v oi pres n s c room (serialize_wrote t)); auto; lia.
    + intros _. apply (field_exactly num k t v oi pres n); auto; lia.
    + apply last_piece_nil.
    + rewrite (next_opt_succ k oi). apply (IHfs vs (succ_opt k oi)); auto; try lia. unfold bytes_of. lia.
Qed.

Lemma oneofs_exactly : forall os ovs,
  Forall (Forall (fun m : Z * ety => sharp (snd m))) os ->
  all (all (fun '(_, t) => desc_ok t)) os ->
  Forall (fun n => 1 <= n < 2 ^ 29) (flat_map (map fst) os) ->
  all2 (fun ms => wt_oneof (map (fun '(num, t) => (num, wt t)) ms)) os ovs ->
  let xs := view_oneofs (map (map (fun '(num, t) => (num, view t))) os) ovs in
  zlen (bytes_of (opieces os xs)) < 2 ^ 32 ->
  exactly (bytes_of (opieces os xs)) (last_piece (opieces os xs))
    (oneofs_serialize (map (map (fun '(num, t) => (num, t, serialize t))) os) ovs W).
Proof.
  induction os as [|ms os IHos]; intros ovs HI Hd Hn Hw xs Hl;
    destruct ovs as [|[which v] ovs]; cbn [all2] in Hw; try tauto; unfold xs in *; clear xs.
  - exact exactly_nil.
  - apply Forall_cons_iff in HI. destruct HI as [HI1 HI2]. cbn [flat_map] in Hn. apply Forall_app in Hn. destruct Hn as (Hn1 & Hn2). cbn [all] in Hd.
    destruct Hd as [Hd1 Hd2]. destruct Hw as [Hw1 Hw2]. unfold wt_oneof in Hw1. cbn [fst snd] in Hw1. rewrite lookup_map in Hw1.
    cbn [map view_oneofs] in *. unfold view_oneof in *. cbn [fst snd] in *. rewrite (lookup_map view) in *.
    cbn [oneofs_serialize].
    set (r := view_oneofs (map (map (fun '(num, t) => (num, view t))) os) ovs) in *.
    destruct (lookup ms which) as [t|] eqn:El.
    + pose proof (lookup_In _ _ _ El) as Hin.
      assert (Hs : sharp t) by (eapply Forall_forall in HI1; [|exact Hin]; exact HI1).
      assert (Hdt : desc_ok t) by (apply all_Forall in Hd1; eapply Forall_forall in Hd1; [|exact Hin]; exact Hd1).
      assert (Hnum : 1 <= which < 2 ^ 29).
      { eapply Forall_forall in Hn1; [|apply in_map_iff; exists (which, t); eauto]. exact Hn1. }
      assert (Ee : enc_elem which t (enc t (view t v)) = elem_enc true which t (enc t (view t v))) by (destruct t; reflexivity).
      assert (Ep : opieces (ms :: os) ((which, SvSome (view t v)) :: r)
        = (enc_elem which t (enc t (view t v)), ends_in_bytes t (view t v)) :: opieces os r).
      { unfold opieces. cbn [map oneof_pieces]. rewrite (lookup_map (fun t => (t, enc t, ends_in_bytes t))), El. reflexivity. }
      rewrite Ep in *. rewrite last_piece_cons. cbn [bytes_of flat_map fst] in *. fold (bytes_of (opieces os r)) in *.
      rewrite zlen_app in Hl.
      match type of Hl with zlen ?a + zlen ?b < _ => pose proof (zlen_nonneg a); pose proof (zlen_nonneg b) end.
      apply exactly_ext with (g := fun s => let* (e, s') := elem_serialize_with_id t (serialize t) v which true wfix W s in
          if is_ok e then oneofs_serialize (map (map (fun '(num, t) => (num, t, serialize t))) os) ovs W s' else Done (e, s')).
      { intros s. rewrite find_member_map, El. reflexivity. }
      rewrite Ee in *.
      assert (Hne : nonempty (elem_enc true which t (enc t (view t v))) = true).
      { rewrite <- Ee. destruct t; cbn [enc_elem]; destruct (tag which _) eqn:Et; try reflexivity; now apply tag_nonempty in Et. }
      rewrite Hne.
      apply exactly_bind with (f := elem_serialize_with_id t (serialize t) v which true wfix W).
      * intros s c room Hr. eexists. apply (elem_serialize_wrote (wfix_ok cap) t v which true s c room (serialize_wrote t)); auto; lia.
      * intros _. apply elem_exactly; auto; lia.
      * apply last_piece_nil.
      * apply IHos; auto; try (fold r; lia).
    + assert (Ep : opieces (ms :: os) ((0, SvNone) :: r) = ([], false) :: opieces os r).
      { unfold opieces. cbn [map oneof_pieces]. destruct (lookup _ 0) as [[[? ?] ?]|]; reflexivity. }
      rewrite Ep in *. rewrite last_piece_cons. cbn [bytes_of flat_map fst app nonempty] in *. fold (bytes_of (opieces os r)) in *.
      replace (join (bytes_of (opieces os r)) false (last_piece (opieces os r))) with (last_piece (opieces os r)).
      2: { unfold join. destruct (nonempty (bytes_of (opieces os r))) eqn:E; [reflexivity|]. apply nonempty_false in E. now apply last_piece_nil. }
      apply exactly_ext with (g := oneofs_serialize (map (map (fun '(num, t) => (num, t, serialize t))) os) ovs W).
      { intros s. rewrite find_member_map, El. reflexivity. }
      apply IHos; auto.
Qed.

Lemma sharp_msg fs os : Forall (fun f : fdesc => sharp (snd f)) fs ->
  Forall (Forall (fun m : Z * ety => sharp (snd m))) os -> sharp (EMsg fs os).
Proof.
  intros Hf Ho v Hw Hd Hl _.
  destruct v as [| | | |pres vs ovs]; cbn [wt] in Hw; try tauto.
  destruct Hw as (Hp & Hu & Hw1 & Hw2). cbn [desc_ok] in Hd. destruct Hd as (_ & Hn & Hd1 & Hd2).
  apply all_Forall in Hn. unfold field_numbers in Hn. apply Forall_app in Hn. destruct Hn as (Hn1 & Hn2).
  cbn [serialize]. unfold msg_serialize. cbn [view enc ends_in_bytes] in *.
  set (xs := view_fields _ _ _ _) in *. set (ys := view_oneofs _ _) in *.
  change (field_pieces (map (fun '(num, k, t) => (num, k, t, enc t, ends_in_bytes t)) fs) xs) with (fpieces fs xs).
  change (oneof_pieces (map (map (fun '(num, t) => (num, (t, enc t, ends_in_bytes t)))) os) ys) with (opieces os ys).
  rewrite last_piece_app. rewrite zlen_app in Hl.
  match type of Hl with zlen ?a + zlen ?b < _ => pose proof (zlen_nonneg a); pose proof (zlen_nonneg b) end.
  rewrite <- bytes_fpieces, <- bytes_opieces in *.
  apply exactly_bind with (f := fields_serialize (map (fun '(num, k, t) => (num, k, t, serialize t)) fs) 0 pres vs W).
  - intros s c room Hs. exists False. rewrite bytes_fpieces in *. unfold xs in *.
    eapply (fields_serialize_wrote (wfix_ok cap)) with (n := n_optional fs); eauto; try lia; try tauto.
    apply Forall_forall. intros f _. apply serialize_wrote.
  - intros _. apply (fields_exactly pres (n_optional fs)); auto; fold xs; lia.
  - apply last_piece_nil.
  - apply oneofs_exactly; auto; fold ys; lia.
Qed.

Lemma sharp_all t : sharp t.
Proof. induction t using ety_ind'; auto using sharp_scalar, sharp_bytes, sharp_msg. Qed.

End X.

Lemma exact_space : forall fs os v cap b c n, let t := EMsg fs os in
  wt t v -> desc_ok t -> wfix_rel cap b c (Some n) -> zlen (enc t (view t v)) < 2 ^ 32 ->
  exists size e b', serialized_size (serialize t v) = Done size
  /\ serialize t v wfix (wfix_ops cap) b = Done (e, b')
  /\ (e = NoErrors <-> size < n \/ size = n /\ ends_in_bytes t (view t v) = false)
  /\ (e <> NoErrors -> e = BufferFull).
Proof.
  intros fs os v cap b c n t Hw Hd Hr Hl. pose proof (serialized_size_enc t v Hw Hd Hl) as Hs.
  destruct (exact_space_partial fs os v cap b c n Hw Hd Hr _ Hs Hl) as (e & b' & E & H1 & _ & H3).
  exists (zlen (enc t (view t v))), e, b'. split; [exact Hs|]. split; [exact E|].
  assert (H : e = NoErrors <-> zlen (enc t (view t v)) < n \/ zlen (enc t (view t v)) = n /\ ends_in_bytes t (view t v) = false).
  { destruct (Ztrichotomy (zlen (enc t (view t v))) n) as [Hc|[Hc|Hc]].
    - specialize (H1 Hc). tauto.
    - rewrite <- Hc in Hr. destruct (sharp_all cap t v Hw Hd Hl I b c Hr) as (e' & s' & E' & He). fold t in E. rewrite E in E'.
      injection E' as <- <-. rewrite He. split; [auto|]. intros [Hx|[_ Hx]]; [lia|exact Hx].
    - assert (e = BufferFull) by (apply H3; lia). subst e. split; [discriminate|]. intros [Hx|[Hx _]]; lia. }
  split; [exact H|]. intros Hne.
  destruct (msg_serialize_wrote fs os v _ _ _ _ b c (Some n) Hw Hd Hl (wfix_ok cap) Hr) as (e' & s1 & E1 & Hc).
  rewrite E1 in E. injection E as <- <-. destruct Hc as [(-> & _)|(-> & _)]; congruence.
Qed.
