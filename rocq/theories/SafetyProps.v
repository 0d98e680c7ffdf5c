(** Proofs of the properties in PropertiesSafety.v (C27, C28, C46). *)
From Verif Require Import Base Buffers Wire Schema Fields Message Spec Contracts BitLemmas
  ReadProofs ScalarProofs BufferProofs Struct SerProofs Tables DecodeProofs ClearProofs SafetyProofs SafetyMsg Samples.
From Coq Require Import ZifyBool ZifyNat ZifyN.
Ltac Zify.zify_post_hook ::= Z.div_mod_to_equations.

(* ------------------------------------------------------------------------------------------- *)
(** ** C27 *)

Lemma msg_safe fuel fs os {S} (R : rops S) inv strict bound v s m : desc_ok (EMsg fs os) -> wt (EMsg fs os) v ->
  decoder_safe R inv strict bound -> inv s m ->
  match deserialize fuel (EMsg fs os) S R v s with
  | Done (_, v', s') => wt (EMsg fs os) v' /\ exists m', inv s' m'
  | UB => False
  | Fuel => strict -> (fuel <= m)%nat
  end.
Proof.
  intros Hok Hw ok Hi. pose proof (deserialize_safe fuel (EMsg fs os) Hok S R inv strict bound ok v s m Hi Hw) as H.
  destruct (deserialize fuel (EMsg fs os) S R v s) as [[[e v'] s']| |]; cbn [out_ok] in H; auto.
  destruct H as ((H & _) & m' & Hi' & _). split; [apply H; auto|]. exists m'. exact Hi'.
Qed.

Lemma decode_safe : forall fs os v, let t := EMsg fs os in
  desc_ok t -> wt t v ->
  forall S (R : rops S) inv strict, reader_safe R inv strict -> (forall s m, inv s m -> r_get_size R s < 2 ^ 32) ->
  forall s m fuel, inv s m ->
  match deserialize fuel t S R v s with
  | Done (_, v', s') => wt t v' /\ exists m', inv s' m'
  | UB => False
  | Fuel => True
  end.
Proof.
  intros fs os v t Hok Hw S R inv strict ok Hz s m fuel Hi.
  pose proof (msg_safe fuel fs os R inv strict _ v s m Hok Hw (reader_safe_decoder R inv strict ok Hz) Hi) as H. unfold t in *.
  destruct (deserialize fuel (EMsg fs os) S R v s) as [[[e v'] s']| |]; auto.
Qed.

Lemma rfix_of_inv bytes : zlen bytes < 2 ^ 32 -> Forall is_byte bytes -> rfix_inv (zlen bytes) (rfix_of bytes) (length bytes).
Proof.
  intros Hz Hb. pose proof (zlen_nonneg bytes). unfold rfix_inv, rfix_of; cbn [rf_data rf_r rf_w]. repeat split; auto; try lia. unfold zlen. lia.
Qed.

Lemma decode_safe_fixed : forall fs os v bytes fuel, let t := EMsg fs os in
  desc_ok t -> wt t v -> zlen bytes < 2 ^ 32 -> Forall is_byte bytes ->
  match deserialize fuel t rfix (rfix_ops (zlen bytes)) v (rfix_of bytes) with
  | Done (_, v', _) => wt t v'
  | UB => False
  | Fuel => True
  end.
Proof.
  intros fs os v bytes fuel t Hok Hw Hz Hb.
  pose proof (msg_safe fuel fs os _ _ _ _ v _ _ Hok Hw (rfix_decoder (zlen bytes)) (rfix_of_inv bytes Hz Hb)) as H. unfold t in *.
  destruct (deserialize fuel (EMsg fs os) rfix _ v _) as [[[e v'] s']| |]; tauto.
Qed.

(* ------------------------------------------------------------------------------------------- *)
(** ** C28 *)

(** The fixed buffer over a known array. *)
Definition at_rel (bytes : list Z) (b : rfix) (l : list Z) : Prop :=
  rf_data b = bytes /\ rf_w b = zlen bytes /\ 0 <= rf_r b <= zlen bytes /\ l = skipn (Z.to_nat (rf_r b)) bytes.

Lemma at_rel_cons bytes b x l : zlen bytes < 2 ^ 32 -> at_rel bytes b (x :: l) ->
  rf_r b < rf_w b /\ aget (rf_data b) (rf_r b) = Done x
  /\ at_rel bytes {| rf_data := rf_data b; rf_w := rf_w b; rf_r := u32 (rf_r b + 1) |} l.
Proof.
  intros Hz (Hd & Hw & Hr & Hl).
  assert (E : bytes = firstn (Z.to_nat (rf_r b)) bytes ++ x :: l) by (rewrite Hl; symmetry; apply firstn_skipn).
  assert (Hf : zlen (firstn (Z.to_nat (rf_r b)) bytes) = rf_r b) by (rewrite zlen_firstn; lia).
  assert (Hlt : rf_r b < zlen bytes). { pose proof (f_equal zlen E) as Q. rewrite zlen_app, zlen_cons, Hf in Q. pose proof (zlen_nonneg l). lia. }
  split; [lia|]. split.
  - rewrite Hd. apply aget_nth; [lia|]. rewrite E, nth_error_app2 by (unfold zlen in Hf; lia).
    replace (_ - _)%nat with O by (unfold zlen in Hf; lia). reflexivity.
  - rewrite u32_small by lia. unfold at_rel; cbn [rf_data rf_w rf_r]. repeat split; auto; try lia.
    replace (Z.to_nat (rf_r b + 1)) with (1 + Z.to_nat (rf_r b))%nat by lia.
    rewrite Nat.add_comm, <- skipn_skipn'. rewrite <- Hl. reflexivity.
Qed.

Lemma at_rel_nil bytes b : at_rel bytes b [] -> rf_r b = zlen bytes /\ rf_w b = zlen bytes /\ rf_data b = bytes.
Proof.
  intros (Hd & Hw & Hr & Hl). pose proof (f_equal zlen Hl) as Q. rewrite zlen_skipn in Q. cbn in Q. repeat split; auto. lia.
Qed.

Lemma at_ok cap bytes : zlen bytes < 2 ^ 32 -> Forall is_byte bytes -> reader_ok (rfix_ops cap) (at_rel bytes).
Proof.
  intros Hz Hb. constructor; cbn [rfix_ops r_get_size r_pop r_peek r_advance r_advance_n].
  - intros s l (_ & _ & _ & ->). now apply Forall_skipn.
  - intros s l (_ & -> & Hr & ->). rewrite zlen_skipn. lia.
  - intros s H. destruct (at_rel_nil _ _ H) as (E1 & E2 & _). exists s. split; [|exact H]. unfold rfix_pop. rewrite E1, E2, Z.ltb_irrefl. reflexivity.
  - intros s b l H. destruct (at_rel_cons _ _ _ _ Hz H) as (Hlt & E & H'). eexists. split; [|exact H'].
    unfold rfix_pop. apply Z.ltb_lt in Hlt. rewrite Hlt, E. reflexivity.
  - intros s H. destruct (at_rel_nil _ _ H) as (E1 & E2 & _). unfold rfix_peek. rewrite E1, E2, Z.ltb_irrefl. reflexivity.
  - intros s b l H. destruct (at_rel_cons _ _ _ _ Hz H) as (Hlt & E & H').
    unfold rfix_peek. apply Z.ltb_lt in Hlt. rewrite Hlt, E. reflexivity.
  - intros s H. destruct (at_rel_nil _ _ H) as (E1 & E2 & _). exists s. split; [|exact H]. unfold rfix_advance. rewrite E1, E2, Z.ltb_irrefl. reflexivity.
  - intros s b l H. destruct (at_rel_cons _ _ _ _ Hz H) as (Hlt & E & H'). eexists. split; [|exact H'].
    unfold rfix_advance. apply Z.ltb_lt in Hlt. rewrite Hlt. reflexivity.
  - intros s l n (Hd & Hw & Hr & ->) Hn. rewrite zlen_skipn in Hn. unfold rfix_advance_n. rewrite u32_small by lia.
    destruct (Z.leb_spec (rf_r s + n) (rf_w s)); [|lia]. do 2 eexists. split; [reflexivity|]. split; [|auto].
    unfold at_rel; cbn [rf_data rf_w rf_r]. repeat split; auto; try lia.
    rewrite skipn_skipn'. f_equal. lia.
Qed.

Lemma rfix_of_at bytes : at_rel bytes (rfix_of bytes) bytes.
Proof. pose proof (zlen_nonneg bytes). unfold at_rel, rfix_of; cbn [rf_data rf_w rf_r]. repeat split; auto; lia. Qed.

(** Tag of an unknown length-delimited field and a length that brings the read index back to 0. *)
Definition endless (num : Z) : list Z := tag num LENDEL ++ varint (2 ^ 32 - (zlen (tag num LENDEL) + 5)).

Lemma endless_len num : 0 < num < 2 ^ 29 -> 1 <= zlen (tag num LENDEL) <= 5 /\ zlen (endless num) = zlen (tag num LENDEL) + 5.
Proof.
  intros Hn. unfold endless. rewrite zlen_app.
  assert (Hk : 1 <= zlen (tag num LENDEL) <= 5).
  { unfold tag. assert (Hr : 0 <= num * 8 + wt_code LENDEL < 2 ^ 32) by (cbn; lia).
    destruct (varint_wf32 _ Hr) as ((init & last & E & Hlen & _) & _). unfold zlen. split; [|lia]. rewrite E, app_length. cbn. lia. }
  split; [exact Hk|]. set (k := zlen (tag num LENDEL)) in *.
  assert (Hc : k = 1 \/ k = 2 \/ k = 3 \/ k = 4 \/ k = 5) by lia.
  destruct Hc as [-> | [-> | [-> | [-> | ->]]]]; vm_compute; reflexivity.
Qed.

Lemma endless_loop fs os num fuel0 : 0 < num < 2 ^ 29 -> ~ In num (field_numbers fs os) ->
  forall fuel pres vs ovs, msg_loop fuel0 fuel (dtab fuel0 fs) (dotab fuel0 os) (rfix_ops (zlen (endless num))) (VM pres vs ovs)
    (rfix_of (endless num)) = Fuel.
Proof.
  intros Hn Hu. destruct (endless_len num Hn) as [Hk Hz]. set (bytes := endless num) in *. set (k := zlen (tag num LENDEL)) in *.
  assert (Hr : 0 <= num * 8 + wt_code LENDEL < 2 ^ 32) by (cbn; lia).
  assert (Hrn : 0 <= 2 ^ 32 - (k + 5) < 2 ^ 32) by lia.
  pose proof (varint_varint32 _ Hr) as Ht. pose proof (varint_varint32 _ Hrn) as Hl.
  assert (Hb : Forall is_byte bytes).
  { unfold bytes, endless. apply Forall_app. split; eapply varint_wf_bytes; [apply Ht|apply Hl]. }
  pose proof (at_ok (zlen bytes) bytes ltac:(lia) Hb) as ok.
  induction fuel as [|fuel IH]; intros pres vs ovs; cbn [msg_loop]; [reflexivity|].
  pose proof (rfix_of_at bytes) as H0. change bytes with (tag num LENDEL ++ varint (2 ^ 32 - (k + 5))) in H0 at 3.
  destruct (DeserializeTag_wf ok _ _ _ num LENDEL Ht ltac:(lia) H0) as (s1 & E1 & H1). rewrite E1. cbn [bind].
  cbn [msg_dispatch]. unfold field_numbers in Hu. rewrite find_field_none, find_oneof_none by (intros Hx; apply Hu; apply in_or_app; auto).
  destruct (Z.eqb_spec num 0); [lia|]. cbn [skip_unknown_field]. unfold skip_length_delimited.
  rewrite <- (app_nil_r (varint _)) in H1.
  destruct (DeserializeVarint_wf ok 32 _ _ _ (or_introl eq_refl) (proj1 Hl) H1) as (s2 & E2 & H2). rewrite E2. cbn [bind].
  rewrite (proj2 Hl). cbn [rfix_ops r_advance_n]. unfold rfix_advance_n.
  destruct (at_rel_nil _ _ H2) as (Er & Ew & Ed). rewrite Er, Ew, Ed.
  replace (zlen bytes + (2 ^ 32 - (k + 5))) with (2 ^ 32) by lia. change (u32 (2 ^ 32)) with 0.
  destruct (Z.leb_spec 0 (zlen bytes)); [|lia]. cbn [bind is_ok].
  apply IH.
Qed.

Lemma endless_decode : forall fs os num, 0 < num < 2 ^ 29 -> ~ In num (field_numbers fs os) ->
  exists bytes, Forall is_byte bytes /\ zlen bytes <= 10 /\
  forall v fuel, wt (EMsg fs os) v ->
    deserialize fuel (EMsg fs os) rfix (rfix_ops (zlen bytes)) v (rfix_of bytes) = Fuel.
Proof.
  intros fs os num Hn Hu. exists (endless num). destruct (endless_len num Hn) as [Hk Hz]. split; [|split; [lia|]].
  - unfold endless. apply Forall_app. split; eapply varint_wf_bytes; apply varint_varint32; [cbn; lia|lia].
  - intros v fuel Hw. destruct v; try contradiction. cbn [deserialize]. apply endless_loop; assumption.
Qed.

Lemma strict_terminates : forall fs os v, let t := EMsg fs os in
  desc_ok t -> wt t v ->
  forall S (R : rops S) inv, reader_safe R inv True -> (forall s m, inv s m -> r_get_size R s < 2 ^ 32) ->
  forall s m fuel, inv s m -> (m < fuel)%nat -> exists e v' s', deserialize fuel t S R v s = Done (e, v', s').
Proof.
  intros fs os v t Hok Hw S R inv ok Hz s m fuel Hi Hf.
  pose proof (msg_safe fuel fs os R inv True _ v s m Hok Hw (reader_safe_decoder R inv True ok Hz) Hi) as H. unfold t in *.
  destruct (deserialize fuel (EMsg fs os) S R v s) as [[[e v'] s']| |]; [eauto|contradiction|]. specialize (H I). lia.
Qed.

(** No length found anywhere in the input wraps the 32-bit read index. *)
Definition nowrap (bytes : list Z) : Prop :=
  forall pre l post, bytes = pre ++ l ++ post -> varint_wf 5 l -> zlen pre + zlen l + varint_value l mod 2 ^ 32 < 2 ^ 32.

Definition at_inv (bytes : list Z) (b : rfix) (m : nat) : Prop := exists l, at_rel bytes b l /\ m = length l.

Lemma nowrap_decoder cap bytes : zlen bytes < 2 ^ 31 -> Forall is_byte bytes -> nowrap bytes ->
  decoder_safe (rfix_ops cap) (at_inv bytes) True (zlen bytes).
Proof.
  intros Hz Hb Hn. pose proof (at_ok cap bytes ltac:(lia) Hb) as ok.
  assert (Hadv : forall s m n, at_inv bytes s m -> 0 <= n -> rf_r s + n < 2 ^ 32 ->
    exists k s' m', rfix_advance_n s n = Done (k, s') /\ at_inv bytes s' m' /\ (m' <= m)%nat).
  { intros s m n (l & (Hd & Hw & Hr & ->) & ->) H0 H1. unfold rfix_advance_n. rewrite u32_small by lia.
    destruct (Z.leb_spec (rf_r s + n) (rf_w s)).
    - do 3 eexists. split; [reflexivity|]. split; [eexists; split; [|reflexivity]|].
      + unfold at_rel; cbn [rf_data rf_w rf_r]. repeat split; auto; lia.
      + cbn [rf_r]. rewrite !skipn_length. lia.
    - do 3 eexists. split; [reflexivity|]. split; [eexists; split; [|reflexivity]|reflexivity].
      unfold at_rel. auto. }
  constructor; cbn [rfix_ops r_get_size r_pop r_advance_n].
  - intros s m (l & (Hd & Hw & Hr & ->) & ->). lia.
  - intros s m (l & H & ->). destruct l as [|b l].
    + destruct (ro_pop_nil _ _ ok _ H) as (s' & E & H'). exists None, s', O. split; [exact E|]. split; [exists []; auto|auto].
    + destruct (ro_pop_cons _ _ ok _ _ _ H) as (s' & E & H'). exists (Some b), s', (length l). split; [exact E|].
      split; [exists l; auto|]. split; [|cbn; lia]. pose proof (ro_bytes _ _ ok _ _ H) as Hf. inversion Hf; assumption.
  - intros s m n Hi Hr. destruct (Z_lt_le_dec (rf_r s + n) (2 ^ 32)) as [Hlt|Hge].
    + destruct (Hadv s m n Hi ltac:(lia) Hlt) as (k & s' & m' & H1 & H2 & H3). exists k, s', m'. auto.
    + destruct Hi as (l & (Hd & Hw & Hr' & Hl) & Hm). unfold rfix_advance_n. set (ni := u32 (rf_r s + n)).
      assert (Hni : 0 <= ni) by (unfold ni, u32; apply Z.mod_pos_bound; lia).
      destruct (Z.leb_spec ni (rf_w s)).
      * do 3 eexists. split; [reflexivity|]. split; [eexists; split; [|reflexivity]|].
        -- unfold at_rel; cbn [rf_data rf_w rf_r]. repeat split; auto; lia.
        -- intros _ Hle. exfalso. lia.
      * do 3 eexists. split; [reflexivity|]. split; [eexists; split; [|reflexivity]|]; [unfold at_rel; repeat split; eauto; lia|].
        intros _ Hle. rewrite Hm, Hl. reflexivity.
  - intros s m (l & H & ->). unfold skip_length_delimited.
    destruct (varint_trichotomy 5 l (ro_bytes _ _ ok _ _ H)) as [(vb & rest & -> & Hwf) | [(hd & rest & -> & Hh & Hf) | (Hlen & Hf)]].
    + destruct (DeserializeVarint_wf ok 32 _ _ _ (or_introl eq_refl) Hwf H) as (s1 & E1 & H1). rewrite E1. cbn [bind].
      assert (Hpos : rf_r s1 + varint_value vb mod 2 ^ 32 < 2 ^ 32).
      { destruct H as (Hd & Hw & Hr & Hl). destruct H1 as (Hd1 & Hw1 & Hr1 & Hl1).
        assert (E : bytes = firstn (Z.to_nat (rf_r s)) bytes ++ vb ++ rest) by (rewrite Hl; symmetry; apply firstn_skipn).
        pose proof (Hn _ _ _ E Hwf) as Q. rewrite zlen_firstn in Q.
        pose proof (f_equal zlen Hl) as L0. pose proof (f_equal zlen Hl1) as L1. rewrite zlen_skipn in L0, L1. rewrite zlen_app in L0.
        pose proof (zlen_nonneg rest). lia. }
      destruct (Hadv s1 (length rest) (varint_value vb mod 2 ^ 32)) as (k & s' & m' & E2 & H2 & H3);
        [exists rest; auto|apply Z.mod_pos_bound; lia|exact Hpos|].
      cbn [rfix_ops r_advance_n]. rewrite E2. cbn [bind]. do 3 eexists. split; [reflexivity|]. split; [exact H2|]. intros _. rewrite app_length. lia.
    + destruct (DeserializeVarint_over ok 32 _ _ _ (or_introl eq_refl) Hf Hh H) as (s1 & E1 & H1). rewrite E1. cbn [bind].
      do 3 eexists. split; [reflexivity|]. split; [exists rest; eauto|]. intros _. rewrite app_length. lia.
    + destruct (DeserializeVarint_end ok 32 _ _ (or_introl eq_refl) Hf Hlen H) as (s1 & E1 & H1). rewrite E1. cbn [bind].
      do 3 eexists. split; [reflexivity|]. split; [exists []; eauto|]. intros _. cbn. lia.
Qed.

Lemma nowrap_terminates : forall fs os v bytes fuel, let t := EMsg fs os in
  desc_ok t -> wt t v -> zlen bytes < 2 ^ 31 -> Forall is_byte bytes -> nowrap bytes -> (length bytes < fuel)%nat ->
  exists e v' s', deserialize fuel t rfix (rfix_ops (zlen bytes)) v (rfix_of bytes) = Done (e, v', s').
Proof.
  intros fs os v bytes fuel t Hok Hw Hz Hb Hn Hf.
  assert (Hi : at_inv bytes (rfix_of bytes) (length bytes)) by (exists bytes; split; [apply rfix_of_at|reflexivity]).
  pose proof (msg_safe fuel fs os _ _ _ _ v _ _ Hok Hw (nowrap_decoder (zlen bytes) bytes Hz Hb Hn) Hi) as H. unfold t in *.
  destruct (deserialize fuel (EMsg fs os) rfix _ v _) as [[[e v'] s']| |]; [eauto|contradiction|]. specialize (H I). lia.
Qed.

(** Nested messages: whatever the enclosing buffer does, decoding from a section ends. *)
Lemma section_terminates : forall fs os v, let t := EMsg fs os in
  desc_ok t -> wt t v ->
  forall S (R : rops S) inv strict, reader_safe R inv strict -> (forall s m, inv s m -> r_get_size R s < 2 ^ 32) ->
  forall s m n fuel, inv s m -> 0 <= n -> (Z.to_nat n < fuel)%nat ->
  exists e v' sec, deserialize fuel t (section S) (sec_ops R) v (mk_section R s n) = Done (e, v', sec).
Proof.
  intros fs os v t Hok Hw S R inv strict ok Hz s m n fuel Hi H0 Hf.
  pose proof (reader_safe_decoder R inv strict ok Hz) as ok'.
  assert (Hs : dsec_inv_window (inv := inv) (bound := 2 ^ 32 - 1) (mk_section R s n) (Z.to_nat n)).
  { pose proof (ds_size _ _ _ _ ok' _ _ Hi). split; [exists m; exact Hi|]. cbn [mk_section sec_size]. lia. }
  pose proof (msg_safe fuel fs os _ _ _ _ v _ _ Hok Hw (dsec_safe_window ok') Hs) as H. unfold t in *.
  destruct (deserialize fuel (EMsg fs os) _ _ v _) as [[[e v'] s']| |]; [eauto|contradiction|]. specialize (H I). lia.
Qed.

(** A checker for [nowrap]. *)
Fixpoint vprefix (k : nat) (l : list Z) : option (list Z) :=
  match k, l with
  | Datatypes.S k', b :: l' => if b <? 128 then Some [b] else option_map (cons b) (vprefix k' l')
  | _, _ => None
  end.

Lemma vprefix_wf k : forall bs post, varint_wf k bs -> vprefix k (bs ++ post) = Some bs.
Proof.
  induction k as [|k IH]; intros bs post (init & last & E & Hlen & Hf & Hl).
  - exfalso. rewrite E, app_length in Hlen. cbn in Hlen. lia.
  - subst bs. destruct init as [|b init]; cbn [app vprefix].
    + destruct (Z.ltb_spec last 128); [reflexivity|lia].
    + inversion Hf as [|? ? Hb Hf' E1]; subst. destruct (Z.ltb_spec b 128); [lia|].
      rewrite (IH (init ++ [last]) post); [reflexivity|]. exists init, last. repeat split; auto; try lia. cbn [app] in Hlen. cbn in Hlen. lia.
Qed.

Fixpoint nowrapb (pos : Z) (l : list Z) : bool :=
  match l with
  | [] => true
  | b :: l' => match vprefix 5 l with
               | Some vb => pos + zlen vb + varint_value vb mod 2 ^ 32 <? 2 ^ 32
               | None => true
               end && nowrapb (pos + 1) l'
  end.

Lemma nowrapb_ok bytes : nowrapb 0 bytes = true -> nowrap bytes.
Proof.
  intros H pre l post -> Hl.
  assert (G : forall pre pos, nowrapb pos (pre ++ l ++ post) = true -> pos + zlen pre + zlen l + varint_value l mod 2 ^ 32 < 2 ^ 32).
  { clear H pre. induction pre as [|b pre IH]; intros pos H.
    - destruct l as [|b l]; [destruct Hl as (i & x & E & _); destruct i; discriminate|].
      cbn [app] in H. unfold nowrapb in H; fold nowrapb in H. apply andb_prop in H. destruct H as [H _].
      change (b :: l ++ post) with ((b :: l) ++ post) in H. rewrite (vprefix_wf 5 _ post Hl) in H. change (zlen []) with 0. lia.
    - cbn [app] in H. unfold nowrapb in H; fold nowrapb in H. apply andb_prop in H. destruct H as [_ H]. apply IH in H. rewrite zlen_cons. lia. }
  specialize (G pre 0 H). lia.
Qed.

(* ------------------------------------------------------------------------------------------- *)
(** ** C46 *)

Section Confined.
Context {S : Type} {R : rops S} {rel : S -> list Z -> Prop} (ok : reader_ok R rel).

(** A section in front of [tail] that has given out a prefix of [p]. *)
Definition window_inv (p tail : list Z) (b : section S) (m : nat) : Prop :=
  exists used rest, p = used ++ rest /\ rel (sec_parent b) (rest ++ tail) /\ sec_size b = zlen rest /\ m = length rest.

Lemma window_decoder p tail : zlen p < 2 ^ 32 -> decoder_safe (sec_ops R) (window_inv p tail) True (2 ^ 32 - 1).
Proof.
  intros Hp.
  assert (Hsz : forall s m, window_inv p tail s m -> sec_size s <= 2 ^ 32 - 1).
  { intros s m (used & rest & -> & _ & -> & _). rewrite zlen_app in Hp. pose proof (zlen_nonneg used). lia. }
  assert (Hpop : forall s m, window_inv p tail s m -> exists ob s' m', sec_pop R s = Done (ob, s') /\ window_inv p tail s' m'
    /\ match ob with Some b => is_byte b /\ (True -> (m' < m)%nat) | None => True -> (m' <= m)%nat end).
  { intros s m (used & rest & E & H & Hs & ->). unfold sec_pop. destruct rest as [|b rest].
    - rewrite Hs. cbn. exists None, s, O. split; [reflexivity|]. split; [|auto]. exists used, []. auto.
    - destruct (Z.ltb_spec 0 (sec_size s)); [|rewrite Hs, zlen_cons in *; pose proof (zlen_nonneg rest); lia].
      cbn [app] in H. destruct (ro_pop_cons _ _ ok _ _ _ H) as (s' & -> & H'). cbn [bind].
      do 3 eexists. split; [reflexivity|]. split.
      + exists (used ++ [b]), rest. cbn [sec_parent sec_size]. rewrite <- app_assoc. split; [exact E|]. split; [exact H'|].
        split; [rewrite Hs, zlen_cons; lia|reflexivity].
      + split; [|cbn; lia]. pose proof (ro_bytes _ _ ok _ _ H) as Hf. inversion Hf; assumption. }
  assert (Ha : forall s m n, window_inv p tail s m -> 0 <= n < 2 ^ 32 ->
    exists k s' m', sec_advance_n R s n = Done (k, s') /\ window_inv p tail s' m' /\ (True -> (m' <= m)%nat)).
  { intros s m n (used & rest & E & H & Hs & ->) Hn. unfold sec_advance_n. destruct (Z.ltb_spec 0 (sec_size s)).
    - set (k := if n <=? sec_size s then n else sec_size s).
      assert (Hk : 0 <= k <= zlen rest) by (unfold k; destruct (Z.leb_spec n (sec_size s)); lia).
      destruct (ro_advance_n _ _ ok _ _ k H) as (o & s' & -> & H' & _).
      { rewrite zlen_app. pose proof (zlen_nonneg tail). lia. }
      cbn [bind]. do 3 eexists. split; [reflexivity|]. split.
      + exists (used ++ firstn (Z.to_nat k) rest), (skipn (Z.to_nat k) rest). cbn [sec_parent sec_size].
        rewrite <- app_assoc, firstn_skipn. split; [exact E|]. split.
        * rewrite skipn_app in H'. replace (Z.to_nat k - length rest)%nat with O in H' by (unfold zlen in *; lia). exact H'.
        * split; [rewrite zlen_skipn; lia|reflexivity].
      + intros _. rewrite skipn_length. lia.
    - exists false, s, (length rest). split; [reflexivity|]. split; [|auto]. exists used, rest. auto. }
  constructor; cbn [sec_ops r_pop r_advance_n r_get_size].
  - intros s m H. specialize (Hsz s m H). lia.
  - exact Hpop.
  - intros s m n Hi Hn. destruct (Ha s m n Hi Hn) as (k & s' & m' & H). exists k, s', m'. tauto.
  - apply (skip_from_advance (sec_ops R)); [exact Hpop|exact Ha].
Qed.

Lemma window_start s p tail : zlen p < 2 ^ 32 -> rel s (p ++ tail) -> window_inv p tail (mk_section R s (zlen p)) (length p).
Proof.
  intros Hp H. exists [], p. split; [reflexivity|]. split; [exact H|]. split; [|reflexivity].
  pose proof (ro_size _ _ ok _ _ H) as E. rewrite zlen_app in E. pose proof (zlen_nonneg tail). cbn [mk_section sec_size]. lia.
Qed.

Lemma window_ended p tail sec : ended (R := sec_ops R) (inv := window_inv p tail) sec -> rel (sec_parent sec) tail.
Proof.
  intros (s0 & m0 & (used & rest & E & H & Hs & _) & Hpop). cbn [sec_ops r_pop] in Hpop. unfold sec_pop in Hpop. destruct rest as [|b rest].
  - rewrite Hs in Hpop. cbn in Hpop. injection Hpop as <-. exact H.
  - exfalso. destruct (Z.ltb_spec 0 (sec_size s0)); [|rewrite Hs, zlen_cons in *; pose proof (zlen_nonneg rest); lia].
    cbn [app] in H. destruct (ro_pop_cons _ _ ok _ _ _ H) as (s' & E' & _). rewrite E' in Hpop. discriminate.
Qed.

Definition confined (p tail : list Z) (e : err) (s' : S) : Prop :=
  exists used rest, p = used ++ rest /\ rel s' (rest ++ tail) /\ (e = NoErrors -> rest = []).

Lemma msg_confined fuel fs os v s p tail : desc_ok (EMsg fs os) -> wt (EMsg fs os) v -> zlen p < 2 ^ 32 -> rel s (p ++ tail) ->
  match deserialize fuel (EMsg fs os) (section S) (sec_ops R) v (mk_section R s (zlen p)) with
  | Done (e, _, sec) => confined p tail e (sec_parent sec)
  | UB => False
  | Fuel => (fuel <= length p)%nat
  end.
Proof.
  intros Hok Hw Hp H. pose proof (deserialize_safe fuel (EMsg fs os) Hok _ _ _ _ _ (window_decoder p tail Hp) v _ _ (window_start s p tail Hp H) Hw) as Q.
  destruct (deserialize fuel (EMsg fs os) (section S) (sec_ops R) v (mk_section R s (zlen p))) as [[[e v'] sec]| |]; cbn [out_ok] in Q; auto.
  destruct Q as ((_ & Hend) & m' & (used & rest & E & Hr & _) & _).
  assert (Hc : e = NoErrors \/ e <> NoErrors) by (destruct e; [left; reflexivity|right; discriminate..]). destruct Hc as [-> | Hne].
  - exists p, []. rewrite app_nil_r. split; [reflexivity|]. split; [|reflexivity]. apply (window_ended p tail). apply Hend. reflexivity.
  - exists used, rest. split; [exact E|]. split; [exact Hr|]. intros; contradiction.
Qed.

Lemma loop_confined : forall n len data s p tail, rel s (p ++ tail) -> length p = n -> 0 <= len -> len + Z.of_nat n <= zlen data ->
  exists data' s', bytes_deserialize_loop R n len data s = Done (len + Z.of_nat n, data', s') /\ rel s' tail.
Proof.
  induction n as [|n IH]; intros len data s p tail H Hl H0 Hz; cbn [bytes_deserialize_loop].
  - destruct p; [|discriminate]. exists data, s. rewrite Z.add_0_r. auto.
  - destruct p as [|b p]; [discriminate|]. cbn [app] in H. destruct (ro_pop_cons _ _ ok _ _ _ H) as (s' & -> & H'). cbn [bind].
    rewrite aset_ok by lia. cbn [bind].
    destruct (IH (len + 1) (upd (Z.to_nat len) b data) s' p tail H') as (d & s2 & E2 & H2); [cbn in Hl; lia|lia|rewrite zlen_upd; lia|].
    exists d, s2. rewrite E2. split; [|exact H2]. replace (len + 1 + Z.of_nat n) with (len + Z.of_nat (Datatypes.S n)) by lia. reflexivity.
Qed.

Lemma bytes_confined max v s l p tail : varint32 l (zlen p) -> rel s (l ++ p ++ tail) -> capacity_ok max ->
  exists e v' s', bytes_deserialize max S R v s = Done (e, v', s') /\ confined p tail e s'.
Proof.
  intros [Hwf Hv] H Hm. unfold bytes_deserialize, capacity_ok in *.
  destruct (DeserializeVarint_wf ok 32 _ _ _ (or_introl eq_refl) Hwf H) as (s1 & -> & H1). cbn [bind]. rewrite Hv.
  destruct (Z.leb_spec (zlen p) max).
  - destruct (loop_confined (Z.to_nat (zlen p)) 0 (zrepeat 0 max) s1 p tail H1) as (d & s2 & -> & H2);
      [unfold zlen; lia|lia|rewrite zlen_zrepeat by lia; pose proof (zlen_nonneg p); lia|].
    cbn [bind]. do 3 eexists. split; [reflexivity|]. exists p, []. rewrite app_nil_r. auto.
  - do 3 eexists. split; [reflexivity|]. exists [], p. split; [reflexivity|]. split; [exact H1|discriminate].
Qed.

Lemma elem_confined fuel t v s l p tail : is_packed t = false -> desc_ok t -> wt t v -> varint32 l (zlen p) -> rel s (l ++ p ++ tail) ->
  match elem_deserialize_check_type t (deserialize fuel t) LENDEL S R v s with
  | Done (e, _, s') => confined p tail e s'
  | UB => False
  | Fuel => (fuel <= length p)%nat
  end.
Proof.
  intros Hpk Hok Hw [Hwf Hv] H. assert (Hz : zlen p < 2 ^ 32) by (rewrite <- Hv; apply Z.mod_pos_bound; reflexivity).
  destruct t as [sc|st max|fs os]; [discriminate|..]; unfold elem_deserialize_check_type; cbn [wt_eqb].
  - cbn [deserialize]. destruct (bytes_confined max v s l p tail (conj Hwf Hv) H Hok) as (e & v' & s' & -> & Hc). exact Hc.
  - unfold deserialize_section. destruct (DeserializeVarint_wf ok 32 _ _ _ (or_introl eq_refl) Hwf H) as (s1 & -> & H1). cbn [bind]. rewrite Hv.
    pose proof (msg_confined fuel fs os v s1 p tail Hok Hw Hz H1) as Q.
    destruct (deserialize fuel (EMsg fs os) _ _ v _) as [[[e v'] sec]| |]; cbn [bind]; auto.
Qed.

Lemma packed_confined fuel sc max v s l p tail : capacity_ok max -> wt_field (KRep max) (wt (EScalar sc)) v ->
  varint32 l (zlen p) -> rel s (l ++ p ++ tail) ->
  match rep_deserialize_packed fuel sc S R v s with
  | Done (e, _, s') => confined p tail e s'
  | UB => False
  | Fuel => (fuel <= length p)%nat
  end.
Proof.
  intros Hm Hw [Hwf Hv] H. assert (Hz : zlen p < 2 ^ 32) by (rewrite <- Hv; apply Z.mod_pos_bound; reflexivity).
  destruct v as [| | |len data|]; try contradiction. destruct Hw as (Hl & Hz' & Hw). unfold capacity_ok in Hm. cbn [rep_deserialize_packed].
  destruct (DeserializeVarint_wf ok 32 _ _ _ (or_introl eq_refl) Hwf H) as (s1 & -> & H1). cbn [bind]. rewrite Hv.
  pose proof (rep_packed_loop_safe _ _ _ _ (window_decoder p tail Hz) sc max ltac:(lia) fuel VIndet len data _ _
               (window_start s1 p tail Hz H1) Hl Hz' Hw) as Q.
  destruct (rep_packed_loop sc fuel VIndet len data (sec_ops R) (mk_section R s1 (zlen p))) as [[[[e len'] data'] sec]| |]; cbn [bind]; auto.
  destruct Q as (_ & _ & _ & Hne & Hend & m' & (used & rest & E & Hr & _) & _).
  assert (Hc : e = EndOfBuffer \/ e <> EndOfBuffer) by (destruct e; ((left; reflexivity) || (right; discriminate))). destruct Hc as [-> | Hnb].
  - exists p, []. rewrite app_nil_r. split; [reflexivity|]. split; [|reflexivity]. apply (window_ended p tail). apply Hend. reflexivity.
  - exists used, rest. split; [exact E|]. split; [exact Hr|]. destruct e; intros; try contradiction; discriminate.
Qed.

Lemma rep_confined fuel t max v s l p tail : desc_ok t -> capacity_ok max -> wt_field (KRep max) (wt t) v ->
  varint32 l (zlen p) -> rel s (l ++ p ++ tail) ->
  match rep_deserialize_check_type fuel t (deserialize fuel t) LENDEL S R v s with
  | Done (e, _, s') => confined p tail e s' \/ (e = ArrayFull /\ s' = s)
  | UB => False
  | Fuel => (fuel <= length p)%nat
  end.
Proof.
  intros Hok Hm Hw Hl H. unfold rep_deserialize_check_type. cbn [wt_eqb].
  destruct t as [sc|st mx|fs os].
  - pose proof (packed_confined fuel sc max v s l p tail Hm Hw Hl H) as Q.
    destruct (rep_deserialize_packed fuel sc S R v s) as [[[e v'] s']| |]; [left; exact Q|exact Q|exact Q].
  - destruct v as [| | |len data|]; try contradiction. destruct Hw as (Hlen & Hz' & Hw). unfold capacity_ok in *. cbn [rep_deserialize_unpacked].
    destruct (Z.ltb_spec len (zlen data)); [|right; auto].
    unfold rep_get. rewrite u32_small, Z.min_l by lia. destruct (aget_ok data len) as (x & -> & Hx); [lia|]. cbn [bind deserialize].
    destruct (bytes_confined mx x s l p tail Hl H Hok) as (e & v' & s' & -> & Hc). cbn [bind]. rewrite aset_ok by lia. cbn [bind]. left. exact Hc.
  - destruct v as [| | |len data|]; try contradiction. destruct Hw as (Hlen & Hz' & Hw). unfold capacity_ok in *. cbn [rep_deserialize_unpacked].
    destruct (Z.ltb_spec len (zlen data)); [|right; auto].
    unfold rep_get. rewrite u32_small, Z.min_l by lia. destruct (aget_ok data len) as (x & -> & Hx); [lia|]. cbn [bind].
    destruct Hl as [Hwf Hv]. assert (Hz : zlen p < 2 ^ 32) by (rewrite <- Hv; apply Z.mod_pos_bound; reflexivity).
    destruct (DeserializeVarint_wf ok 32 _ _ _ (or_introl eq_refl) Hwf H) as (s1 & -> & H1). cbn [bind]. rewrite Hv.
    assert (Hwx : wt (EMsg fs os) x). { apply all_Forall in Hw. eapply Forall_forall in Hw; [exact Hw|]. eapply nth_error_In; eauto. }
    pose proof (msg_confined fuel fs os x s1 p tail Hok Hwx Hz H1) as Q.
    destruct (deserialize fuel (EMsg fs os) _ _ x _) as [[[e v'] sec]| |]; cbn [bind]; auto. rewrite aset_ok by lia. cbn [bind]. left. exact Q.
Qed.

Lemma elem_confined_done fuel t v s l p tail : desc_ok t -> is_packed t = false -> wt t v -> varint32 l (zlen p) ->
  rel s (l ++ p ++ tail) -> (length p < fuel)%nat ->
  exists e v' s' used rest, elem_deserialize_check_type t (deserialize fuel t) LENDEL S R v s = Done (e, v', s')
    /\ p = used ++ rest /\ rel s' (rest ++ tail) /\ (e = NoErrors -> rest = []).
Proof.
  intros Hok Hpk Hw Hl H Hf. pose proof (elem_confined fuel t v s l p tail Hpk Hok Hw Hl H) as Q.
  destruct (elem_deserialize_check_type t (deserialize fuel t) LENDEL S R v s) as [[[e v'] s']| |]; [|contradiction|lia].
  destruct Q as (used & rest & Q). exists e, v', s', used, rest. split; [reflexivity|exact Q].
Qed.

Lemma rep_confined_done fuel t max v s l p tail : desc_ok t -> capacity_ok max -> wt_field (KRep max) (wt t) v ->
  varint32 l (zlen p) -> rel s (l ++ p ++ tail) -> (length p < fuel)%nat ->
  exists e v' s', rep_deserialize_check_type fuel t (deserialize fuel t) LENDEL S R v s = Done (e, v', s')
    /\ ((exists used rest, p = used ++ rest /\ rel s' (rest ++ tail) /\ (e = NoErrors -> rest = []))
        \/ (e = ArrayFull /\ s' = s)).
Proof.
  intros Hok Hm Hw Hl H Hf. pose proof (rep_confined fuel t max v s l p tail Hok Hm Hw Hl H) as Q.
  destruct (rep_deserialize_check_type fuel t (deserialize fuel t) LENDEL S R v s) as [[[e v'] s']| |]; [|contradiction|lia].
  exists e, v', s'. split; [reflexivity|exact Q].
Qed.
End Confined.

(** A nested message cut short: an unknown field in it runs past the end, the section gives up all its
    bytes but the enclosing buffer refuses to advance. *)
Lemma truncated_not_confined : exists t v l n p rest s',
  desc_ok t /\ wt t v /\ is_packed t = false /\ varint32 l n /\ zlen p < n /\ rest <> []
  /\ (let s := rfix_of (l ++ p) in rfix_rel 5 s (l ++ p) /\ rfix_rel 5 s' rest
      /\ elem_deserialize_check_type t (deserialize 10 t) LENDEL rfix (rfix_ops 5) v s = Done (NoErrors, v, s')).
Proof.
  exists (EMsg [(1, KPlain, EScalar UInt32)] []), (VM [] [VS 0] []), [9], 9, [26; 5; 16; 1], [16; 1].
  exists {| rf_data := [9; 26; 5; 16; 1]; rf_w := 5; rf_r := 3 |}.
  split; [cbn; repeat split; try lia; repeat constructor; cbn; intuition lia|].
  split; [cbn; repeat split; try lia|]. split; [reflexivity|].
  split; [split; [exists [], 9; repeat split; auto; lia|reflexivity]|].
  split; [vm_compute; reflexivity|]. split; [discriminate|]. cbn zeta.
  split; [apply (rfix_of_rel [9; 26; 5; 16; 1]); [reflexivity|repeat constructor; lia]|].
  split; [|vm_compute; reflexivity].
  unfold rfix_rel; cbn [rf_data rf_w rf_r]. repeat split; try (vm_compute; congruence); try (repeat constructor; lia).
Qed.
