(** * StreamProofs: messages with their length in front (C81). *)
From Verif Require Import Base Buffers Wire Schema Fields Message Api Spec SpecStream Stream Contracts BitLemmas ReadProofs WriteProofs ScalarProofs BufferProofs
  Struct SerProofs SerProps Tables DecodeProofs RoundTrip ClearProofs SafetyProofs SafetyMsg SafetyProps DecodeProps ReadAny.
From Coq Require Import ZifyBool ZifyNat ZifyN.
Ltac Zify.zify_post_hook ::= Z.div_mod_to_equations.

Lemma sendable_msg t v : sendable (t, v) ->
  exists fs os, t = EMsg fs os /\ desc_ok t /\ wt t v /\ zlen (enc t (view t v)) < 2 ^ 32.
Proof. destruct t as [| |fs os]; cbn [sendable]; intros H; try contradiction. exists fs, os. tauto. Qed.

Lemma write_framed_wrote t v : sendable (t, v) -> forall S (W : wops S) rel exact, writer_ok W rel exact ->
  forall s c room, rel s c room -> wrote rel c room (framed (t, v)) False (write_framed t v S W s).
Proof.
  intros Hs S W rel exact ok s c room Hr. apply sendable_msg in Hs. destruct Hs as (fs & os & Et & Hd & Hw & Hz).
  unfold write_framed, framed. rewrite serialized_size_enc by auto. cbn [bind]. apply wrote_bind.
  - apply (len_wrote ok); [|exact Hr]. pose proof (zlen_nonneg (enc t (view t v))). lia.
  - intros s' Hs'. eapply wrote_weaken; [|eapply (serialize_wrote t v Hw Hd Hz S W rel exact ok); eauto].
    + tauto.
    + right. now rewrite Et.
Qed.

Lemma write_stream_wrote l : Forall sendable l -> forall S (W : wops S) rel exact, writer_ok W rel exact ->
  forall s c room, rel s c room -> wrote rel c room (flat_map framed l) False (write_stream l W s).
Proof.
  intros Hl S W rel exact ok. induction Hl as [|[t v] l Hx Hl IH]; intros s c room Hr; cbn [write_stream flat_map].
  - now apply (wrote_nil ok).
  - apply wrote_bind; [now apply (write_framed_wrote t v Hx S W rel exact ok)|]. intros s' Hs'. now apply IH.
Qed.

Lemma write_stream_outcome l : Forall sendable l -> forall S (W : wops S) rel exact, writer_ok W rel exact ->
  forall s c room, rel s c room ->
  exists e s', write_stream l W s = Done (e, s')
    /\ ((e = NoErrors /\ rel s' (c ++ flat_map framed l) (option_map (fun n => n - zlen (flat_map framed l)) room))
        \/ (e = BufferFull /\ exists n pre suf, room = Some n /\ flat_map framed l = pre ++ suf /\ suf <> []
             /\ rel s' (c ++ pre) (Some (n - zlen pre)) /\ n <= zlen (flat_map framed l))).
Proof.
  intros Hl S W rel exact ok s c room Hr.
  destruct (write_stream_wrote l Hl S W rel exact ok s c room Hr) as (e & s' & E & H). exists e, s'. split; [exact E|].
  destruct H as [(He & H & _)|(He & n & pre & suf & H1 & H2 & H3 & H4 & H5 & _)]; [left; auto|right].
  split; [exact He|]. exists n, pre, suf. repeat split; auto. lia.
Qed.

Section Read.
Context {S : Type} {R : rops S} {rel : S -> list Z -> Prop} (ok : reader_ok R rel).

(** What is left of the window is skipped. *)
Lemma rest_skipped p tail b m : window_inv (rel := rel) p tail b m ->
  exists k b', r_advance_n (sec_ops R) b (r_get_size (sec_ops R) b) = Done (k, b') /\ rel (sec_parent b') tail.
Proof.
  intros (used & rest & E & H & Hs & _).
  destruct (ro_advance_n _ _ (exact_ok R rel tail ok) b rest (zlen rest)) as (k & b' & E' & (H' & _) & _).
  { split; [exact H|exact Hs]. }
  { pose proof (zlen_nonneg rest). lia. }
  exists k, b'. cbn [sec_ops r_get_size] in *. rewrite Hs. split; [exact E'|].
  unfold zlen in H'. now rewrite Nat2Z.id, skipn_all in H'.
Qed.

Lemma read_framed_ok fuel t v l p tail s : frame_ok ((t, v), (l, p)) -> rel s (l ++ p ++ tail) -> (length p < fuel)%nat ->
  exists e v' s', read_framed fuel t S R v s = Done (e, v', s') /\ rel s' tail /\ frame_read ((t, v), (l, p)) (e, v').
Proof.
  intros Hf H Hfu. destruct t as [| |fs os]; cbn [frame_ok] in Hf; try contradiction. destruct Hf as (Hd & Hw & Hwf & Hv).
  set (t := EMsg fs os) in *.
  unfold read_framed. destruct (DeserializeVarint_wf ok 32 _ _ _ (or_introl eq_refl) Hwf H) as (s1 & -> & H1). cbn [bind]. rewrite Hv.
  assert (Hp : zlen p < 2 ^ 32) by (rewrite <- Hv; apply Z.mod_pos_bound; reflexivity).
  pose proof (window_start ok s1 p tail Hp H1) as Hst.
  pose proof (deserialize_safe fuel t Hd _ _ _ _ _ (window_decoder ok p tail Hp) v _ _ Hst Hw) as Q.
  destruct (deserialize fuel t (section S) (sec_ops R) v (mk_section R s1 (zlen p))) as [[[e v'] sec]| |] eqn:E; cbn [out_ok] in Q;
    [|contradiction|specialize (Q I); lia].
  destruct Q as ((Hpost & _) & m' & Hi & _). destruct (rest_skipped _ _ _ _ Hi) as (k & b' & E' & H').
  cbn [bind]. rewrite E'. cbn [bind]. exists e, v', (sec_parent b'). split; [reflexivity|]. split; [exact H'|].
  cbn [frame_read]. fold t. split; [apply Hpost; now right|]. intros new Hc Hm.
  assert (Hx : exact_rel rel tail (mk_section R s1 (zlen p)) p).
  { split; [exact H1|]. pose proof (ro_size _ _ ok _ _ H1) as Z1. rewrite zlen_app in Z1. pose proof (zlen_nonneg tail). cbn [mk_section sec_size]. lia. }
  destruct (decode_merge fs os v p new Hd Hw Hc Hm _ _ _ (exact_ok R rel tail ok) _ Hx fuel Hfu) as (v2 & s2 & E2 & _ & Hv2 & _ & Hc2).
  fold t in E2. rewrite E in E2. injection E2 as -> -> ->. auto.
Qed.

Lemma read_stream_ok fuel frames : Forall frame_ok frames -> Forall (fun f => (length (snd (snd f)) < fuel)%nat) frames ->
  forall s rest, rel s (flat_map frame_bytes frames ++ rest) ->
  exists outs s', read_stream fuel (map fst frames) R s = Done (outs, s') /\ rel s' rest /\ Forall2 frame_read frames outs.
Proof.
  intros Hf. induction Hf as [|[[t v] [l p]] frames Hx Hf IH]; intros Hfu s rest H.
  - exists [], s. auto.
  - inversion Hfu as [|? ? Hfu1 Hfu2]; subst. cbn [snd] in Hfu1.
    cbn [flat_map] in H. unfold frame_bytes in H at 1. cbn [fst snd] in H. rewrite <- !app_assoc in H.
    destruct (read_framed_ok fuel t v l p _ s Hx H Hfu1) as (e & v' & s1 & E1 & H1 & F1).
    destruct (IH Hfu2 s1 rest H1) as (outs & s2 & E2 & H2 & F2).
    exists ((e, v') :: outs), s2. cbn [map fst read_stream]. rewrite E1. cbn [bind]. rewrite E2. cbn [bind].
    split; [reflexivity|]. split; [exact H2|]. now constructor.
Qed.
End Read.

(** The frame that was written for a message. *)
Definition sent_frame '((t, v, v0) : ety * value * value) : (ety * value) * (list Z * list Z) :=
  ((t, v0), (varint (zlen (enc t (view t v))), enc t (view t v))).

Lemma sent_ok x : receivable x -> frame_ok (sent_frame x).
Proof.
  destruct x as [[t v] v0]. intros (Hs & Hfr). apply sendable_msg in Hs. destruct Hs as (fs & os & -> & Hd & Hw & Hz).
  cbn [sent_frame frame_ok]. destruct (fresh_good _ _ Hd Hfr) as (Hw0 & _). split; [exact Hd|]. split; [exact Hw0|].
  apply varint_varint32. pose proof (zlen_nonneg (enc (EMsg fs os) (view (EMsg fs os) v))). lia.
Qed.

Lemma sent_received x out : receivable x -> frame_read (sent_frame x) out -> received x out.
Proof.
  destruct x as [[t v] v0], out as [e v']. intros (Hs & Hfr). apply sendable_msg in Hs. destruct Hs as (fs & os & -> & Hd & Hw & Hz).
  cbn [sent_frame frame_read]. intros (Hw' & Hr). destruct (fresh_good _ _ Hd Hfr) as (_ & Hc0 & Hv0).
  assert (Hm : mdec fs os (view (EMsg fs os) v0) (enc (EMsg fs os) (view (EMsg fs os) v)) (norm (EMsg fs os) (view (EMsg fs os) v))).
  { rewrite Hv0. pose proof (enc_decodes true (EMsg fs os) v Hw Hd Hz) as He. now inversion He. }
  destruct (Hr _ Hc0 Hm) as (-> & _ & E). unfold received. split; [reflexivity|]. split; [exact Hw'|]. split; [exact E|].
  intros Hn. rewrite E. now apply norm_id.
Qed.

Lemma stream_round_trip l : Forall receivable l -> forall cap b c n b', wfix_rel cap b c (Some n) ->
  write_stream (map fst l) (wfix_ops cap) b = Done (NoErrors, b') ->
  exists bytes, wfix_content b' = wfix_content b ++ bytes /\
  forall S (R : rops S) rel, reader_ok R rel -> forall s rest, rel s (bytes ++ rest) ->
  forall fuel, (length bytes < fuel)%nat ->
  exists outs s', read_stream fuel (map (fun '(t, v, v0) => (t, v0)) l) R s = Done (outs, s') /\ rel s' rest /\ Forall2 received l outs.
Proof.
  intros Hl cap b c n b' Hb E.
  assert (Hs : Forall sendable (map fst l)).
  { apply Forall_map. eapply Forall_impl; [|exact Hl]. intros [[t v] v0] (H & _). exact H. }
  exists (flat_map framed (map fst l)). split.
  { destruct (write_stream_wrote _ Hs _ _ _ _ (wfix_ok cap) b c (Some n) Hb) as (e & s1 & E1 & H).
    rewrite E1 in E. injection E as -> ->. destruct H as [(_ & H & _)|([=] & _)].
    destruct Hb as (_ & _ & _ & _ & Hc & _). destruct H as (_ & _ & _ & _ & H & _).
    unfold wfix_content. rewrite <- H, <- Hc. reflexivity. }
  intros S R rel ok s rest H fuel Hfu.
  assert (Eb : flat_map framed (map fst l) = flat_map frame_bytes (map sent_frame l)).
  { clear. induction l as [|[[t v] v0] l IH]; [reflexivity|]. cbn [map flat_map fst]. rewrite IH. reflexivity. }
  rewrite Eb in *.
  destruct (read_stream_ok ok fuel (map sent_frame l)) with (s := s) (rest := rest) as (outs & s' & E' & H' & F).
  - apply Forall_map. eapply Forall_impl; [|exact Hl]. exact sent_ok.
  - clear - Hfu. induction l as [|x l IH]; [constructor|]. cbn [map flat_map] in *. unfold frame_bytes in Hfu at 1. rewrite !app_length in Hfu.
    constructor; [lia|]. apply IH. lia.
  - exact H.
  - exists outs, s'. split; [|split; [exact H'|]].
    + rewrite <- E'. f_equal. rewrite map_map. apply map_ext. intros [[t v] v0]. reflexivity.
    + clear - F Hl. revert outs F. induction Hl as [|x l Hx Hl IH]; intros outs F; cbn [map] in F; inversion F; subst; constructor; auto.
      now apply sent_received.
Qed.

(** A stream that ends inside a message, at the end of a record: the message is taken as complete. *)
Lemma cut_accepted {S} (R : rops S) rel : reader_ok R rel -> reader_bounded R rel ->
  forall fs os v l n a new, let t := EMsg fs os in desc_ok t -> wt t v -> clean t v ->
  varint32 l n -> zlen a < n -> mdec fs os (view t v) a new ->
  forall s, rel s (l ++ a) -> forall fuel, (length a < fuel)%nat ->
  exists v' s', read_framed fuel t S R v s = Done (NoErrors, v', s') /\ rel s' [] /\ view t v' = new.
Proof.
  intros ok bd fs os v l n a new t Hd Hw Hc (Hwf & Hv) Hn Hm s H fuel Hf.
  unfold read_framed. destruct (DeserializeVarint_wf ok 32 _ _ _ (or_introl eq_refl) Hwf H) as (s1 & -> & H1). cbn [bind]. rewrite Hv.
  assert (Hx : exact_rel rel [] (mk_section R s1 n) a).
  { split; [now rewrite app_nil_r|]. cbn [mk_section sec_size]. rewrite (rb_size _ _ bd _ _ H1). lia. }
  destruct (decode_merge fs os v a new Hd Hw Hc Hm _ _ _ (exact_ok R rel [] ok) _ Hx fuel Hf) as (v' & sec & E & (Hr & Hs) & Hv' & _).
  fold t in E. rewrite E. cbn [bind].
  destruct (ro_advance_n _ _ (exact_ok R rel [] ok) sec [] 0) as (k & b' & E' & (H' & _) & _); [split; assumption|cbn; lia|].
  cbn [sec_ops r_get_size] in *. rewrite Hs. change (zlen []) with 0. rewrite E'. cbn [bind]. exists v', (sec_parent b').
  split; [reflexivity|]. split; [exact H'|exact Hv'].
Qed.
