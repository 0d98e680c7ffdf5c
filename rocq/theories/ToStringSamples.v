(** The properties of to_string() in the form PropertiesToString.v states them; sample types. *)
From Coq Require Import String.
From Verif Require Import Base Buffers Wire Schema Fields Message Api Printf ToString Spec SpecApi SpecToString
  BitLemmas Samples TidyProofs ApiProofs ApiProps ToStringProofs ToStringProps ToStringExact.
From Coq Require Import List ZifyBool ZifyNat ZifyN.
Ltac Zify.zify_post_hook ::= Z.div_mod_to_equations.

Lemma split_mem (mem : list Z) pos k : 0 <= pos -> 0 <= k -> pos + k <= zlen mem ->
  exists a m, mem = a ++ m ++ skipn (Z.to_nat (pos + k)) mem /\ a = firstn (Z.to_nat pos) mem /\ zlen a = pos /\ zlen m = k.
Proof.
  intros Hp Hk Hl. exists (firstn (Z.to_nat pos) mem), (firstn (Z.to_nat k) (skipn (Z.to_nat pos) mem)).
  repeat split.
  - replace (skipn (Z.to_nat (pos + k)) mem) with (skipn (Z.to_nat k) (skipn (Z.to_nat pos) mem)).
    + now rewrite !firstn_skipn.
    + rewrite skipn_skipn'. f_equal. lia.
  - unfold zlen in *. rewrite firstn_length. lia.
  - unfold zlen in *. rewrite firstn_length, skipn_length. lia.
Qed.

Lemma fits : forall fmt nm fs os v mem pos n, let t := EMsg fs os in
  desc_ok t -> wt t v -> strings terminated t v ->
  let text := layout (document fmt nm t [] v) 0 None in
  zlen text < 2 ^ 31 -> 0 <= pos -> pos + n <= zlen mem -> zlen text < n < 2 ^ 32 ->
  to_string fmt nm t v (mem, {| sv_pos := pos; sv_size := n |})
  = Done (firstn (Z.to_nat pos) mem ++ text ++ [0] ++ skipn (Z.to_nat (pos + zlen text + 1)) mem,
          {| sv_pos := pos + zlen text; sv_size := n - zlen text |}).
Proof.
  intros fmt nm fs os v mem pos n t Hd Hw Ht text Hl Hp Hm Hn. pose proof (zlen_nonneg text).
  destruct (split_mem mem pos (zlen text + 1)) as (a & m & Em & Ea & La & Lm); try lia.
  rewrite Em at 1. rewrite <- La at 2. fold (vw (zlen a) n). unfold t, text in *. rewrite to_string_fits; auto.
  unfold vw. rewrite <- Ea, La. rewrite Z.add_assoc. reflexivity.
Qed.

Lemma exact_room : forall fmt nm fs os v mem pos, let t := EMsg fs os in
  desc_ok t -> wt t v -> strings terminated t v ->
  let text := layout (document fmt nm t [] v) 0 None in
  zlen text < 2 ^ 31 -> 0 <= pos -> pos + zlen text <= zlen mem ->
  to_string fmt nm t v (mem, {| sv_pos := pos; sv_size := zlen text |})
  = Done (firstn (Z.to_nat pos) mem ++ removelast text ++ [0] ++ skipn (Z.to_nat (pos + zlen text)) mem,
          {| sv_pos := pos + zlen text; sv_size := 0 |}).
Proof.
  intros fmt nm fs os v mem pos t Hd Hw Ht text Hl Hp Hm. pose proof (zlen_nonneg text).
  destruct (split_mem mem pos (zlen text)) as (a & m & Em & Ea & La & Lm); try lia.
  rewrite Em at 1. rewrite <- La at 2. rewrite <- Lm at 2. fold (vw (zlen a) (zlen m)). unfold t, text in *.
  rewrite to_string_exact; auto. unfold vw. rewrite <- Ea, La. reflexivity.
Qed.

Lemma json : forall fmt nm fs os ops fuel v mem pos n, let t := EMsg fs os in
  desc_ok t -> Forall (op_ok (OElem t)) ops -> run_ops fuel ops (OElem t) (construct (OElem t)) = Done v ->
  strings terminated t v -> strings reads_back t v ->
  let d := sdocument fmt nm t [] (view t v) in
  doc_ok d -> zlen (layout d 0 None) < 2 ^ 31 -> 0 <= pos -> pos + n <= zlen mem -> zlen (layout d 0 None) < n < 2 ^ 32 ->
  exists text, json_text text d
    /\ to_string fmt nm t v (mem, {| sv_pos := pos; sv_size := n |})
       = Done (firstn (Z.to_nat pos) mem ++ text ++ [0] ++ skipn (Z.to_nat (pos + zlen text + 1)) mem,
               {| sv_pos := pos + zlen text; sv_size := n - zlen text |}).
Proof.
  intros fmt nm fs os ops fuel v mem pos n t Hd Ho Hr Ht Hs d Hok Hl Hp Hm Hn.
  destruct (reached_ok fuel (OElem t) ops v Hd Ho Hr) as (Hw & Hti & _). cbn [owt otidy] in Hw, Hti.
  assert (Ed : d = document fmt nm t [] v) by (unfold d; symmetry; now apply document_view).
  exists (layout d 0 None). split; [now apply layout_json|]. rewrite Ed in *. now apply fits.
Qed.

Lemma comma_refuted : forall fmt nm fs os v slots mem pos n, let t := EMsg fs os in
  desc_ok t -> wt t v -> strings terminated t v ->
  document fmt nm t [] v = DObj slots -> ~ well_started slots ->
  let size := zlen (layout (DObj slots) 0 None) in
  size < 2 ^ 31 -> 0 <= pos -> pos + n <= zlen mem -> size < n < 2 ^ 32 ->
  exists text, (forall d, ~ json_text text d)
    /\ to_string fmt nm t v (mem, {| sv_pos := pos; sv_size := n |})
       = Done (firstn (Z.to_nat pos) mem ++ text ++ [0] ++ skipn (Z.to_nat (pos + zlen text + 1)) mem,
               {| sv_pos := pos + zlen text; sv_size := n - zlen text |}).
Proof.
  intros fmt nm fs os v slots mem pos n t Hd Hw Ht Es Hns size Hl Hp Hm Hn.
  exists (layout (DObj slots) 0 None). split; [intros d; now apply layout_comma|]. unfold size in *. rewrite <- Es in *. now apply fits.
Qed.

Lemma json_exact : forall fmt nm fs os ops fuel v mem pos n, let t := EMsg fs os in
  desc_ok t -> Forall (op_ok (OElem t)) ops -> run_ops fuel ops (OElem t) (construct (OElem t)) = Done v ->
  strings terminated t v -> strings reads_back t v -> (forall path, Forall plain_char (nm path)) ->
  let d := sdocument fmt nm t [] (view t v) in
  zlen (layout d 0 None) < 2 ^ 31 -> 0 <= pos -> pos + n <= zlen mem -> zlen (layout d 0 None) < n < 2 ^ 32 ->
  exists text, to_string fmt nm t v (mem, {| sv_pos := pos; sv_size := n |})
       = Done (firstn (Z.to_nat pos) mem ++ text ++ [0] ++ skipn (Z.to_nat (pos + zlen text + 1)) mem,
               {| sv_pos := pos + zlen text; sv_size := n - zlen text |})
    /\ (json_text text d <-> doc_ok d).
Proof.
  intros fmt nm fs os ops fuel v mem pos n t Hd Ho Hr Ht Hs Hnm d Hl Hp Hm Hn.
  destruct (reached_ok fuel (OElem t) ops v Hd Ho Hr) as (Hw & Hti & _). cbn [owt otidy] in Hw, Hti.
  assert (Ed : d = document fmt nm t [] v) by (unfold d; symmetry; now apply document_view).
  exists (layout d 0 None). rewrite Ed in *. split; [now apply fits|]. split; [|apply layout_json].
  apply layout_back; [now apply document_plain|]. intros s. destruct v; discriminate.
Qed.

Lemma escape_refuted : forall fmt nm fs os ops fuel v mem pos n, let t := EMsg fs os in
  desc_ok t -> Forall (op_ok (OElem t)) ops -> run_ops fuel ops (OElem t) (construct (OElem t)) = Done v ->
  strings terminated t v -> strings reads_back t v -> (forall path, Forall plain_char (nm path)) ->
  ~ strings (fun len data => Forall plain_char (firstn (Z.to_nat len) data)) t v ->
  let d := sdocument fmt nm t [] (view t v) in
  zlen (layout d 0 None) < 2 ^ 31 -> 0 <= pos -> pos + n <= zlen mem -> zlen (layout d 0 None) < n < 2 ^ 32 ->
  exists text, to_string fmt nm t v (mem, {| sv_pos := pos; sv_size := n |})
       = Done (firstn (Z.to_nat pos) mem ++ text ++ [0] ++ skipn (Z.to_nat (pos + zlen text + 1)) mem,
               {| sv_pos := pos + zlen text; sv_size := n - zlen text |})
    /\ ~ json_text text d.
Proof.
  intros fmt nm fs os ops fuel v mem pos n t Hd Ho Hr Ht Hs Hnm Hesc d Hl Hp Hm Hn.
  destruct (json_exact fmt nm fs os ops fuel v mem pos n Hd Ho Hr Ht Hs Hnm Hl Hp Hm Hn) as (text & E & Hiff).
  exists text. split; [exact E|]. intros Hj. apply Hiff in Hj. apply Hesc.
  destruct (reached_ok fuel (OElem t) ops v Hd Ho Hr) as (Hw & Hti & _). cbn [owt otidy] in Hw, Hti.
  fold t in Hj. rewrite <- (document_view fmt nm t [] v Hw Hti Hs) in Hj. apply document_printable in Hj; [|exact Hw].
  revert Hs Hj. apply strings_mono; [|exact Hw]. unfold reads_back, printable. intros len data E'. now rewrite E'.
Qed.

(** A text of printf("%f") for every float, and names f1, f2, ... by field number. *)
Definition sample_fmt (sc : scalar) (z : Z) : list Z := chars "0.500000".
Definition sample_names (path : list Z) : list Z := 102 :: decimal (last path 0).

(** message { string s = 1 (max 5) } *)
Definition Str5 : ety := EMsg [(1, KPlain, EBytes true 5)] [].
Lemma Str5_ok : desc_ok Str5.
Proof. cbn. repeat split; try lia. repeat constructor; cbn; intuition lia. Qed.

(** message { oneof a { int32 x = 1; } oneof b { int32 y = 2; } } *)
Definition TwoOneofs : ety := EMsg [] [[(1, EScalar Int32)]; [(2, EScalar Int32)]].
Lemma TwoOneofs_ok : desc_ok TwoOneofs.
Proof. cbn. repeat split; try lia. repeat constructor; cbn; intuition lia. Qed.

(** message { string s = 1 (max 20) } *)
Definition Str20 : ety := EMsg [(1, KPlain, EBytes true 20)] [].
Lemma Str20_ok : desc_ok Str20.
Proof. cbn. repeat split; try lia. repeat constructor; cbn; intuition lia. Qed.

(** The string  x", "f2": "y  *)
Definition injected : list Z := chars "x" ++ mark ++ chars ", " ++ mark ++ chars "f2" ++ mark ++ chars ": " ++ mark ++ chars "y".

Lemma plain_chars s : forallb (fun c => (32 <=? c) && negb (c =? 34) && negb (c =? 92)) s = true -> Forall plain_char s.
Proof.
  intros H. apply Forall_forall. intros c Hc. rewrite forallb_forall in H. specialize (H c Hc). unfold plain_char. lia.
Qed.

Lemma injection_refuted : exists v mem text,
  run_ops 0 [OpField 0 (OpBytesSet injected (zlen injected))] (OElem Str20) (construct (OElem Str20)) = Done v
  /\ view Str20 v = SvM [SvB injected] []
  /\ to_string sample_fmt sample_names Str20 v (zrepeat 1 100, {| sv_pos := 0; sv_size := 100 |})
     = Done (text ++ [0] ++ mem, {| sv_pos := zlen text; sv_size := 100 - zlen text |})
  /\ json_text text (DObj [Some (chars "f1", DStr (chars "x")); Some (chars "f2", DStr (chars "y"))]).
Proof.
  do 2 eexists. exists (layout (DObj [Some (chars "f1", DStr injected)]) 0 None).
  split; [vm_compute; reflexivity|]. split; [vm_compute; reflexivity|].
  split; [vm_compute; reflexivity|].
  exists [], (layout (DObj [Some (chars "f1", DStr injected)]) 0 None), []. rewrite app_nil_r.
  split; [reflexivity|]. split; [constructor|]. split; [|constructor].
  apply (vt_obj (line_end ++ chars "  " ++ mark ++ chars "f1" ++ mark ++ [] ++ [58] ++ [32] ++ (mark ++ chars "x" ++ mark) ++ []
    ++ [44] ++ ([32] ++ mark ++ chars "f2" ++ mark ++ [] ++ [58] ++ [32] ++ (mark ++ chars "y" ++ mark) ++ line_end))
    [Some (chars "f1", DStr (chars "x")); Some (chars "f2", DStr (chars "y"))]).
  cbn [members].
  apply (mb_more ((line_end ++ chars "  ") ++ mark ++ chars "f1" ++ mark ++ [] ++ [58] ++ [32] ++ (mark ++ chars "x" ++ mark) ++ [])).
  - constructor; try (apply plain_text, plain_chars; reflexivity); try (repeat constructor; lia).
    apply vt_str. apply plain_text, plain_chars. reflexivity.
  - constructor. constructor; try (apply plain_text, plain_chars; reflexivity); try (repeat constructor; lia).
    apply vt_str. apply plain_text, plain_chars. reflexivity.
Qed.

Lemma decimal_plain z : Forall plain_char (decimal z).
Proof.
  assert (H : forall n, 0 <= n -> Forall plain_char (natural n)).
  { intros n Hn. destruct (natural_ok n Hn) as ((Hd & _) & _). eapply Forall_impl; [|exact Hd]. unfold digit, plain_char. intros c Hc. lia. }
  unfold decimal. destruct (Z.ltb_spec z 0); [constructor; [unfold plain_char; lia|]|]; apply H; lia.
Qed.

Lemma escape_applies : let ops := [OpField 0 (OpBytesSet injected (zlen injected))] in
  desc_ok Str20 /\ Forall (op_ok (OElem Str20)) ops /\ (forall path, Forall plain_char (sample_names path))
  /\ exists v, run_ops 0 ops (OElem Str20) (construct (OElem Str20)) = Done v
     /\ strings terminated Str20 v /\ strings reads_back Str20 v
     /\ ~ strings (fun len data => Forall plain_char (firstn (Z.to_nat len) data)) Str20 v
     /\ zlen (layout (sdocument sample_fmt sample_names Str20 [] (view Str20 v)) 0 None) < 100.
Proof.
  split; [exact Str20_ok|]. split.
  { constructor; [|constructor]. vm_compute. repeat split; try congruence; repeat constructor; intuition congruence. }
  split; [intros path; constructor; [unfold plain_char; lia|apply decimal_plain]|].
  eexists. split; [vm_compute; reflexivity|]. split; [vm_compute; intuition|]. split; [vm_compute; intuition|].
  split; [|vm_compute; reflexivity]. cbn. intros [[H _] _]. rewrite Forall_forall in H.
  destruct (H 34) as (_ & H' & _); [vm_compute; tauto|congruence].
Qed.

(** Every string of bytes can be written in JSON. *)
Lemma every_string : forall s, Forall (fun c => 0 <= c < 256) s -> exists e, string_text e s.
Proof.
  induction 1 as [|c s Hc Hs (e & He)]; [exists []; constructor|].
  destruct (Z.eq_dec c 34) as [->|]; [exists ([92; 34] ++ e); apply (st_short 34 34); [cbn; tauto|exact He]|].
  destruct (Z.eq_dec c 92) as [->|]; [exists ([92; 92] ++ e); apply (st_short 92 92); [cbn; tauto|exact He]|].
  destruct (Z_le_dec 32 c); [exists (c :: e); constructor; [unfold plain_char; lia|exact He]|].
  set (h := fun v => if v <? 10 then 48 + v else 55 + v).
  assert (Hh : forall v, 0 <= v < 16 -> hex (h v) v) by (intros v Hv; unfold h, hex; destruct (Z.ltb_spec v 10); lia).
  exists ([92; 117; 48; 48; h (c / 16); h (c mod 16)] ++ e).
  replace (c :: s) with (utf8 c ++ s) by (unfold utf8; destruct (Z.ltb_spec c 128); [reflexivity|lia]).
  apply (st_unit _ c); [|lia|exact He].
  replace c with (4096 * 0 + 256 * 0 + 16 * (c / 16) + c mod 16) at 3 by lia.
  constructor; [unfold hex; lia|unfold hex; lia|apply Hh; lia|apply Hh; lia].
Qed.
