(** * Properties C49 and C56: to_string() (code compiled with MSG_TO_STRING).

    The array the user supplies is [mem]; a view is a position in it and a size. [layout (document ...)]
    (SpecToString.v) is the text of a message. [fmt] is the text printf makes of a float, [nm] the names of
    the fields; both are arbitrary. [strings terminated]: every string that is shown contains a 0. *)
From Verif Require Import Base Buffers Wire Schema Fields Message Api Printf ToString Spec SpecApi SpecToString
  Samples ApiSamples ToStringProps ToStringSamples.
From Coq Require Import String List.

(** C49, the part that holds: if the view has room for the text and a terminator, exactly these are
    written, nothing else in the array changes, and the result is the rest of the view. Missing: smaller
    views (C49_overrun_refuted, C49_view_refuted) and full strings (C49_full_string_refuted). *)
Theorem C49_fits_partial : forall fmt nm fs os v mem pos n, let t := EMsg fs os in
  desc_ok t -> wt t v -> strings terminated t v ->
  let text := layout (document fmt nm t [] v) 0 None in
  zlen text < 2 ^ 31 -> 0 <= pos -> pos + n <= zlen mem -> zlen text < n < 2 ^ 32 ->
  to_string fmt nm t v (mem, {| sv_pos := pos; sv_size := n |})
  = Done (firstn (Z.to_nat pos) mem ++ text ++ [0] ++ skipn (Z.to_nat (pos + zlen text + 1)) mem,
          {| sv_pos := pos + zlen text; sv_size := n - zlen text |}).
Proof. exact fits. Qed.
Print Assumptions C49_fits_partial.

Example C49_fits_applies : desc_ok Outer /\ wt Outer outer_v /\ strings terminated Outer outer_v
  /\ zlen (layout (document sample_fmt sample_names Outer [] outer_v) 0 None) = 421.
Proof.
  split; [exact Outer_ok|]. split; [exact outer_v_wt|]. split; [|vm_compute; reflexivity].
  vm_compute. intuition.
Qed.

(** A view that is exactly as long as the text: still within bounds; the last character is lost. *)
Theorem C49_exact_partial : forall fmt nm fs os v mem pos, let t := EMsg fs os in
  desc_ok t -> wt t v -> strings terminated t v ->
  let text := layout (document fmt nm t [] v) 0 None in
  zlen text < 2 ^ 31 -> 0 <= pos -> pos + zlen text <= zlen mem ->
  to_string fmt nm t v (mem, {| sv_pos := pos; sv_size := zlen text |})
  = Done (firstn (Z.to_nat pos) mem ++ removelast text ++ [0] ++ skipn (Z.to_nat (pos + zlen text)) mem,
          {| sv_pos := pos + zlen text; sv_size := 0 |}).
Proof. exact exact_room. Qed.
Print Assumptions C49_exact_partial.

Example C49_exact_applies :
  exists mem, to_string sample_fmt sample_names Str5 (VM [] [VB 2 [104; 105; 0; 0; 0]] []) (zrepeat 1 20, {| sv_pos := 1; sv_size := 16 |})
  = Done (1 :: removelast (chars "{" ++ line_end ++ chars "  " ++ mark ++ chars "f1" ++ mark ++ chars ": " ++ mark ++ chars "hi" ++ mark ++ line_end ++ chars "}")
            ++ [0] ++ mem, {| sv_pos := 17; sv_size := 0 |}) /\ mem = [1; 1; 1].
Proof. eexists. split; vm_compute; reflexivity. Qed.

(** C49 fails for every smaller view: with a view of n characters at the end of the array, more than two
    characters too short, to_string writes outside the array, whatever the message. *)
Theorem C49_overrun_refuted : forall fmt nm fs os v mem pos n, let t := EMsg fs os in
  desc_ok t -> wt t v ->
  let text := layout (document fmt nm t [] v) 0 None in
  zlen text < 2 ^ 31 -> 0 <= pos -> pos + n = zlen mem -> 0 <= n < zlen text - 2 ->
  to_string fmt nm t v (mem, {| sv_pos := pos; sv_size := n |}) = UB.
Proof. exact (fun fmt nm fs os v mem pos n Hd Hw => to_string_overrun fmt nm fs os v Hd Hw mem pos n). Qed.
Print Assumptions C49_overrun_refuted.

(** One or two characters too short: nothing is written outside, but the view that comes back lies
    outside the array and claims to have about 2^32 characters left. *)
Theorem C49_view_refuted : forall fmt nm fs os v mem pos n, let t := EMsg fs os in
  desc_ok t -> wt t v -> strings terminated t v ->
  let text := layout (document fmt nm t [] v) 0 None in
  zlen text < 2 ^ 31 -> 0 <= pos -> pos + n <= zlen mem -> 0 <= n -> zlen text - 2 <= n < zlen text ->
  exists mem', to_string fmt nm t v (mem, {| sv_pos := pos; sv_size := n |})
               = Done (mem', {| sv_pos := pos + zlen text; sv_size := 2 ^ 32 + n - zlen text |}).
Proof.
  exact (fun fmt nm fs os v mem pos n Hd Hw Ht => to_string_short fmt nm fs os v Hd Hw mem pos n Ht).
Qed.
Print Assumptions C49_view_refuted.

Example C49_overrun_applies :
  to_string sample_fmt sample_names Outer outer_v (zrepeat 1 150, {| sv_pos := 50; sv_size := 100 |}) = UB
  /\ to_string sample_fmt sample_names (EMsg [] []) (VM [] [] []) ([1; 1; 1], {| sv_pos := 0; sv_size := 3 |})
     = Done ([123; 10; 0], {| sv_pos := 4; sv_size := 2 ^ 32 - 1 |}).
Proof. split; vm_compute; reflexivity. Qed.

(** However large the view: a string that fills its array has no terminator, and to_string reads beyond it. *)
Theorem C49_full_string_refuted : forall fmt nm fs os v st, let t := EMsg fs os in
  desc_ok t -> wt t v -> ~ strings terminated t v -> to_string fmt nm t v st = UB.
Proof. exact (fun fmt nm fs os v st Hd Hw => to_string_unterminated fmt nm fs os v Hd Hw st). Qed.
Print Assumptions C49_full_string_refuted.

(** Such a string is stored by an ordinary assignment. *)
Example C49_full_string_applies :
  exists v, run_ops 0 [OpField 0 (OpCStr (Some (chars "hello" ++ [0])))] (OElem Str5) (construct (OElem Str5)) = Done v
  /\ desc_ok Str5 /\ wt Str5 v /\ ~ strings terminated Str5 v.
Proof.
  eexists. split; [vm_compute; reflexivity|]. split; [exact Str5_ok|].
  split; [cbn; unfold is_byte, is_u32; repeat split; try lia; vm_compute; congruence|].
  cbn. unfold terminated. cbn. intuition lia.
Qed.

(** C56, the part that holds: after any history of calls, if the text fits, it is JSON for the values the
    getters show (absent optional fields with their default value). Required: strings read as C strings are
    their content; names and strings need no escaping; floats print as decimal fractions; and in every
    message the first field is printed, or none is ([doc_ok], [well_started] in SpecToString.v). *)
Theorem C56_json_partial : forall fmt nm fs os ops fuel v mem pos n, let t := EMsg fs os in
  desc_ok t -> Forall (op_ok (OElem t)) ops -> run_ops fuel ops (OElem t) (construct (OElem t)) = Done v ->
  strings terminated t v -> strings reads_back t v ->
  let d := sdocument fmt nm t [] (view t v) in
  doc_ok d -> zlen (layout d 0 None) < 2 ^ 31 -> 0 <= pos -> pos + n <= zlen mem -> zlen (layout d 0 None) < n < 2 ^ 32 ->
  exists text, json_text text d
    /\ to_string fmt nm t v (mem, {| sv_pos := pos; sv_size := n |})
       = Done (firstn (Z.to_nat pos) mem ++ text ++ [0] ++ skipn (Z.to_nat (pos + zlen text + 1)) mem,
               {| sv_pos := pos + zlen text; sv_size := n - zlen text |}).
Proof. exact json. Qed.
Print Assumptions C56_json_partial.

Example C56_json_applies : desc_ok Outer /\ Forall (op_ok (OElem Outer)) sample_ops
  /\ exists v, run_ops 20 sample_ops (OElem Outer) (construct (OElem Outer)) = Done v
     /\ strings terminated Outer v /\ strings reads_back Outer v
     /\ doc_ok (sdocument sample_fmt sample_names Outer [] (view Outer v))
     /\ zlen (layout (sdocument sample_fmt sample_names Outer [] (view Outer v)) 0 None) < 500.
Proof.
  split; [exact Outer_ok|]. split; [exact sample_ops_ok|]. eexists. split; [vm_compute; reflexivity|].
  split; [vm_compute; intuition|]. split; [vm_compute; intuition|].
  split; [|vm_compute; reflexivity].
  assert (F : number_text (chars "0.500000")).
  { apply (nt (chars "0") 0 (chars ".500000") []); [| |now left].
    2:{ right. exists (chars "500000"). repeat split; [repeat constructor; cbn; lia|discriminate]. }
    apply (it_nonneg (chars "0")). repeat split; [repeat constructor; cbn; lia|discriminate]. }
  vm_compute view. cbn [sdocument Outer Inner outer_fields inner_fields outer_oneofs map sfield_slots sfield_slot soneof_slots soneof_slot lookup Z.eqb Pos.eqb app scalar_doc sdefault].
  cbn [doc_ok all well_started]. repeat split; try exact F; try (apply plain_chars; reflexivity).
Qed.

(** C56 fails when the first field is left out: for every message where the first field is recursive, or
    where there are only oneofs and the first one is not set, and something else is printed, there is a
    comma at the beginning, and the text is not JSON at all. *)
Theorem C56_comma_refuted : forall fmt nm fs os v slots mem pos n, let t := EMsg fs os in
  desc_ok t -> wt t v -> strings terminated t v ->
  document fmt nm t [] v = DObj slots -> ~ well_started slots ->
  let size := zlen (layout (DObj slots) 0 None) in
  size < 2 ^ 31 -> 0 <= pos -> pos + n <= zlen mem -> size < n < 2 ^ 32 ->
  exists text, (forall d, ~ json_text text d)
    /\ to_string fmt nm t v (mem, {| sv_pos := pos; sv_size := n |})
       = Done (firstn (Z.to_nat pos) mem ++ text ++ [0] ++ skipn (Z.to_nat (pos + zlen text + 1)) mem,
               {| sv_pos := pos + zlen text; sv_size := n - zlen text |}).
Proof. exact comma_refuted. Qed.
Print Assumptions C56_comma_refuted.

Example C56_comma_applies :
  exists v slots, run_ops 0 [OpOneof 1 2 (OpScalarSet 7)] (OElem TwoOneofs) (construct (OElem TwoOneofs)) = Done v
  /\ document sample_fmt sample_names TwoOneofs [] v = DObj slots /\ ~ well_started slots
  /\ layout (DObj slots) 0 None = chars "{" ++ line_end ++ chars "," ++ line_end ++ chars "  " ++ mark ++ chars "f2" ++ mark ++ chars ": 7" ++ line_end ++ chars "}".
Proof.
  do 2 eexists. split; [vm_compute; reflexivity|]. split; [vm_compute; reflexivity|]. split; [discriminate|vm_compute; reflexivity].
Qed.

(** The conditions on the values are exact: after any history of calls, the text is JSON for the values the
    getters show if and only if [doc_ok]: no string needs escaping, floats print as numbers, and in every
    message the first field is printed, or none is. *)
Theorem C56_exact : forall fmt nm fs os ops fuel v mem pos n, let t := EMsg fs os in
  desc_ok t -> Forall (op_ok (OElem t)) ops -> run_ops fuel ops (OElem t) (construct (OElem t)) = Done v ->
  strings terminated t v -> strings reads_back t v -> (forall path, Forall plain_char (nm path)) ->
  let d := sdocument fmt nm t [] (view t v) in
  zlen (layout d 0 None) < 2 ^ 31 -> 0 <= pos -> pos + n <= zlen mem -> zlen (layout d 0 None) < n < 2 ^ 32 ->
  exists text, to_string fmt nm t v (mem, {| sv_pos := pos; sv_size := n |})
       = Done (firstn (Z.to_nat pos) mem ++ text ++ [0] ++ skipn (Z.to_nat (pos + zlen text + 1)) mem,
               {| sv_pos := pos + zlen text; sv_size := n - zlen text |})
    /\ (json_text text d <-> doc_ok d).
Proof. exact json_exact. Qed.
Print Assumptions C56_exact.

(** C56 fails for every string with a quote, a backslash or a control character: nothing is escaped. *)
Theorem C56_escape_refuted : forall fmt nm fs os ops fuel v mem pos n, let t := EMsg fs os in
  desc_ok t -> Forall (op_ok (OElem t)) ops -> run_ops fuel ops (OElem t) (construct (OElem t)) = Done v ->
  strings terminated t v -> strings reads_back t v -> (forall path, Forall plain_char (nm path)) ->
  ~ strings (fun len data => Forall plain_char (firstn (Z.to_nat len) data)) t v ->
  let d := sdocument fmt nm t [] (view t v) in
  zlen (layout d 0 None) < 2 ^ 31 -> 0 <= pos -> pos + n <= zlen mem -> zlen (layout d 0 None) < n < 2 ^ 32 ->
  exists text, to_string fmt nm t v (mem, {| sv_pos := pos; sv_size := n |})
       = Done (firstn (Z.to_nat pos) mem ++ text ++ [0] ++ skipn (Z.to_nat (pos + zlen text + 1)) mem,
               {| sv_pos := pos + zlen text; sv_size := n - zlen text |})
    /\ ~ json_text text d.
Proof. exact escape_refuted. Qed.
Print Assumptions C56_escape_refuted.

(** The string x", "f2": "y meets the conditions of both. *)
Example C56_escape_applies : let ops := [OpField 0 (OpBytesSet injected (zlen injected))] in
  desc_ok Str20 /\ Forall (op_ok (OElem Str20)) ops /\ (forall path, Forall plain_char (sample_names path))
  /\ exists v, run_ops 0 ops (OElem Str20) (construct (OElem Str20)) = Done v
     /\ strings terminated Str20 v /\ strings reads_back Str20 v
     /\ ~ strings (fun len data => Forall plain_char (firstn (Z.to_nat len) data)) Str20 v
     /\ zlen (layout (sdocument sample_fmt sample_names Str20 [] (view Str20 v)) 0 None) < 100.
Proof. exact escape_applies. Qed.

(** It is not the grammar that lacks texts for such strings. *)
Example C56_escape_possible : forall s, Forall (fun c => 0 <= c < 256) s -> exists e, string_text e s.
Proof. exact every_string. Qed.

(** This message with one string field prints the text of a message with two. *)
Theorem C56_injection_refuted : exists v mem text,
  run_ops 0 [OpField 0 (OpBytesSet injected (zlen injected))] (OElem Str20) (construct (OElem Str20)) = Done v
  /\ view Str20 v = SvM [SvB injected] []
  /\ to_string sample_fmt sample_names Str20 v (zrepeat 1 100, {| sv_pos := 0; sv_size := 100 |})
     = Done (text ++ [0] ++ mem, {| sv_pos := zlen text; sv_size := 100 - zlen text |})
  /\ json_text text (DObj [Some (chars "f1", DStr (chars "x")); Some (chars "f2", DStr (chars "y"))]).
Proof. exact injection_refuted. Qed.
Print Assumptions C56_injection_refuted.
