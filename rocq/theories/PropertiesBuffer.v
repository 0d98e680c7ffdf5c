(** Properties of the buffers: C10-C15. [run_wcalls], [log], [run_queue], [run_window] are defined in
    SpecBuffer.v. *)
From Verif Require Import Base Buffers Contracts SpecBuffer BufferProofs BufferProps BufferLaws.

(** C10. Full statement: the one below without the bound on the length of a single bulk push. That
    is false, see [C10_write_log_refuted]; missing here are only pushes of 2^31 bytes and more. *)
Theorem C10_write_log_partial : forall cap cs, 0 <= cap <= 2 ^ 31 -> Forall wcall_legal cs ->
  Forall (fun c => match c with WPushN _ len => len < 2 ^ 31 | _ => True end) cs ->
  exists oks b, run_wcalls (wfix_ops cap) cs (wfix_init cap) = Done (oks, b)
    /\ length oks = length cs
    /\ wfix_content b = log cs oks []
    /\ w_get_size (wfix_ops cap) b = zlen (log cs oks [])
    /\ w_get_size (wfix_ops cap) b <= cap
    /\ w_get_size (wfix_ops cap) b + w_get_available_size (wfix_ops cap) b = cap
    /\ zlen (wf_data b) = cap.
Proof. exact wfix_log. Qed.
Print Assumptions C10_write_log_partial.

(** After any such sequence: get_max_size() is the size the buffer was declared with, get_available_size()
    what is left of it, and the next byte is taken exactly when something is left. *)
Theorem C10_room_partial : forall cap cs, 0 <= cap <= 2 ^ 31 -> Forall wcall_legal cs ->
  Forall (fun c => match c with WPushN _ len => len < 2 ^ 31 | _ => True end) cs ->
  forall oks b, run_wcalls (wfix_ops cap) cs (wfix_init cap) = Done (oks, b) ->
  w_get_max_size (wfix_ops cap) b = cap
  /\ w_get_available_size (wfix_ops cap) b = cap - zlen (log cs oks [])
  /\ forall x, is_byte x -> exists b', w_push (wfix_ops cap) b x = Done (zlen (log cs oks []) <? cap, b').
Proof. exact wfix_room. Qed.
Print Assumptions C10_room_partial.

(** The size calculator (the write buffer behind serialized_size()) takes everything it is given, counts it,
    and always claims to have room for 2^32 - 1 bytes. *)
Theorem C10_calculator : forall cs, Forall wcall_legal cs ->
  exists oks s, run_wcalls calc_ops cs 0 = Done (oks, s) /\ length oks = length cs /\ Forall (eq true) oks
    /\ w_get_size calc_ops s = zlen (log cs oks []) mod 2 ^ 32
    /\ w_get_max_size calc_ops s = 4294967295 /\ w_get_available_size calc_ops s = 4294967295.
Proof. exact calc_counts. Qed.
Print Assumptions C10_calculator.

Example C10_calculator_applies : Forall wcall_legal [WPush 1; WClear; WPushN [2; 3; 4] 2; WPush 5]
  /\ run_wcalls calc_ops [WPush 1; WClear; WPushN [2; 3; 4] 2; WPush 5] 0 = Done ([true; true; true; true], 3).
Proof. split; [|reflexivity]. repeat constructor; cbn; unfold is_byte; try lia; repeat constructor; lia. Qed.

Theorem C10_refused_unchanged : forall cap b x src len b',
  (w_push (wfix_ops cap) b x = Done (false, b') -> b' = b)
  /\ (w_pushn (wfix_ops cap) b src len = Done (false, b') -> b' = b).
Proof. exact wfix_refused_unchanged. Qed.
Print Assumptions C10_refused_unchanged.

(** The index computation wraps: a legal bulk push of 2^32-1 bytes writes outside the array. *)
Theorem C10_write_log_refuted : exists cap cs, 0 <= cap <= 2 ^ 31 /\ Forall wcall_legal cs
  /\ run_wcalls (wfix_ops cap) cs (wfix_init cap) = UB.
Proof. exact wfix_log_wrap. Qed.
Print Assumptions C10_write_log_refuted.

Example C10_applies :
  let cs := [WPush 1; WPushN [2; 3; 4] 2; WPushN [5; 6] 2; WClear; WPush 7; WPushN [8; 9] 2; WPush 10] in
  Forall wcall_legal cs
  /\ exists b, run_wcalls (wfix_ops 4) cs (wfix_init 4)
       = Done ([true; true; false; true; true; true; true], b)
     /\ wfix_content b = [7; 8; 9; 10].
Proof.
  split; [repeat constructor; cbn; unfold is_byte; try lia; repeat constructor; cbn; lia|].
  eexists. split; [vm_compute; reflexivity|reflexivity].
Qed.

(** C11. Full statement ("succeeds exactly when len <= available") refuted: *)
Theorem C11_bulk_push_fits_refuted : ~ (forall cap b c n src len,
  wfix_rel cap b c (Some n) -> Forall is_byte src -> 0 <= len <= zlen src -> len < 2 ^ 31 ->
  exists b', wfix_pushn cap b src len = Done (len <=? n, b')).
Proof. exact wfix_bulk_refuted. Qed.
Print Assumptions C11_bulk_push_fits_refuted.

(** What the code does: the bytes are stored iff strictly more room than needed is left. *)
Theorem C11_bulk_push_partial : forall cap b c n src len,
  wfix_rel cap b c (Some n) -> Forall is_byte src -> 0 <= len <= zlen src -> len < 2 ^ 31 ->
  exists ok b', wfix_pushn cap b src len = Done (ok, b') /\ ok = (len <? n)
    /\ (if ok then wfix_rel cap b' (c ++ firstn (Z.to_nat len) src) (Some (n - len)) else b' = b).
Proof. exact wfix_bulk_partial. Qed.
Print Assumptions C11_bulk_push_partial.

(** The code on every pointer and every uint32_t length, in every state of the buffer: stored if strictly more
    room is left; refused, without effect, if not; and when the bytes held and the length together reach 2^32,
    memory outside the buffer is written. *)
Theorem C11_any_length_refuted : forall cap b c n src len,
  wfix_rel cap b c (Some n) -> Forall is_byte src -> 0 <= len <= zlen src -> len < 2 ^ 32 ->
  (len < n -> exists b', wfix_pushn cap b src len = Done (true, b')
              /\ wfix_rel cap b' (c ++ firstn (Z.to_nat len) src) (Some (n - len)))
  /\ (n <= len -> zlen c + len < 2 ^ 32 -> wfix_pushn cap b src len = Done (false, b))
  /\ (2 ^ 32 <= zlen c + len -> wfix_pushn cap b src len = UB).
Proof. exact push_law. Qed.
Print Assumptions C11_any_length_refuted.

(** In every state, what fits exactly is refused. *)
Theorem C11_exact_room_refuted : forall cap b c n src,
  wfix_rel cap b c (Some n) -> Forall is_byte src -> zlen src = n ->
  wfix_pushn cap b src n = Done (false, b).
Proof. exact push_exact_room. Qed.
Print Assumptions C11_exact_room_refuted.

Example C11_applies : wfix_rel 3 (wfix_init 3) [] (Some 3)
  /\ wfix_pushn 3 (wfix_init 3) [1; 2; 9] 2 = Done (true, {| wf_data := [1; 2; 0]; wf_w := 2 |})
  /\ wfix_pushn 3 (wfix_init 3) [1; 2; 9] 3 = Done (false, wfix_init 3).
Proof. split; [apply wfix_init_rel; lia|]. split; reflexivity. Qed.

(** C12: every call returns what the queue returns. *)
Theorem C12_read_fifo : forall cap cs, 0 <= cap < 2 ^ 32 ->
  Forall (fun c => match c with RPush b => is_byte b | RAdvanceN _ => False | _ => True end) cs ->
  exists b, run_rfix cap cs (rfix_init cap) = Done (fst (run_queue cap cs (0, [])), b).
Proof. exact rfix_fifo. Qed.
Print Assumptions C12_read_fifo.

Example C12_applies :
  let cs := [RPush 1; RPush 2; RPush 3; RPeek; RPop; RAdvance; RPop; RPush 4; RClear; RPush 5; RPop] in
  Forall (fun c => match c with RPush b => is_byte b | RAdvanceN _ => False | _ => True end) cs
  /\ fst (run_queue 2 cs (0, []))
     = [OBool true; OBool true; OBool false; OByte (Some 1); OByte (Some 1); OBool true; OByte None;
        OBool false; OBool true; OBool true; OByte (Some 5)].
Proof. split; [repeat constructor; cbn; unfold is_byte; lia|reflexivity]. Qed.

(** get_size() counts the bytes pushed since the last clear, the consumed ones included (the first component of
    the state of the queue); get_max_size() is the capacity. *)
Theorem C12_sizes : forall cap cs outs b, 0 <= cap < 2 ^ 32 ->
  Forall (fun c => match c with RPush x => is_byte x | RAdvanceN n => 0 <= n /\ cap + n < 2 ^ 32 | _ => True end) cs ->
  run_rfix cap cs (rfix_init cap) = Done (outs, b) ->
  r_get_size (rfix_ops cap) b = fst (snd (run_queue cap cs (0, []))) /\ r_get_max_size (rfix_ops cap) b = cap.
Proof. exact rfix_sizes. Qed.
Print Assumptions C12_sizes.

Example C12_sizes_applies :
  let cs := [RPush 1; RClear; RPush 2; RPush 3; RPop] in
  run_queue 5 cs (0, []) = ([OBool true; OBool true; OBool true; OBool true; OByte (Some 2)], (2, [3])).
Proof. reflexivity. Qed.

(** C13. Full statement: the same with any advance(N), N a uint32_t. Refuted by a history in which an
    advance moves backwards and a consumed byte is popped a second time. *)
Theorem C13_advance_refuted : exists cap cs, 0 <= cap < 2 ^ 32
  /\ Forall (fun c => match c with RPush b => is_byte b | RAdvanceN n => 0 <= n < 2 ^ 32 | _ => True end) cs
  /\ (forall b, run_rfix cap cs (rfix_init cap) <> Done (fst (run_queue cap cs (0, [])), b))
  /\ exists b, run_rfix cap cs (rfix_init cap)
     = Done ([OBool true; OByte (Some 5); OBool true; OByte (Some 5)], b).
Proof. exact rfix_advance_refuted. Qed.
Print Assumptions C13_advance_refuted.

(** What holds: all histories whose advance(N) satisfy cap + N < 2^32. *)
Theorem C13_advance_partial : forall cap cs, 0 <= cap < 2 ^ 32 ->
  Forall (fun c => match c with RPush b => is_byte b
                              | RAdvanceN n => 0 <= n /\ cap + n < 2 ^ 32 | _ => True end) cs ->
  exists b, run_rfix cap cs (rfix_init cap) = Done (fst (run_queue cap cs (0, [])), b).
Proof. exact rfix_advance_partial. Qed.
Print Assumptions C13_advance_partial.

(** The code on every history and every uint32_t argument. [run_tape] keeps the consumed bytes: an advance(N)
    for which these and N together reach 2^32 succeeds and moves backwards, so that consumed bytes are read again;
    every other advance(N) does what C13 says. *)
Theorem C13_any_argument_refuted : forall cap cs, 0 <= cap < 2 ^ 32 ->
  Forall (fun c => match c with RPush b => is_byte b | RAdvanceN n => 0 <= n < 2 ^ 32 | _ => True end) cs ->
  exists b, run_rfix cap cs (rfix_init cap) = Done (fst (run_tape cap cs ([], [])), b)
    /\ rfix_at cap b (fst (snd (run_tape cap cs ([], [])))) (snd (snd (run_tape cap cs ([], [])))).
Proof. exact rfix_tape. Qed.
Print Assumptions C13_any_argument_refuted.

Example C13_any_argument_applies :
  run_tape 4 [RPush 5; RPush 6; RPop; RPop; RAdvanceN (2 ^ 32 - 1); RPop; RAdvanceN 1] ([], [])
  = ([OBool true; OBool true; OByte (Some 5); OByte (Some 6); OBool true; OByte (Some 6); OBool false], ([5; 6], [])).
Proof. reflexivity. Qed.

Example C13_applies :
  fst (run_queue 4 [RPush 1; RPush 2; RPush 3; RAdvanceN 2; RAdvanceN 2; RPop] (0, []))
  = [OBool true; OBool true; OBool true; OBool true; OBool false; OByte (Some 3)].
Proof. reflexivity. Qed.

(** C14: over any conforming parent with unread bytes [l], a section of size [n] behaves as the
    window [w] of the first n bytes and leaves [tail] in the parent. When the window is announced
    larger than the rest of the parent, this needs that get_size() of the parent is what is left, or that no
    advance(N) asks for more than the window holds ([within]); what happens otherwise is
    [C14_overadvance_refuted].
    Sections are conforming readers themselves, so this covers nested sections. *)
Theorem C14_section_window_partial : forall S (R : rops S) rel s l n cs,
  reader_ok R rel -> rel s l -> 0 <= n -> Forall section_call cs ->
  let w := firstn (Z.to_nat n) l in
  let tail := skipn (Z.to_nat n) l in
  (Z.min n (r_get_size R s) <= zlen l \/ within cs w) ->
  exists outs sec, run_reader (sec_ops R) cs (mk_section R s n) = Done (outs, sec)
    /\ Forall2 agree (fst (run_window cs w)) outs
    /\ rel (sec_parent sec) (snd (run_window cs w) ++ tail).
Proof. exact section_window. Qed.
Print Assumptions C14_section_window_partial.

(** When the parent knows what is left, get_size() of the section is the number of bytes left in its window and
    get_max_size() the size the window had. *)
Theorem C14_sizes : forall S (R : rops S) rel s l n cs outs sec,
  reader_ok R rel -> rel s l -> 0 <= n -> Forall section_call cs -> Z.min n (r_get_size R s) <= zlen l ->
  run_reader (sec_ops R) cs (mk_section R s n) = Done (outs, sec) ->
  r_get_size (sec_ops R) sec = zlen (snd (run_window cs (firstn (Z.to_nat n) l)))
  /\ r_get_max_size (sec_ops R) sec = Z.min n (zlen l).
Proof. exact section_sizes. Qed.
Print Assumptions C14_sizes.

Theorem C14_section_is_reader : forall S (R : rops S) rel tail,
  reader_ok R rel -> reader_ok (sec_ops R) (sec_rel rel tail).
Proof. exact @sec_ok. Qed.
Print Assumptions C14_section_is_reader.

Theorem C14_overadvance_refuted : exists s n cs l,
  rfix_rel 2 s l /\ 0 <= n /\ Forall section_call cs
  /\ exists outs sec, run_reader (sec_ops (rfix_ops 2)) cs (mk_section (rfix_ops 2) s n) = Done (outs, sec)
     /\ ~ rfix_rel 2 (sec_parent sec) (snd (run_window cs (firstn (Z.to_nat n) l)) ++ skipn (Z.to_nat n) l).
Proof. exact section_overadvance. Qed.
Print Assumptions C14_overadvance_refuted.

(** In every such state: of a fixed-size buffer from which bytes were consumed, a section is announced larger than
    the rest, and advance(N) asks for more than the rest: it fails and the parent does not move. *)
Theorem C14_overadvance_law_refuted : forall cap s old l n m,
  rfix_at cap s old l -> cap < 2 ^ 31 -> zlen l < n -> old <> [] -> zlen l < m ->
  exists sec, r_advance_n (sec_ops (rfix_ops cap)) (mk_section (rfix_ops cap) s n) m = Done (false, sec)
    /\ rfix_at cap (sec_parent sec) old l.
Proof. exact section_overadvance_law. Qed.
Print Assumptions C14_overadvance_law_refuted.

Example C14_overadvance_law_applies :
  rfix_at 3 {| rf_data := [1; 2; 3]; rf_w := 3; rf_r := 2 |} [1; 2] [3].
Proof. unfold rfix_at. cbn. repeat split; try lia. repeat constructor; unfold is_byte; lia. Qed.

Example C14_sizes_applies :
  let cs := [RPop; RAdvanceN 1] in
  run_reader (sec_ops (rfix_ops 4)) cs (mk_section (rfix_ops 4) (rfix_of [1; 2; 3; 4]) 3)
    = Done ([OByte (Some 1); OBool true],
            {| sec_parent := {| rf_data := [1; 2; 3; 4]; rf_w := 4; rf_r := 2 |}; sec_size := 1; sec_max := 3 |})
  /\ Z.min 3 (r_get_size (rfix_ops 4) (rfix_of [1; 2; 3; 4])) <= zlen [1; 2; 3; 4].
Proof. split; [reflexivity|cbn; lia]. Qed.

Example C14_applies :
  let cs := [RPop; RPeek; RAdvanceN 7; RPop] in
  Forall section_call cs
  /\ run_reader (sec_ops (rfix_ops 4)) cs (mk_section (rfix_ops 4) (rfix_of [1; 2; 3; 4]) 3)
     = Done ([OByte (Some 1); OByte (Some 2); OBool true; OByte None],
             {| sec_parent := {| rf_data := [1; 2; 3; 4]; rf_w := 4; rf_r := 3 |}; sec_size := 0; sec_max := 3 |})
  /\ run_window cs (firstn 3 [1; 2; 3; 4])
     = ([Some (OByte (Some 1)); Some (OByte (Some 2)); None; Some (OByte None)], []).
Proof. split; [repeat constructor; cbn; lia|]. split; reflexivity. Qed.

(** C15. Full statement ("returns true iff the section still held N or more bytes") refuted in both
    directions: *)
Theorem C15_section_advance_refuted : exists w n, Forall is_byte w /\ zlen w < n /\ n < 2 ^ 32
  /\ exists b', r_advance_n (sec_ops (rfix_ops (zlen w))) (mk_section (rfix_ops (zlen w)) (rfix_of w) (zlen w)) n
     = Done (true, b').
Proof. exact section_advance_refuted. Qed.
Print Assumptions C15_section_advance_refuted.

Theorem C15_section_advance_zero_refuted :
  exists b', r_advance_n (sec_ops (rfix_ops 1)) (mk_section (rfix_ops 1) (rfix_of [9]) 0) 0 = Done (false, b').
Proof. exact section_advance_zero. Qed.
Print Assumptions C15_section_advance_zero_refuted.

(** What holds: a positive advance within the window succeeds and skips exactly N bytes. *)
Theorem C15_section_advance_partial : forall S (R : rops S) rel tail b w n,
  reader_ok R rel -> sec_rel rel tail b w -> 0 < n <= zlen w ->
  exists b', r_advance_n (sec_ops R) b n = Done (true, b') /\ sec_rel rel tail b' (skipn (Z.to_nat n) w).
Proof. exact section_advance_partial. Qed.
Print Assumptions C15_section_advance_partial.

(** In every section that knows its size, whatever N: the bytes skipped are N or all that are left, and a positive
    N succeeds exactly when the section is not empty. *)
Theorem C15_any_argument_partial : forall S (R : rops S) rel tail b w n,
  reader_ok R rel -> exact_rel rel tail b w -> 0 <= n ->
  exists ok b', r_advance_n (sec_ops R) b n = Done (ok, b')
    /\ exact_rel rel tail b' (skipn (Z.to_nat n) w)
    /\ (0 < n -> ok = (0 <? zlen w))
    /\ (w = [] -> ok = false).
Proof. exact section_advance_law. Qed.
Print Assumptions C15_any_argument_partial.

(** So every advance beyond a section that is not empty reports success, and advance(0) of every empty section
    reports failure. *)
Theorem C15_beyond_refuted : forall S (R : rops S) rel tail b w n,
  reader_ok R rel -> exact_rel rel tail b w -> w <> [] -> zlen w < n ->
  exists b', r_advance_n (sec_ops R) b n = Done (true, b') /\ exact_rel rel tail b' [].
Proof. exact section_over. Qed.
Print Assumptions C15_beyond_refuted.

Theorem C15_zero_refuted : forall S (R : rops S) rel tail b,
  exact_rel rel tail b [] -> r_advance_n (sec_ops R) b 0 = Done (false, b).
Proof. exact section_zero. Qed.
Print Assumptions C15_zero_refuted.

Example C15_any_argument_applies :
  exact_rel (rfix_rel 3) [3] (mk_section (rfix_ops 3) (rfix_of [1; 2; 3]) 2) [1; 2].
Proof.
  split; [|reflexivity]. apply (rfix_of_rel [1; 2; 3]); [cbn; lia|repeat constructor; unfold is_byte; lia].
Qed.

Example C15_applies : sec_rel (rfix_rel 3) [3] (mk_section (rfix_ops 3) (rfix_of [1; 2; 3]) 2) [1; 2].
Proof.
  apply (mk_section_rel (rfix_ops 3) (rfix_rel 3) (rfix_of [1; 2; 3]) [1; 2] [3] (rfix_ok 3)).
  apply (rfix_of_rel [1; 2; 3]); [cbn; lia|repeat constructor; unfold is_byte; lia].
Qed.
