(** Lemmas behind the buffer properties (C10-C15). *)
From Verif Require Import Base Buffers Contracts SpecBuffer BitLemmas BufferProofs.
From Coq Require Import ZifyBool ZifyNat ZifyN.
Ltac Zify.zify_post_hook ::= Z.div_mod_to_equations.

(** ** C10 *)
Lemma wfix_clear_rel cap b c room : wfix_rel cap b c room -> wfix_rel cap (wfix_clear b) [] (Some cap).
Proof.
  intros (Hd & Hc & Hw & Hb & _). unfold wfix_rel, wfix_clear; cbn [wf_data wf_w].
  repeat split; auto; try lia. f_equal. lia.
Qed.

Lemma wfix_log_gen cap : forall cs b acc room, wfix_rel cap b acc room ->
  Forall (fun c => wcall_legal c /\ match c with WPushN _ len => len < 2 ^ 31 | _ => True end) cs ->
  exists oks b' room', run_wcalls (wfix_ops cap) cs b = Done (oks, b') /\ wfix_rel cap b' (log cs oks acc) room'
    /\ length oks = length cs.
Proof.
  induction cs as [|c cs IH]; intros b acc room Hr Hcs; cbn [run_wcalls].
  - exists [], b, room. cbn [log]. auto.
  - inversion Hcs as [|? ? (Hlegal & Hlt) Hcs']; subst.
    assert (exists n, room = Some n) as (n & ->) by (destruct Hr as (_ & _ & _ & _ & _ & ->); eauto).
    destruct c as [x|src len|]; cbn [wfix_ops w_push w_pushn w_clear wcall_legal] in *.
    + destruct (wfix_push_cases cap b acc n x Hr Hlegal) as [(_ & ->)|(_ & b' & -> & Hr')]; cbn [bind].
      * destruct (IH b acc _ Hr Hcs') as (oks & b2 & room' & -> & H & Hl). cbn [bind].
        exists (false :: oks), b2, room'. cbn [log length]. auto.
      * destruct (IH b' _ _ Hr' Hcs') as (oks & b2 & room' & -> & H & Hl). cbn [bind].
        exists (true :: oks), b2, room'. cbn [log length]. auto.
    + destruct Hlegal as (Hs & Hlen).
      destruct (wfix_pushn_cases cap b acc n src len Hr Hs) as [(_ & ->)|(_ & b' & -> & Hr')]; try lia; cbn [bind].
      * destruct (IH b acc _ Hr Hcs') as (oks & b2 & room' & -> & H & Hl). cbn [bind].
        exists (false :: oks), b2, room'. cbn [log length]. auto.
      * destruct (IH b' _ _ Hr' Hcs') as (oks & b2 & room' & -> & H & Hl). cbn [bind].
        exists (true :: oks), b2, room'. cbn [log length]. auto.
    + cbn [bind]. destruct (IH _ [] _ (wfix_clear_rel _ _ _ _ Hr) Hcs') as (oks & b2 & room' & -> & H & Hl).
      cbn [bind]. exists (true :: oks), b2, room'. cbn [log length]. auto.
Qed.

Lemma wfix_log cap cs : 0 <= cap <= 2 ^ 31 -> Forall wcall_legal cs ->
  Forall (fun c => match c with WPushN _ len => len < 2 ^ 31 | _ => True end) cs ->
  exists oks b, run_wcalls (wfix_ops cap) cs (wfix_init cap) = Done (oks, b)
    /\ length oks = length cs
    /\ wfix_content b = log cs oks []
    /\ w_get_size (wfix_ops cap) b = zlen (log cs oks [])
    /\ w_get_size (wfix_ops cap) b <= cap
    /\ w_get_size (wfix_ops cap) b + w_get_available_size (wfix_ops cap) b = cap
    /\ zlen (wf_data b) = cap.
Proof.
  intros Hcap Hl Hlt.
  destruct (wfix_log_gen cap cs (wfix_init cap) [] (Some cap)) as (oks & b & room & E & H & Hlen).
  - now apply wfix_init_rel.
  - apply Forall_forall. intros c Hc. split; [eapply Forall_forall in Hl|eapply Forall_forall in Hlt]; eauto.
  - exists oks, b. split; [exact E|]. split; [exact Hlen|]. destruct H as (Hd & _ & Hw & _ & Hlog & _).
    unfold wfix_content. cbn [wfix_ops w_get_size w_get_available_size]. rewrite Hlog at 2.
    repeat split; auto; try lia.
    + rewrite zlen_firstn. lia.
    + rewrite u32_small by lia. lia.
Qed.

(** How many bytes fit, and that a single byte is taken exactly when there is room. *)
Lemma wfix_room cap cs : 0 <= cap <= 2 ^ 31 -> Forall wcall_legal cs ->
  Forall (fun c => match c with WPushN _ len => len < 2 ^ 31 | _ => True end) cs ->
  forall oks b, run_wcalls (wfix_ops cap) cs (wfix_init cap) = Done (oks, b) ->
  w_get_max_size (wfix_ops cap) b = cap
  /\ w_get_available_size (wfix_ops cap) b = cap - zlen (log cs oks [])
  /\ forall x, is_byte x -> exists b', w_push (wfix_ops cap) b x = Done (zlen (log cs oks []) <? cap, b').
Proof.
  intros Hcap Hl Hlt oks b E.
  destruct (wfix_log_gen cap cs (wfix_init cap) [] (Some cap)) as (oks' & b0 & room & E' & H & Hlen).
  - now apply wfix_init_rel.
  - apply Forall_forall. intros c Hc. split; [eapply Forall_forall in Hl|eapply Forall_forall in Hlt]; eauto.
  - rewrite E in E'. injection E' as <- <-.
    assert (exists n, room = Some n) as (n & ->) by (destruct H as (_ & _ & _ & _ & _ & ->); eauto).
    assert (Hn : n = cap - zlen (log cs oks [])).
    { destruct H as (Hd & _ & Hw & _ & -> & [= ->]). rewrite zlen_firstn. lia. }
    split; [reflexivity|]. split.
    + cbn [wfix_ops w_get_available_size]. destruct H as (Hd & _ & Hw & _ & -> & _).
      rewrite zlen_firstn, u32_small by lia. lia.
    + intros x Hx. cbn [wfix_ops w_push].
      destruct (wfix_push_cases cap b _ n x H Hx) as [(Hz & ->)|(Hz & b' & -> & _)]; eexists; f_equal; f_equal; lia.
Qed.

(** The size calculator takes everything and counts it. *)
Lemma calc_calls cs : Forall wcall_legal cs -> forall s acc, s = zlen acc mod 2 ^ 32 ->
  exists oks s', run_wcalls calc_ops cs s = Done (oks, s') /\ length oks = length cs /\ Forall (eq true) oks
    /\ s' = zlen (log cs oks acc) mod 2 ^ 32.
Proof.
  induction 1 as [|c cs Hc _ IH]; intros s acc ->; cbn [run_wcalls].
  - exists [], (zlen acc mod 2 ^ 32). cbn [log]. auto.
  - destruct c as [x|src len|]; cbn [calc_ops w_push w_pushn w_clear bind].
    + destruct (IH (u32 (zlen acc mod 2 ^ 32 + 1)) (acc ++ [x])) as (oks & s' & -> & Hl & Ht & Hs).
      { rewrite zlen_app, zlen_cons, zlen_nil. unfold u32. rewrite Zplus_mod_idemp_l. f_equal. }
      cbn [bind]. exists (true :: oks), s'. cbn [length log]. auto.
    + destruct Hc as (_ & Hlen).
      destruct (IH (u32 (zlen acc mod 2 ^ 32 + len)) (acc ++ firstn (Z.to_nat len) src)) as (oks & s' & -> & Hl & Ht & Hs).
      { rewrite zlen_app, zlen_firstn. unfold u32. rewrite Zplus_mod_idemp_l. f_equal. lia. }
      cbn [bind]. exists (true :: oks), s'. cbn [length log]. auto.
    + destruct (IH 0 [] eq_refl) as (oks & s' & -> & Hl & Ht & Hs).
      cbn [bind]. exists (true :: oks), s'. cbn [length log]. auto.
Qed.

Lemma calc_counts cs : Forall wcall_legal cs ->
  exists oks s, run_wcalls calc_ops cs 0 = Done (oks, s) /\ length oks = length cs /\ Forall (eq true) oks
    /\ w_get_size calc_ops s = zlen (log cs oks []) mod 2 ^ 32
    /\ w_get_max_size calc_ops s = 4294967295 /\ w_get_available_size calc_ops s = 4294967295.
Proof.
  intros H. destruct (calc_calls cs H 0 [] eq_refl) as (oks & s & E & Hl & Ht & Hs).
  exists oks, s. repeat split; auto.
Qed.

(** A refused push leaves the buffer as it is. *)
Lemma wfix_refused_unchanged cap b x src len b' :
  (w_push (wfix_ops cap) b x = Done (false, b') -> b' = b)
  /\ (w_pushn (wfix_ops cap) b src len = Done (false, b') -> b' = b).
Proof.
  cbn [wfix_ops w_push w_pushn]. unfold wfix_push, wfix_pushn. split.
  - destruct (_ <? _); [|congruence]. destruct (aset _ _ _); cbn [bind]; congruence.
  - destruct (_ <? _); [|congruence]. destruct (memcpy _ _ _ _); cbn [bind]; congruence.
Qed.

(** The unbounded statement is false: the sum of write index and length wraps. *)
Lemma wfix_log_wrap : exists cap cs, 0 <= cap <= 2 ^ 31 /\ Forall wcall_legal cs
  /\ run_wcalls (wfix_ops cap) cs (wfix_init cap) = UB.
Proof.
  exists 2, [WPush 7; WPushN (zrepeat 1 (2 ^ 32 - 1)) (2 ^ 32 - 1)].
  assert (Hz : zlen (zrepeat 1 (2 ^ 32 - 1)) = 2 ^ 32 - 1).
  { unfold zlen, zrepeat. rewrite repeat_length. lia. }
  split; [lia|]. split.
  - constructor; [cbn; unfold is_byte; lia|]. constructor; [|constructor]. cbn [wcall_legal]. rewrite Hz.
    split; [|lia]. apply Forall_forall. intros x Hx. apply repeat_spec in Hx. subst x. unfold is_byte. lia.
  - cbn [run_wcalls wfix_ops w_push w_pushn]. remember (zrepeat 1 (2 ^ 32 - 1)) as src.
    change (wfix_push 2 (wfix_init 2) 7) with (Done (true, {| wf_data := [7; 0]; wf_w := 1 |})). cbn [bind].
    unfold wfix_pushn. cbn [wf_w wf_data].
    assert (E : u32 (1 + (2 ^ 32 - 1)) <? 2 = true) by reflexivity. rewrite E. unfold memcpy. rewrite Hz.
    assert (E2 : (0 <=? 1) && (0 <=? 2 ^ 32 - 1) && (2 ^ 32 - 1 <=? 2 ^ 32 - 1) && (1 + (2 ^ 32 - 1) <=? zlen [7; 0]) = false)
      by reflexivity.
    rewrite E2. reflexivity.
Qed.

(** ** C11 *)
Lemma wfix_bulk_refuted : ~ (forall cap b c n src len, wfix_rel cap b c (Some n) -> Forall is_byte src ->
  0 <= len <= zlen src -> len < 2 ^ 31 ->
  exists b', wfix_pushn cap b src len = Done (len <=? n, b')).
Proof.
  intros H. destruct (H 2 (wfix_init 2) [] 2 [1; 2] 2) as (b' & E).
  - apply wfix_init_rel. lia.
  - repeat constructor; lia.
  - cbn. lia.
  - lia.
  - vm_compute in E. discriminate E.
Qed.

Lemma wfix_bulk_partial cap b c n src len : wfix_rel cap b c (Some n) -> Forall is_byte src ->
  0 <= len <= zlen src -> len < 2 ^ 31 ->
  exists ok b', wfix_pushn cap b src len = Done (ok, b') /\ ok = (len <? n)
    /\ (if ok then wfix_rel cap b' (c ++ firstn (Z.to_nat len) src) (Some (n - len)) else b' = b).
Proof.
  intros Hr Hs Hl Hlt. destruct (wfix_pushn_cases cap b c n src len Hr Hs) as [(Hn & E)|(Hn & b' & E & H)]; try lia.
  - exists false, b. split; [exact E|]. split; [|reflexivity]. destruct (Z.ltb_spec len n); lia.
  - exists true, b'. split; [exact E|]. split; [|exact H]. destruct (Z.ltb_spec len n); lia.
Qed.

(** ** C12 *)
Definition rfix_q (cap : Z) (b : rfix) (st : Z * list Z) : Prop :=
  rfix_rel cap b (snd st) /\ rf_w b = fst st.

Lemma rfix_fifo_gen cap : forall cs b st, rfix_q cap b st ->
  Forall (fun c => match c with RPush x => is_byte x
                           | RAdvanceN n => 0 <= n /\ cap + n < 2 ^ 32 | _ => True end) cs ->
  exists b', run_rfix cap cs b = Done (fst (run_queue cap cs st), b') /\ rfix_q cap b' (snd (run_queue cap cs st)).
Proof.
  induction cs as [|c cs IH]; intros b st Hq Hcs; cbn [run_rfix run_queue].
  - exists b. auto.
  - inversion Hcs as [|? ? Hc Hcs']; subst.
    assert (Hstep : exists b1, rfix_call cap c b = Done (fst (queue_call cap c st), b1)
                               /\ rfix_q cap b1 (snd (queue_call cap c st))).
    { destruct st as [pushed q]. destruct Hq as (Hr & Hp). cbn [fst snd] in *.
      pose proof (rfix_rel_len _ _ _ Hr) as Hlen.
      destruct c; cbn [rfix_call queue_call].
      - unfold rfix_push. rewrite Hp. destruct Hr as (Hd & Hc32 & Hrw & Hwc & Hb & Eq).
        destruct (Z.ltb_spec pushed cap).
        + unfold aset. rewrite (proj2 (Z.leb_le 0 pushed)), (proj2 (Z.ltb_lt pushed (zlen (rf_data b)))) by lia.
          cbn [andb bind]. eexists. split; [reflexivity|]. cbn [fst snd]. unfold rfix_q. cbn [fst snd rf_w].
          rewrite u32_small by lia. split; [|reflexivity].
          unfold rfix_rel. cbn [rf_data rf_w rf_r].
          assert (Hlu : zlen (upd (Z.to_nat pushed) b0 (rf_data b)) = cap).
          { rewrite zlen_upd. exact Hd. }
          split; [exact Hlu|]. split; [lia|]. split; [lia|]. split; [lia|].
          split; [apply Forall_upd; auto|].
          rewrite Eq, Hp. replace (Z.to_nat (pushed + 1 - rf_r b)) with (Datatypes.S (Z.to_nat pushed) - Z.to_nat (rf_r b))%nat by lia.
          replace (Z.to_nat (pushed - rf_r b)) with (Z.to_nat pushed - Z.to_nat (rf_r b))%nat by lia.
          rewrite <- !skipn_firstn_comm. rewrite firstn_S_upd by (unfold zlen in *; lia).
          rewrite skipn_app. f_equal.
          replace (Z.to_nat (rf_r b) - _)%nat with O by (rewrite firstn_length; unfold zlen in *; lia). reflexivity.
        + eexists. split; [reflexivity|]. split; [|exact Hp]. cbn [snd].
          unfold rfix_rel. rewrite Eq. repeat split; auto; lia.
      - unfold rfix_pop. destruct q as [|x q].
        + rewrite zlen_nil in Hlen. destruct (Z.ltb_spec (rf_r b) (rf_w b)); [lia|]. eexists. split; [reflexivity|]. split; auto.
        + destruct (rfix_rel_cons _ _ _ _ Hr) as (Hlt & Ea & Hr').
          destruct (Z.ltb_spec (rf_r b) (rf_w b)); [|lia]. rewrite Ea. cbn [bind]. eexists. split; [reflexivity|]. split; auto.
      - unfold rfix_peek. destruct q as [|x q].
        + rewrite zlen_nil in Hlen. destruct (Z.ltb_spec (rf_r b) (rf_w b)); [lia|]. eexists. split; [reflexivity|]. split; auto.
        + destruct (rfix_rel_cons _ _ _ _ Hr) as (Hlt & Ea & Hr').
          destruct (Z.ltb_spec (rf_r b) (rf_w b)); [|lia]. rewrite Ea. cbn [bind]. eexists. split; [reflexivity|]. split; auto.
      - unfold rfix_advance. destruct q as [|x q].
        + rewrite zlen_nil in Hlen. destruct (Z.ltb_spec (rf_r b) (rf_w b)); [lia|]. eexists. split; [reflexivity|]. split; auto.
        + destruct (rfix_rel_cons _ _ _ _ Hr) as (Hlt & Ea & Hr').
          destruct (Z.ltb_spec (rf_r b) (rf_w b)); [|lia]. cbn [bind]. eexists. split; [reflexivity|]. split; auto.
      - destruct (Z.leb_spec n (zlen q)) as [Hn|Hn].
        + destruct (ro_advance_n _ _ (rfix_ok cap) b q n Hr) as (ok & b1 & E & Hr1 & Hok); [lia|].
          cbn [rfix_ops r_advance_n] in E. rewrite E. cbn [bind].
          assert (Hok' : ok = true /\ rf_w b1 = rf_w b).
          { unfold rfix_advance_n in E. destruct Hr as (_ & Hc32 & Hrw & Hwc & _).
            rewrite u32_small in E by lia. destruct (Z.leb_spec (rf_r b + n) (rf_w b)); [|lia].
            injection E as <- <-. auto. }
          destruct Hok' as (-> & Hw). eexists. split; [reflexivity|]. split; [exact Hr1|]. cbn [fst snd]. lia.
        + unfold rfix_advance_n. destruct Hr as (Hd & Hc32 & Hrw & Hwc & Hb & Eq).
          rewrite u32_small by lia. destruct (Z.leb_spec (rf_r b + n) (rf_w b)); [lia|]. cbn [bind].
          eexists. split; [reflexivity|]. split; [|exact Hp]. unfold rfix_rel. cbn [snd]. tauto.
      - eexists. split; [reflexivity|]. unfold rfix_clear. split; [|reflexivity]. cbn [snd].
        destruct Hr as (Hd & Hc32 & Hrw & Hwc & Hb & Eq). unfold rfix_rel. cbn [rf_data rf_w rf_r].
        repeat split; auto; lia. }
    destruct Hstep as (b1 & E1 & Hq1). rewrite E1. cbn [bind].
    destruct (queue_call cap c st) as [o st1] eqn:Eq. cbn [fst snd] in *.
    destruct (IH b1 st1 Hq1 Hcs') as (b2 & E2 & Hq2). rewrite E2. cbn [bind].
    destruct (run_queue cap cs st1) as [os st2]. cbn [fst snd] in *. exists b2. auto.
Qed.

Lemma rfix_init_q cap : 0 <= cap < 2 ^ 32 -> rfix_q cap (rfix_init cap) (0, []).
Proof.
  intros H. unfold rfix_q, rfix_rel, rfix_init. cbn [rf_data rf_w rf_r fst snd].
  unfold zlen, zrepeat. rewrite repeat_length. repeat split; auto; try lia.
  apply Forall_forall. intros x Hx. apply repeat_spec in Hx. subst x. unfold is_byte. lia.
Qed.

Lemma rfix_fifo cap cs : 0 <= cap < 2 ^ 32 ->
  Forall (fun c => match c with RPush b => is_byte b | RAdvanceN _ => False | _ => True end) cs ->
  exists b, run_rfix cap cs (rfix_init cap) = Done (fst (run_queue cap cs (0, [])), b).
Proof.
  intros Hc Hcs. destruct (rfix_fifo_gen cap cs (rfix_init cap) (0, []) (rfix_init_q cap Hc)) as (b & E & _).
  - eapply Forall_impl; [|exact Hcs]. intros c. destruct c; tauto.
  - exists b. exact E.
Qed.

Lemma rfix_sizes cap cs outs b : 0 <= cap < 2 ^ 32 ->
  Forall (fun c => match c with RPush x => is_byte x | RAdvanceN n => 0 <= n /\ cap + n < 2 ^ 32 | _ => True end) cs ->
  run_rfix cap cs (rfix_init cap) = Done (outs, b) ->
  r_get_size (rfix_ops cap) b = fst (snd (run_queue cap cs (0, []))) /\ r_get_max_size (rfix_ops cap) b = cap.
Proof.
  intros Hc Hcs E. destruct (rfix_fifo_gen cap cs (rfix_init cap) (0, []) (rfix_init_q cap Hc) Hcs) as (b' & E' & _ & Hw).
  rewrite E in E'. injection E' as _ <-. split; [exact Hw|reflexivity].
Qed.

(** ** C13 *)
Lemma rfix_advance_partial cap cs : 0 <= cap < 2 ^ 32 ->
  Forall (fun c => match c with RPush b => is_byte b | RAdvanceN n => 0 <= n /\ cap + n < 2 ^ 32 | _ => True end) cs ->
  exists b, run_rfix cap cs (rfix_init cap) = Done (fst (run_queue cap cs (0, [])), b).
Proof.
  intros Hc Hcs. destruct (rfix_fifo_gen cap cs (rfix_init cap) (0, []) (rfix_init_q cap Hc) Hcs) as (b & E & _).
  exists b. exact E.
Qed.

Lemma rfix_advance_refuted : exists cap cs, 0 <= cap < 2 ^ 32
  /\ Forall (fun c => match c with RPush b => is_byte b | RAdvanceN n => 0 <= n < 2 ^ 32 | _ => True end) cs
  /\ (forall b, run_rfix cap cs (rfix_init cap) <> Done (fst (run_queue cap cs (0, [])), b))
  /\ exists b, run_rfix cap cs (rfix_init cap)
     = Done ([OBool true; OByte (Some 5); OBool true; OByte (Some 5)], b).
Proof.
  exists 4, [RPush 5; RPop; RAdvanceN (2 ^ 32 - 1); RPop]. split; [lia|]. split.
  - repeat constructor; cbn; unfold is_byte; lia.
  - split; [|eexists; vm_compute; reflexivity].
    intros b E. vm_compute in E. discriminate E.
Qed.

(** ** C14, C15 *)
Lemma section_window_gen S (R : rops S) rel : reader_ok R rel -> forall tail cs b w,
  sec_rel rel tail b w -> Forall section_call cs -> (sec_size b = zlen w \/ within cs w) ->
  exists outs b', run_reader (sec_ops R) cs b = Done (outs, b')
    /\ Forall2 agree (fst (run_window cs w)) outs /\ sec_rel rel tail b' (snd (run_window cs w))
    /\ (sec_size b = zlen w -> sec_size b' = zlen (snd (run_window cs w))).
Proof.
  intros ok tail. induction cs as [|c cs IH]; intros b w Hr Hcs Hw; cbn [run_reader run_window].
  - exists [], b. cbn [fst snd]. auto.
  - inversion Hcs as [|? ? Hc Hcs']; subst. pose proof (sec_ok R rel tail ok) as sok.
    assert (Hstep : exists o b1, reader_call (sec_ops R) c b = Done (o, b1) /\ agree (fst (window_call c w)) o
              /\ sec_rel rel tail b1 (snd (window_call c w))
              /\ (sec_size b = zlen w -> sec_size b1 = zlen (snd (window_call c w)))).
    { destruct c; cbn [section_call] in Hc; try tauto; cbn [reader_call window_call].
      - destruct w as [|x w].
        + destruct (ro_pop_nil _ _ sok _ Hr) as (b1 & E & H1). rewrite E. cbn [bind fst snd].
          do 2 eexists. split; [reflexivity|]. split; [reflexivity|]. split; [exact H1|].
          intros Hs. rewrite zlen_nil in *. cbn [sec_ops r_pop] in E. unfold sec_pop in E. rewrite Hs in E.
          cbn in E. injection E as <-. exact Hs.
        + destruct (ro_pop_cons _ _ sok _ _ _ Hr) as (b1 & E & H1). rewrite E. cbn [bind fst snd].
          do 2 eexists. split; [reflexivity|]. split; [reflexivity|]. split; [exact H1|].
          intros Hs. rewrite zlen_cons in *. cbn [sec_ops r_pop] in E. unfold sec_pop in E.
          pose proof (zlen_nonneg w).
          destruct (Z.ltb_spec 0 (sec_size b)); [|lia]. destruct (r_pop R (sec_parent b)) as [[ob p]| |]; cbn [bind] in E; try discriminate.
          injection E as _ <-. cbn [sec_size]. lia.
      - destruct w as [|x w].
        + rewrite (ro_peek_nil _ _ sok _ Hr). cbn [bind fst snd]. do 2 eexists. split; [reflexivity|]. split; [reflexivity|]. auto.
        + rewrite (ro_peek_cons _ _ sok _ _ _ Hr). cbn [bind fst snd]. do 2 eexists. split; [reflexivity|]. split; [reflexivity|]. auto.
      - destruct w as [|x w].
        + destruct (ro_advance_nil _ _ sok _ Hr) as (b1 & E & H1). rewrite E. cbn [bind fst snd].
          do 2 eexists. split; [reflexivity|]. split; [reflexivity|]. split; [exact H1|].
          intros Hs. rewrite zlen_nil in *. cbn [sec_ops r_advance] in E. unfold sec_advance in E. rewrite Hs in E.
          cbn in E. injection E as <-. exact Hs.
        + destruct (ro_advance_cons _ _ sok _ _ _ Hr) as (b1 & E & H1). rewrite E. cbn [bind fst snd].
          do 2 eexists. split; [reflexivity|]. split; [reflexivity|]. split; [exact H1|].
          intros Hs. rewrite zlen_cons in *. cbn [sec_ops r_advance] in E. unfold sec_advance in E.
          pose proof (zlen_nonneg w).
          destruct (Z.ltb_spec 0 (sec_size b)); [|lia]. destruct (r_advance R (sec_parent b)) as [[ob p]| |]; cbn [bind] in E; try discriminate.
          injection E as _ <-. cbn [sec_size]. lia.
      - destruct (Z.le_gt_cases n (zlen w)) as [Hn|Hn].
        + destruct (ro_advance_n _ _ sok b w n Hr) as (k & b1 & E & H1 & _); [lia|]. rewrite E. cbn [bind fst snd].
          do 2 eexists. split; [reflexivity|]. split; [exact I|]. split; [exact H1|].
          intros Hs. rewrite zlen_skipn. cbn [sec_ops r_advance_n] in E. unfold sec_advance_n in E.
          destruct (Z.ltb_spec 0 (sec_size b)).
          * destruct (Z.leb_spec n (sec_size b)); [|lia].
            destruct (r_advance_n R (sec_parent b) n) as [[ob p]| |]; cbn [bind] in E; try discriminate.
            injection E as _ <-. cbn [sec_size]. lia.
          * injection E as _ <-. lia.
        + destruct Hw as [Hs|Hw]; [|cbn [within] in Hw; lia].
          destruct (ro_advance_n _ _ sok b w (zlen w) Hr) as (k & b1 & E & H1 & _); [pose proof (zlen_nonneg w); lia|].
          assert (Esame : r_advance_n (sec_ops R) b n = r_advance_n (sec_ops R) b (zlen w)).
          { cbn [sec_ops r_advance_n]. unfold sec_advance_n. rewrite <- Hs.
            destruct (Z.leb_spec n (sec_size b)); [lia|]. rewrite Z.leb_refl. reflexivity. }
          rewrite Esame, E. cbn [bind fst snd]. do 2 eexists. split; [reflexivity|]. split; [exact I|].
          rewrite (skipn_all2 w) by (unfold zlen in *; lia).
          rewrite (skipn_all2 w) in H1 by (unfold zlen in *; lia). split; [exact H1|]. intros _. rewrite zlen_nil.
          cbn [sec_ops r_advance_n] in E. unfold sec_advance_n in E. rewrite <- Hs in E. rewrite Z.leb_refl in E.
          destruct (Z.ltb_spec 0 (sec_size b)).
          * destruct (r_advance_n R (sec_parent b) (sec_size b)) as [[ob p]| |]; cbn [bind] in E; try discriminate.
            injection E as _ <-. cbn [sec_size]. lia.
          * injection E as _ <-. pose proof (zlen_nonneg w). lia. }
    destruct Hstep as (o & b1 & -> & Ho & Hr1 & Hs1). cbn [bind].
    destruct (window_call c w) as [o' w1] eqn:Ew. cbn [fst snd] in *.
    destruct (IH b1 w1 Hr1 Hcs') as (outs & b2 & -> & Hf & Hr2 & Hs2).
    { destruct Hw as [Hs|Hw]; [left; auto|right]. cbn [within] in Hw. rewrite Ew in Hw. tauto. }
    cbn [bind]. destruct (run_window cs w1) as [os w2]. cbn [fst snd] in *.
    exists (o :: outs), b2. split; [reflexivity|]. split; [auto|]. split; [exact Hr2|]. auto.
Qed.

(** The size of the window: [n] bytes, or all that is left. *)
Lemma section_window S (R : rops S) rel s l n cs : reader_ok R rel -> rel s l -> 0 <= n ->
  Forall section_call cs ->
  let w := firstn (Z.to_nat n) l in
  let tail := skipn (Z.to_nat n) l in
  (Z.min n (r_get_size R s) <= zlen l \/ within cs w) ->
  exists outs sec, run_reader (sec_ops R) cs (mk_section R s n) = Done (outs, sec)
    /\ Forall2 agree (fst (run_window cs w)) outs
    /\ rel (sec_parent sec) (snd (run_window cs w) ++ tail).
Proof.
  intros ok Hr Hn Hcs w tail Hw.
  assert (Hs : sec_rel rel tail (mk_section R s n) w /\ (sec_size (mk_section R s n) = zlen w \/ within cs w)).
  { destruct (Z.le_gt_cases n (zlen l)) as [Hle|Hgt].
    - assert (Hwl : zlen w = n) by (unfold w; rewrite zlen_firstn; lia).
      assert (El : l = w ++ tail) by (unfold w, tail; symmetry; apply firstn_skipn).
      split.
      + rewrite <- Hwl. apply mk_section_rel; auto. rewrite <- El. exact Hr.
      + left. unfold mk_section; cbn [sec_size]. pose proof (ro_size _ _ ok _ _ Hr). lia.
    - assert (Ew : w = l) by (unfold w; apply firstn_all2; unfold zlen in *; lia).
      assert (Et : tail = []) by (unfold tail; apply skipn_all2; unfold zlen in *; lia).
      rewrite Et, Ew. split.
      + apply mk_section_rel_short; auto. lia.
      + destruct Hw as [Hw|Hw]; [left|right; rewrite <- Ew; exact Hw]. unfold mk_section; cbn [sec_size].
        pose proof (ro_size _ _ ok _ _ Hr). lia. }
  destruct Hs as (Hs & Hw').
  destruct (section_window_gen S R rel ok tail cs _ w Hs Hcs Hw') as (outs & sec & E & Hf & Hr' & _).
  exists outs, sec. split; [exact E|]. split; [exact Hf|]. apply Hr'.
Qed.

(** get_size() and get_max_size() of a section. *)
Lemma section_max S (R : rops S) cs : forall b outs b', run_reader (sec_ops R) cs b = Done (outs, b') -> sec_max b' = sec_max b.
Proof.
  induction cs as [|c cs IH]; intros b outs b'; cbn [run_reader]; [congruence|].
  destruct (reader_call (sec_ops R) c b) as [[o b1]| |] eqn:Ec; cbn [bind]; try discriminate.
  destruct (run_reader (sec_ops R) cs b1) as [[os b2]| |] eqn:Er; cbn [bind]; try discriminate.
  intros [= _ <-]. rewrite (IH _ _ _ Er). revert Ec.
  destruct c; cbn [reader_call sec_ops r_pop r_peek r_advance r_advance_n]; try discriminate;
    unfold sec_pop, sec_peek, sec_advance, sec_advance_n; destruct (0 <? sec_size b); cbn [bind]; try congruence.
  - destruct (r_pop R (sec_parent b)) as [[? ?]| |]; cbn [bind]; try discriminate. now intros [= _ <-].
  - destruct (r_peek R (sec_parent b)); cbn [bind]; congruence.
  - destruct (r_advance R (sec_parent b)) as [[? ?]| |]; cbn [bind]; try discriminate. now intros [= _ <-].
  - destruct (r_advance_n R (sec_parent b) _) as [[? ?]| |]; cbn [bind]; try discriminate. now intros [= _ <-].
Qed.

Lemma section_sizes S (R : rops S) rel s l n cs outs sec : reader_ok R rel -> rel s l -> 0 <= n ->
  Forall section_call cs -> Z.min n (r_get_size R s) <= zlen l ->
  run_reader (sec_ops R) cs (mk_section R s n) = Done (outs, sec) ->
  r_get_size (sec_ops R) sec = zlen (snd (run_window cs (firstn (Z.to_nat n) l)))
  /\ r_get_max_size (sec_ops R) sec = Z.min n (zlen l).
Proof.
  intros ok Hr Hn Hcs Hw E. pose proof (ro_size _ _ ok _ _ Hr) as Hz. pose proof (zlen_nonneg l).
  split.
  - set (w := firstn (Z.to_nat n) l). set (tail := skipn (Z.to_nat n) l).
    assert (El : l = w ++ tail) by (unfold w, tail; symmetry; apply firstn_skipn).
    assert (Hwl : zlen w = Z.min n (r_get_size R s)) by (unfold w; rewrite zlen_firstn; lia).
    assert (Hs : sec_rel rel tail (mk_section R s n) w).
    { split; [|split]; unfold mk_section; cbn [sec_parent sec_size]; [rewrite <- El; exact Hr|lia|intros _; lia]. }
    destruct (section_window_gen S R rel ok tail cs _ w Hs Hcs) as (outs' & sec' & E' & _ & _ & Hs').
    + left. unfold mk_section; cbn [sec_size]. lia.
    + rewrite E in E'. injection E' as _ <-. apply Hs'. unfold mk_section; cbn [sec_size]. lia.
  - cbn [sec_ops r_get_max_size]. rewrite (section_max _ _ _ _ _ _ E). unfold mk_section; cbn [sec_max]. lia.
Qed.

(** C14: the excluded case: an advance past the end of a truncated window leaves bytes behind. *)
Lemma section_overadvance : exists s n cs l, rfix_rel 2 s l /\ 0 <= n /\ Forall section_call cs
  /\ exists outs sec, run_reader (sec_ops (rfix_ops 2)) cs (mk_section (rfix_ops 2) s n) = Done (outs, sec)
     /\ ~ rfix_rel 2 (sec_parent sec) (snd (run_window cs (firstn (Z.to_nat n) l)) ++ skipn (Z.to_nat n) l).
Proof.
  exists {| rf_data := [1; 2]; rf_w := 2; rf_r := 1 |}, 3, [RAdvanceN 2], [2].
  split. { unfold rfix_rel; cbn. repeat split; try lia. repeat constructor; lia. }
  split; [lia|]. split; [repeat constructor; cbn; lia|].
  do 2 eexists. split; [vm_compute; reflexivity|]. intros (_ & _ & _ & _ & _ & H). vm_compute in H. discriminate H.
Qed.

(** ** C15 *)
Lemma section_advance_partial S (R : rops S) rel tail b w n : reader_ok R rel -> sec_rel rel tail b w ->
  0 < n <= zlen w ->
  exists b', r_advance_n (sec_ops R) b n = Done (true, b') /\ sec_rel rel tail b' (skipn (Z.to_nat n) w).
Proof.
  intros ok Hr Hn. destruct (ro_advance_n _ _ (sec_ok R rel tail ok) b w n Hr) as (k & b' & E & H & Hk); [lia|].
  rewrite Hk in E by lia. eauto.
Qed.

Lemma section_advance_refuted : exists w n, Forall is_byte w /\ zlen w < n /\ n < 2 ^ 32
  /\ exists b', r_advance_n (sec_ops (rfix_ops (zlen w))) (mk_section (rfix_ops (zlen w)) (rfix_of w) (zlen w)) n
     = Done (true, b').
Proof.
  exists [1; 2], 5. split; [repeat constructor; unfold is_byte; lia|]. split; [cbn; lia|]. split; [lia|].
  eexists. vm_compute. reflexivity.
Qed.

Lemma section_advance_zero : exists b', r_advance_n (sec_ops (rfix_ops 1)) (mk_section (rfix_ops 1) (rfix_of [9]) 0) 0
  = Done (false, b').
Proof. eexists. vm_compute. reflexivity. Qed.
