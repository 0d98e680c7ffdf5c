(** * BufferLaws: what the buffers do for every argument, the faulty cases included. *)
From Coq Require Import ZifyBool ZifyNat.
From Verif Require Import Base Buffers Wire Spec Contracts SpecBuffer BitLemmas BufferProofs BufferProps.
Ltac Zify.zify_post_hook ::= Z.div_mod_to_equations.

(* ------------------------------------------------------------------------------------------- *)
(** ** push(bytes, length) *)

Lemma push_wraps cap b c n src len :
  wfix_rel cap b c (Some n) -> 0 <= len <= zlen src -> len < 2 ^ 32 -> 2 ^ 32 <= zlen c + len ->
  wfix_pushn cap b src len = UB.
Proof.
  intros (Hd & Hcap & Hw & Hb & -> & Hn) Hl Hl' Hs. injection Hn as ->.
  assert (Hz : zlen (firstn (Z.to_nat (wf_w b)) (wf_data b)) = wf_w b)
    by (unfold zlen in *; rewrite firstn_length; lia).
  rewrite Hz in Hs.
  unfold wfix_pushn.
  assert (Hu : u32 (wf_w b + len) = wf_w b + len - 2 ^ 32) by (unfold u32; lia).
  rewrite Hu. replace (wf_w b + len - 2 ^ 32 <? cap) with true by lia.
  unfold memcpy. match goal with |- context [if ?c then _ else _] => destruct c eqn:E end; [|reflexivity].
  exfalso. rewrite Hd in E. lia.
Qed.

Lemma push_law cap b c n src len :
  wfix_rel cap b c (Some n) -> Forall is_byte src -> 0 <= len <= zlen src -> len < 2 ^ 32 ->
  (len < n -> exists b', wfix_pushn cap b src len = Done (true, b')
              /\ wfix_rel cap b' (c ++ firstn (Z.to_nat len) src) (Some (n - len)))
  /\ (n <= len -> zlen c + len < 2 ^ 32 -> wfix_pushn cap b src len = Done (false, b))
  /\ (2 ^ 32 <= zlen c + len -> wfix_pushn cap b src len = UB).
Proof.
  intros Hr Hs Hl Hl'. split; [|split].
  - intros Hn. assert (Hl2 : len < 2 ^ 31).
    { destruct Hr as (Hd & Hcap & Hw & _ & _ & Hn'). injection Hn' as ->. lia. }
    destruct (wfix_bulk_partial _ _ _ _ _ _ Hr Hs Hl Hl2) as (ok & b' & E & -> & H).
    replace (len <? n) with true in * by lia. exists b'. auto.
  - intros Hn Hc. destruct Hr as (Hd & Hcap & Hw & Hb & -> & Hn'). injection Hn' as ->.
    assert (Hz : zlen (firstn (Z.to_nat (wf_w b)) (wf_data b)) = wf_w b)
      by (unfold zlen in *; rewrite firstn_length; lia).
    rewrite Hz in Hc. unfold wfix_pushn.
    assert (Hu : u32 (wf_w b + len) = wf_w b + len) by (unfold u32; lia).
    rewrite Hu. replace (wf_w b + len <? cap) with false by lia. reflexivity.
  - intros Hc. eapply push_wraps; eauto.
Qed.

Lemma push_exact_room cap b c n src :
  wfix_rel cap b c (Some n) -> Forall is_byte src -> zlen src = n ->
  wfix_pushn cap b src n = Done (false, b).
Proof.
  intros Hr Hs Hn. pose proof Hr as (Hd & Hcap & Hw & _ & Hc & Hn'). injection Hn' as En.
  apply (push_law _ _ _ _ _ _ Hr Hs); try lia.
  rewrite Hc. unfold zlen in *. rewrite firstn_length. lia.
Qed.

(* ------------------------------------------------------------------------------------------- *)
(** ** advance(N) of the read buffer *)

Lemma rfix_at_rel cap b old l : rfix_at cap b old l -> rfix_rel cap b l.
Proof.
  intros (Hd & Hc & Hb & Hr & Hw & Hl). unfold rfix_rel.
  assert (Hlen : zlen (old ++ l) <= zlen (rf_data b))
    by (rewrite <- Hl; unfold zlen; rewrite firstn_length; lia).
  unfold zlen in *. rewrite app_length in *.
  repeat split; try lia; auto.
  rewrite Hr, Hw. rewrite firstn_skipn_comm.
  replace (Z.to_nat (Z.of_nat (length old)) + Z.to_nat (Z.of_nat (length old + length l) - Z.of_nat (length old)))%nat
    with (Z.to_nat (rf_w b)) by lia.
  rewrite Hl. rewrite skipn_app. replace (Z.to_nat (Z.of_nat (length old))) with (length old) by lia.
  rewrite skipn_all, Nat.sub_diag. reflexivity.
Qed.

Lemma split_bytes (k : Z) (l : list Z) : 0 <= k <= zlen l ->
  zlen (firstn (Z.to_nat k) l) = k /\ firstn (Z.to_nat k) l ++ skipn (Z.to_nat k) l = l.
Proof. intros H. unfold zlen in *. rewrite firstn_length, firstn_skipn. split; [lia|reflexivity]. Qed.

Lemma zlen_plus (a b : list Z) : zlen (a ++ b) = zlen a + zlen b.
Proof. unfold zlen. rewrite app_length. lia. Qed.

Lemma advance_law cap b old l n : rfix_at cap b old l -> 0 <= n < 2 ^ 32 ->
  (n <= zlen l -> exists b', rfix_advance_n b n = Done (true, b')
     /\ rfix_at cap b' (old ++ firstn (Z.to_nat n) l) (skipn (Z.to_nat n) l))
  /\ (zlen l < n -> zlen old + n < 2 ^ 32 -> rfix_advance_n b n = Done (false, b))
  /\ (2 ^ 32 <= zlen old + n -> exists b' k, rfix_advance_n b n = Done (true, b')
     /\ k = zlen old + n - 2 ^ 32 /\ 0 <= k < zlen old
     /\ rfix_at cap b' (firstn (Z.to_nat k) old) (skipn (Z.to_nat k) old ++ l)).
Proof.
  intros (Hd & Hc & Hb & Hr & Hw & Hl) Hn.
  assert (Hlen : zlen (old ++ l) <= cap)
    by (rewrite <- Hl, <- Hd; unfold zlen; rewrite firstn_length; lia).
  rewrite zlen_plus in Hlen, Hw. assert (0 <= zlen l /\ 0 <= zlen old) by (unfold zlen; lia).
  unfold rfix_advance_n. rewrite Hr, Hw. split; [|split].
  - intros Hle. replace (u32 (zlen old + n)) with (zlen old + n) by (unfold u32; lia).
    replace (zlen old + n <=? zlen old + zlen l) with true by lia. eexists. split; [reflexivity|].
    destruct (split_bytes n l) as (E1 & E2); [lia|].
    unfold rfix_at. cbn [rf_data rf_w rf_r]. rewrite <- app_assoc, E2, !zlen_plus, E1. rewrite Hw in Hl.
    repeat split; auto; lia.
  - intros Hgt Hs. replace (u32 (zlen old + n)) with (zlen old + n) by (unfold u32; lia).
    replace (zlen old + n <=? zlen old + zlen l) with false by lia. reflexivity.
  - intros Hs. replace (u32 (zlen old + n)) with (zlen old + n - 2 ^ 32) by (unfold u32; lia).
    replace (zlen old + n - 2 ^ 32 <=? zlen old + zlen l) with true by lia.
    eexists _, _. split; [reflexivity|]. split; [reflexivity|]. split; [lia|].
    destruct (split_bytes (zlen old + n - 2 ^ 32) old) as (E1 & E2); [lia|].
    unfold rfix_at. cbn [rf_data rf_w rf_r]. rewrite app_assoc, E2, !zlen_plus, E1. rewrite Hw in Hl.
    repeat split; auto; lia.
Qed.

(** Every history, whatever the arguments of advance(N). *)
Lemma rfix_at_init cap : 0 <= cap < 2 ^ 32 -> rfix_at cap (rfix_init cap) [] [].
Proof.
  intros Hc. destruct (rfix_init_q cap Hc) as ((Hd & Hc' & _ & _ & Hb & _) & _).
  unfold rfix_at. cbn [app rf_r rf_w rfix_init]. repeat split; auto.
Qed.

Lemma firstn_one_more (d : list Z) k x : (k < length d)%nat -> nth_error d k = Some x ->
  firstn (Datatypes.S k) d = firstn k d ++ [x].
Proof.
  revert k. induction d as [|a d IH]; intros k Hk Hn; cbn in Hk; [lia|].
  destruct k; cbn in Hn |- *; [injection Hn as ->; reflexivity|]. f_equal. apply IH; [lia|exact Hn].
Qed.

Lemma rfix_tape_gen cap : forall cs b old l, rfix_at cap b old l ->
  Forall (fun c => match c with RPush x => is_byte x | RAdvanceN n => 0 <= n < 2 ^ 32 | _ => True end) cs ->
  exists b', run_rfix cap cs b = Done (fst (run_tape cap cs (old, l)), b')
    /\ rfix_at cap b' (fst (snd (run_tape cap cs (old, l)))) (snd (snd (run_tape cap cs (old, l)))).
Proof.
  induction cs as [|c cs IH]; intros b old l Ha Hcs; cbn [run_rfix run_tape].
  - exists b. auto.
  - inversion Hcs as [|? ? Hc Hcs']; subst.
    assert (Hstep : exists b1, rfix_call cap c b = Done (fst (tape_call cap c (old, l)), b1)
       /\ rfix_at cap b1 (fst (snd (tape_call cap c (old, l)))) (snd (snd (tape_call cap c (old, l))))).
    { pose proof (rfix_at_rel _ _ _ _ Ha) as Hrel. pose proof (rfix_ok cap) as Hok.
      pose proof Ha as (Hd & Hc32 & Hb & Hr & Hw & Hl). rewrite zlen_plus in Hw.
      assert (Hle : zlen old + zlen l <= cap)
        by (rewrite <- zlen_plus, <- Hl, <- Hd; unfold zlen; rewrite firstn_length; lia).
      assert (0 <= zlen l /\ 0 <= zlen old) by (unfold zlen; lia).
      destruct c as [x| | | |n|]; cbn [rfix_call tape_call].
      - unfold rfix_push. rewrite Hw. destruct (Z.ltb_spec (zlen old + zlen l) cap).
        + unfold aset. rewrite (proj2 (Z.leb_le 0 _)), (proj2 (Z.ltb_lt _ (zlen (rf_data b)))) by lia.
          cbn [andb bind]. eexists. split; [reflexivity|]. cbn [fst snd]. unfold rfix_at. cbn [rf_data rf_w rf_r].
          rewrite zlen_upd, app_assoc, !zlen_plus, u32_small by lia. change (zlen [x]) with 1.
          repeat split; auto; try lia; [apply Forall_upd; auto|].
          replace (Z.to_nat (zlen old + zlen l + 1)) with (Datatypes.S (Z.to_nat (zlen old + zlen l))) by lia.
          rewrite firstn_S_upd by (unfold zlen in *; lia). rewrite <- Hw, Hl. reflexivity.
        + eexists. split; [reflexivity|]. exact Ha.
      - destruct l as [|x l].
        + unfold rfix_pop. rewrite Hr, Hw. replace (zlen old <? zlen old + zlen []) with false by (cbn; lia).
          exists b. auto.
        + destruct (ro_pop_cons _ _ Hok _ _ _ Hrel) as (b1 & E & H1). cbn [r_pop rfix_ops] in E. rewrite E.
          cbn [bind fst snd]. exists b1. split; [reflexivity|].
          unfold rfix_pop in E. destruct (rf_r b <? rf_w b); [|discriminate]. destruct (aget (rf_data b) (rf_r b)) as [y| |]; cbn [bind] in E; try discriminate E. injection E as _ <-.
          unfold rfix_at. cbn [rf_data rf_w rf_r]. rewrite <- app_assoc, !zlen_plus. cbn [app].
          change (zlen [x]) with 1. unfold zlen in Hle, Hw |- *. cbn [length] in *.
          rewrite u32_small by (unfold zlen in *; lia). repeat split; auto; unfold zlen in *; lia.
      - destruct l as [|x l].
        + pose proof (ro_peek_nil _ _ Hok _ Hrel) as E. cbn [r_peek rfix_ops] in E. rewrite E. exists b. auto.
        + pose proof (ro_peek_cons _ _ Hok _ _ _ Hrel) as E. cbn [r_peek rfix_ops] in E. rewrite E. exists b. auto.
      - unfold rfix_advance. rewrite Hr, Hw. destruct l as [|x l].
        + replace (zlen old <? zlen old + zlen []) with false by (cbn; lia). exists b. auto.
        + assert (Hx : zlen (x :: l) = zlen l + 1) by (unfold zlen; cbn; lia).
          assert (0 <= zlen l) by (unfold zlen; lia).
          replace (zlen old <? zlen old + zlen (x :: l)) with true by lia.
          eexists. split; [reflexivity|]. unfold rfix_at. cbn [rf_data rf_w rf_r fst snd].
          rewrite <- app_assoc, !zlen_plus. cbn [app]. change (zlen [x]) with 1. rewrite Hw in Hl.
          rewrite u32_small by lia. repeat split; auto; lia.
      - destruct (advance_law cap b old l n Ha Hc) as (L1 & L2 & L3).
        destruct (Z.leb_spec (2 ^ 32) (zlen old + n)).
        + destruct (L3 ltac:(lia)) as (b1 & k & E & -> & _ & Hx1). rewrite E. exists b1. auto.
        + destruct (Z.leb_spec n (zlen l)).
          * destruct (L1 ltac:(lia)) as (b1 & E & Hx1). rewrite E. exists b1. auto.
          * rewrite L2 by lia. exists b. auto.
      - eexists. split; [reflexivity|]. unfold rfix_at. cbn [rf_data rf_w rf_r rfix_clear fst snd app]. repeat split; auto. }
    destruct Hstep as (b1 & E & Hx1). rewrite E. cbn [bind].
    destruct (tape_call cap c (old, l)) as [o [old1 l1]]. cbn [fst snd] in *.
    destruct (IH b1 old1 l1 Hx1 Hcs') as (b' & E' & H'). rewrite E'.
    destruct (run_tape cap cs (old1, l1)) as [os st2]. cbn [bind fst snd] in *. exists b'. auto.
Qed.

Lemma rfix_tape cap cs : 0 <= cap < 2 ^ 32 ->
  Forall (fun c => match c with RPush x => is_byte x | RAdvanceN n => 0 <= n < 2 ^ 32 | _ => True end) cs ->
  exists b, run_rfix cap cs (rfix_init cap) = Done (fst (run_tape cap cs ([], [])), b)
    /\ rfix_at cap b (fst (snd (run_tape cap cs ([], [])))) (snd (snd (run_tape cap cs ([], [])))).
Proof. intros Hc Hcs. apply rfix_tape_gen; [apply rfix_at_init; exact Hc|exact Hcs]. Qed.

(* ------------------------------------------------------------------------------------------- *)
(** ** advance(N) of a section *)

Lemma section_advance_law S (R : rops S) rel tail b w n :
  reader_ok R rel -> exact_rel rel tail b w -> 0 <= n ->
  exists ok b', r_advance_n (sec_ops R) b n = Done (ok, b')
    /\ exact_rel rel tail b' (skipn (Z.to_nat n) w)
    /\ (0 < n -> ok = (0 <? zlen w))
    /\ (w = [] -> ok = false).
Proof.
  intros ok (Hr & Hs) Hn. cbn [r_advance_n sec_ops]. unfold sec_advance_n. rewrite Hs.
  assert (0 <= zlen w) by (unfold zlen; lia).
  destruct (0 <? zlen w) eqn:Ez.
  - set (m := if n <=? zlen w then n else zlen w).
    assert (Hm : 0 <= m <= zlen w) by (unfold m; destruct (n <=? zlen w) eqn:E; lia).
    destruct (ro_advance_n _ _ ok (sec_parent b) (w ++ tail) m Hr) as (k & s' & E & Hr' & Hk).
    { rewrite zlen_plus. unfold zlen in *. lia. }
    rewrite E. cbn [bind]. eexists _, _. split; [reflexivity|].
    assert (Hsk : skipn (Z.to_nat m) (w ++ tail) = skipn (Z.to_nat n) w ++ tail).
    { rewrite skipn_app. replace (Z.to_nat m - length w)%nat with 0%nat by (unfold zlen in Hm; lia).
      cbn [skipn]. f_equal. unfold m. destruct (n <=? zlen w) eqn:E2; [reflexivity|].
      rewrite !skipn_all2; [reflexivity| |]; unfold zlen in *; lia. }
    rewrite Hsk in Hr'. split; [|split].
    + split; [exact Hr'|]. cbn [sec_size]. unfold zlen in *. rewrite skipn_length. unfold m in *.
      destruct (n <=? Z.of_nat (length w)) eqn:E2; lia.
    + intros Hp. apply Hk. unfold m. destruct (n <=? zlen w); lia.
    + intros ->. cbn in Ez. discriminate.
  - assert (w = []) as -> by (destruct w; [reflexivity|unfold zlen in Ez; cbn in Ez; lia]).
    eexists _, _. split; [reflexivity|]. rewrite skipn_nil. split; [split; auto|]. split; auto.
Qed.

Lemma section_over S (R : rops S) rel tail b w n :
  reader_ok R rel -> exact_rel rel tail b w -> w <> [] -> zlen w < n ->
  exists b', r_advance_n (sec_ops R) b n = Done (true, b') /\ exact_rel rel tail b' [].
Proof.
  intros ok H Hw Hn. assert (0 < zlen w) by (destruct w; [congruence|unfold zlen; cbn; lia]).
  destruct (section_advance_law _ _ _ _ _ _ n ok H) as (k & b' & E & H' & Hk & _); [lia|].
  rewrite Hk in E by lia. replace (0 <? zlen w) with true in E by lia.
  exists b'. split; [exact E|]. rewrite skipn_all2 in H'; [exact H'|unfold zlen in *; lia].
Qed.

Lemma section_zero S (R : rops S) rel tail b :
  exact_rel rel tail b [] -> r_advance_n (sec_ops R) b 0 = Done (false, b).
Proof. intros (_ & Hs). cbn [r_advance_n sec_ops]. unfold sec_advance_n. rewrite Hs. reflexivity. Qed.

Lemma section_overadvance_law cap s old l n m :
  rfix_at cap s old l -> cap < 2 ^ 31 -> zlen l < n -> old <> [] -> zlen l < m ->
  exists sec, r_advance_n (sec_ops (rfix_ops cap)) (mk_section (rfix_ops cap) s n) m = Done (false, sec)
    /\ rfix_at cap (sec_parent sec) old l.
Proof.
  intros Ha Hc Hn Ho Hm. pose proof Ha as (Hd & Hc' & Hb & Hr & Hw & Hl).
  assert (Hlen : zlen (old ++ l) <= cap)
    by (rewrite <- Hl, <- Hd; unfold zlen; rewrite firstn_length; lia).
  rewrite zlen_plus in Hlen, Hw. assert (0 <= zlen l) by (unfold zlen; lia).
  assert (0 < zlen old) by (destruct old; [congruence|unfold zlen; cbn; lia]).
  cbn [r_advance_n sec_ops]. unfold sec_advance_n, mk_section.
  cbn [sec_size sec_parent sec_max r_get_size rfix_ops]. rewrite Hw.
  replace (0 <? Z.min n (zlen old + zlen l)) with true by lia.
  set (k := if m <=? Z.min n (zlen old + zlen l) then m else Z.min n (zlen old + zlen l)).
  assert (Hk : zlen l < k /\ zlen old + k < 2 ^ 32)
    by (unfold k; destruct (m <=? Z.min n (zlen old + zlen l)) eqn:E; lia).
  cbn [r_advance_n rfix_ops].
  rewrite (proj1 (proj2 (advance_law cap s old l k Ha ltac:(lia))) (proj1 Hk) (proj2 Hk)).
  cbn [bind]. eexists. split; [reflexivity|]. exact Ha.
Qed.

(* ------------------------------------------------------------------------------------------- *)
(** ** bool *)

Lemma bool_longer b bs : varint_wf 10 (b :: bs) -> bs <> [] ->
  forall S (R : rops S) rel, reader_ok R rel -> reads rel (DeserializeBool R) [b] 1.
Proof.
  intros (init & last & E & _ & Hi & _) Hne S R rel ok s rest Hr.
  assert (128 <= b).
  { destruct init as [|x init]; cbn in E; injection E as E1 E2.
    - subst. congruence.
    - inversion Hi; subst. lia. }
  destruct (ro_pop_cons _ _ ok _ _ _ Hr) as (s' & Ep & H'). exists s'. unfold DeserializeBool. rewrite Ep.
  cbn [bind]. replace (b =? 0) with false by lia. auto.
Qed.
