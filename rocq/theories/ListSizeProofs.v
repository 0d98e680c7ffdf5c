(** Proofs about the sizes that lists report. *)
From Verif Require Import Base BitLemmas Schema Spec Api SpecApi ListSize TidyProofs AssignProofs ApiProofs ApiProps AccessProofs.
From Coq Require Import List ZArith Lia ZifyBool ZifyNat.

Lemma list_state max t ops fuel v : let ty := ORep max t in
  oty_ok ty -> Forall (op_ok ty) ops -> run_ops fuel ops ty (construct ty) = Done v ->
  exists len data, v = VR len data /\ 0 <= len <= max /\ zlen data = max
    /\ oview ty v = SvR (map (view t) (firstn (Z.to_nat len) data)) /\ zlen (map (view t) (firstn (Z.to_nat len) data)) = len.
Proof.
  intros ty Hok Ho H. pose proof (reachable_valid ty ops fuel Hok Ho) as K. rewrite H in K. unfold ty in *. cbn [owt] in K.
  destruct v as [| | |len data|]; try (destruct K; fail). destruct K as (Hl & Hz & _). exists len, data. split; [reflexivity|]. split; [exact Hl|]. split; [exact Hz|].
  split; [reflexivity|]. unfold zlen in *. rewrite map_length, firstn_length. lia.
Qed.
Lemma list_sizes max t sizeof ops fuel v : let ty := ORep max t in
  oty_ok ty -> Forall (op_ok ty) ops -> run_ops fuel ops ty (construct ty) = Done v -> 0 < sizeof -> sizeof * max < 2 ^ 32 ->
  exists l, oview ty v = SvR l /\ get_length v = zlen l /\ get_max_length v = max /\ zlen l <= max
    /\ list_get_size sizeof v = sizeof * zlen l /\ list_get_max_size sizeof v = sizeof * max.
Proof.
  intros ty Hok Ho H Hs Hm. pose proof Hok as [_ Hc]. unfold capacity_ok in Hc. destruct (list_state max t ops fuel v Hok Ho H) as (len & data & -> & Hl & Hz & Hv & He).
  eexists. split; [exact Hv|]. rewrite He. unfold list_get_size, list_get_max_size, u32. cbn [get_length get_max_length]. rewrite Hz.
  assert (Hsz : sizeof mod 2 ^ 32 = sizeof) by (apply Z.mod_small; nia). rewrite Hsz.
  split; [reflexivity|]. split; [reflexivity|]. split; [lia|]. split; apply Z.mod_small; nia.
Qed.
Lemma list_full max t sizeof ops fuel v x : let ty := ORep max t in
  oty_ok ty -> Forall (op_ok ty) ops -> run_ops fuel ops ty (construct ty) = Done v -> 0 < sizeof -> sizeof * max < 2 ^ 32 -> wt t x ->
  exists e v' l, run_op fuel (OpRepAdd x) ty v = Done (e, v') /\ oview ty v = SvR l
    /\ if list_get_size sizeof v =? list_get_max_size sizeof v then e = ArrayFull /\ oview ty v' = SvR l
       else e = NoErrors /\ oview ty v' = SvR (l ++ [view t x]) /\ list_get_size sizeof v' = list_get_size sizeof v + sizeof.
Proof.
  intros ty Hok Ho H Hs Hm Hx. destruct (list_sizes max t sizeof ops fuel v Hok Ho H Hs Hm) as (l & Hv & _ & _ & Hle & Es & Em).
  rewrite Es, Em. assert (Hox : op_ok ty (OpRepAdd x)) by exact Hx.
  pose proof (next_call ty ops fuel v (OpRepAdd x) Hok Ho H Hox) as K. destruct (run_op fuel (OpRepAdd x) ty v) as [[e v']| |] eqn:E; [|destruct K|destruct K].
  destruct K as [Hw' Ha]. exists e, v', l. split; [reflexivity|]. split; [exact Hv|].
  assert (H' : run_ops fuel (ops ++ [OpRepAdd x]) ty (construct ty) = Done v').
  { clear - H E. revert H. generalize (construct ty). induction ops as [|o ops IH]; intros w H; cbn [run_ops app] in *.
    - injection H as ->. rewrite E. reflexivity.
    - destruct (run_op fuel o ty w) as [[e1 w1]| |]; cbn [bind] in *; try discriminate. apply IH. exact H. }
  assert (Ho' : Forall (op_ok ty) (ops ++ [OpRepAdd x])) by (apply Forall_app; split; [exact Ho|constructor; [exact Hox|constructor]]).
  destruct (list_sizes max t sizeof _ fuel v' Hok Ho' H' Hs Hm) as (l' & Hv' & _ & _ & _ & Es' & _).
  fold ty in Hv, Hv'. rewrite Hv, Hv' in Ha. unfold ty in Ha. rewrite Es'. fold ty. rewrite Hv'.
  inversion Ha; subst.
  - destruct (Z.eqb_spec (sizeof * zlen l) (sizeof * max)); [nia|]. split; [reflexivity|]. split; [reflexivity|]. unfold zlen. rewrite app_length. cbn [length]. lia.
  - rewrite Z.eqb_refl. split; reflexivity.
Qed.
Lemma list_wraps max t sizeof xs fuel : let ty := ORep max t in
  oty_ok ty -> Forall (wt t) xs -> zlen xs <= max -> 0 < sizeof < 2 ^ 32 -> 2 ^ 32 <= sizeof * zlen xs ->
  exists v, run_ops fuel [OpRepSetData xs (zlen xs)] ty (construct ty) = Done v /\ oview ty v = SvR (map (view t) xs)
    /\ list_get_size sizeof v < 2 ^ 32 <= sizeof * zlen xs.
Proof.
  intros ty Hok Hx Hl Hs Hb. pose proof Hok as [Hd Hc]. unfold capacity_ok in Hc. pose proof (zlen_nonneg xs).
  destruct (construct_ok ty Hok) as (Hw0 & Ht0 & _). cbn [run_ops run_op ty]. cbn [construct default_field_of ty] in *.
  destruct Hw0 as (_ & Hz0 & Hall0). cbn [otidy tidy_field] in Ht0. set (d0 := zrepeat (default_value t) max) in *.
  cbn [rep_set_data]. rewrite Hz0. destruct (Z.leb_spec (zlen xs) max); [|lia].
  destruct (set_data_loop_ok t (assign_ok t) Hd (Z.to_nat (zlen xs)) 0 d0 xs) as (d1 & -> & Hz1 & Hw1 & Ht1 & Hf1 & _); try lia; auto. cbn [bind].
  cbn [Z.to_nat Nat.add firstn app skipn] in Hf1. eexists. split; [reflexivity|]. cbn [oview view_field].
  split; [apply (f_equal SvR); rewrite <- firstn_map, Hf1; unfold zlen; rewrite Nat2Z.id, <- (map_length (view t) xs); apply firstn_all|].
  split; [|exact Hb]. unfold list_get_size, u32. apply Z.mod_pos_bound. lia.
Qed.
Lemma text_sizes st max ops fuel v : let ty := OElem (EBytes st max) in
  capacity_ok max -> Forall (op_ok ty) ops -> run_ops fuel ops ty (construct ty) = Done v ->
  exists bs, oview ty v = SvB bs /\ get_length v = zlen bs /\ get_max_length v = max /\ zlen bs <= max.
Proof.
  intros ty Hc Ho H. destruct (bytes_history st max ops fuel Hc Ho) as (len & data & E & Hl & Hz). fold ty in E. rewrite H in E. injection E as ->.
  exists (firstn (Z.to_nat len) data). split; [reflexivity|]. cbn [get_length get_max_length]. unfold zlen in *. rewrite firstn_length. split; [lia|]. split; [exact Hz|lia].
Qed.
