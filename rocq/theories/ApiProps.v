(** The statements of PropertiesApi.v, from [op_safe]. *)
From Verif Require Import Base Buffers Wire Schema Fields Message Api Spec SpecApi Contracts BitLemmas
  ScalarProofs BufferProofs Struct SerProofs Tables DecodeProofs ClearProofs TidyProofs AssignProofs
  WriteProofs ReadProofs SafetyProofs SafetyMsg SafetyProps DecodeProps ApiProofs.
From Coq Require Import ZifyBool ZifyNat ZifyN.
Ltac Zify.zify_post_hook ::= Z.div_mod_to_equations.

(** *** Histories *)
Lemma construct_ok ty : oty_ok ty -> owt ty (construct ty) /\ otidy ty (construct ty) /\ oview ty (construct ty) = odefault ty.
Proof.
  destruct ty as [t|max t]; cbn [oty_ok construct owt otidy oview odefault default_field_of wt_field tidy_field view_field].
  - intros H. split; [now apply default_ok|]. split; [now apply default_tidy|now apply default_ok].
  - intros [Hd Hc]. unfold capacity_ok in Hc. split; [|split; [|reflexivity]].
    + split; [lia|]. rewrite zlen_zrepeat by lia. split; [reflexivity|]. apply all_repeat. now apply default_ok.
    + unfold zrepeat. apply Forall_forall. intros x Hx. apply repeat_spec in Hx. subst. now apply default_tidy.
Qed.

Lemma run_ops_safe fuel ty : oty_ok ty -> forall ops v, Forall (op_ok ty) ops -> owt ty v -> otidy ty v ->
  match run_ops fuel ops ty v with
  | Done v' => owt ty v' /\ otidy ty v' /\ acalls ty (oview ty v) ops (oview ty v')
  | UB => False
  | Fuel => Exists decodes ops
  end.
Proof.
  intros Hok. induction ops as [|o ops IH]; intros v Hl Hw Ht; cbn [run_ops].
  - split; [exact Hw|]. split; [exact Ht|constructor].
  - inversion Hl as [|? ? Ho Hl']; subst. pose proof (op_safe fuel o ty v Hok Hw Ht Ho) as H. unfold op_post in H.
    destruct (run_op fuel o ty v) as [[e v1]| |]; cbn [bind]; [|exact H|now constructor 1].
    destruct H as (Hw1 & Ht1 & Ha). specialize (IH v1 Hl' Hw1 Ht1).
    destruct (run_ops fuel ops ty v1) as [v2| |]; [|exact IH|now constructor 2].
    destruct IH as (Hw2 & Ht2 & Has). split; [exact Hw2|]. split; [exact Ht2|]. econstructor; eauto.
Qed.

Definition reached fuel ty ops v : Prop := oty_ok ty /\ Forall (op_ok ty) ops /\ run_ops fuel ops ty (construct ty) = Done v.

Lemma reached_ok fuel ty ops v : oty_ok ty -> Forall (op_ok ty) ops -> run_ops fuel ops ty (construct ty) = Done v ->
  owt ty v /\ otidy ty v /\ acalls ty (odefault ty) ops (oview ty v).
Proof.
  intros Hok Hl Hr. destruct (construct_ok ty Hok) as (Hw & Ht & Hv).
  pose proof (run_ops_safe fuel ty Hok ops (construct ty) Hl Hw Ht) as H. rewrite Hr, Hv in H. exact H.
Qed.

Lemma reachable_valid : forall ty ops fuel, oty_ok ty -> Forall (op_ok ty) ops ->
  match run_ops fuel ops ty (construct ty) with
  | Done v => owt ty v
  | UB => False
  | Fuel => Exists decodes ops
  end.
Proof.
  intros ty ops fuel Hok Hl. destruct (construct_ok ty Hok) as (Hw & Ht & Hv).
  pose proof (run_ops_safe fuel ty Hok ops (construct ty) Hl Hw Ht) as H.
  destruct (run_ops fuel ops ty (construct ty)); auto. apply H.
Qed.

Lemma next_call : forall ty ops fuel v o, oty_ok ty -> Forall (op_ok ty) ops -> run_ops fuel ops ty (construct ty) = Done v ->
  op_ok ty o ->
  match run_op fuel o ty v with
  | Done (e, v') => owt ty v' /\ acall ty (oview ty v) o e (oview ty v')
  | UB => False
  | Fuel => decodes o
  end.
Proof.
  intros ty ops fuel v o Hok Hl Hr Ho. destruct (reached_ok fuel ty ops v Hok Hl Hr) as (Hw & Ht & _).
  pose proof (op_safe fuel o ty v Hok Hw Ht Ho) as H. unfold op_post in H.
  destruct (run_op fuel o ty v) as [[e v']| |]; auto. split; apply H.
Qed.

(** *** Strings and bytes *)
Lemma bytes_history : forall st max ops fuel, let ty := OElem (EBytes st max) in
  capacity_ok max -> Forall (op_ok ty) ops ->
  exists len data, run_ops fuel ops ty (construct ty) = Done (VB len data)
    /\ 0 <= len <= max /\ zlen data = max.
Proof.
  intros st max ops fuel ty Hc Hl. pose proof (reachable_valid ty ops fuel Hc Hl) as H.
  destruct (run_ops fuel ops ty (construct ty)) as [v| |]; [|contradiction|].
  - destruct v as [| |len data| |]; try contradiction. destruct H as (H1 & H2 & _). eauto.
  - exfalso. apply Exists_exists in H. destruct H as (o & Hin & Hd). eapply Forall_forall in Hl; [|exact Hin].
    destruct o; cbn in Hd, Hl; contradiction.
Qed.

Lemma bytes_set_exact : forall st max v src len fuel, let t := EBytes st max in
  capacity_ok max -> wt t v -> Forall is_byte src -> 0 <= len <= zlen src ->
  (len <= max -> exists v', run_op fuel (OpBytesSet src len) (OElem t) v = Done (NoErrors, v') /\ wt t v'
                          /\ view t v' = SvB (firstn (Z.to_nat len) src))
  /\ (max < len -> run_op fuel (OpBytesSet src len) (OElem t) v = Done (ArrayFull, v)).
Proof.
  intros st max v src len fuel t Hc Hw Hb Hl. split; intros Hlen.
  - destruct (bytes_set_ok st max v src len Hc Hw Hb) as (e & v' & E & Hw' & Hv'); [lia|lia|].
    destruct (Z.leb_spec len max); [|lia]. destruct Hv' as [-> Hv']. exists v'. cbn [run_op]. auto.
  - cbn [run_op t]. destruct v as [| |cur data| |]; try contradiction. destruct Hw as (_ & Hz & _). cbn [bytes_set].
    destruct (Z.leb_spec len (zlen data)); [lia|reflexivity].
Qed.

Lemma bytes_assign_exact : forall st max max' v rhs bs, let t := EBytes st max in let t' := EBytes st max' in
  capacity_ok max -> wt t v -> wt t' rhs -> view t' rhs = SvB bs ->
  (zlen bs <= max -> exists v', bytes_assign_any v rhs = Done v' /\ wt t v' /\ view t v' = SvB bs)
  /\ (max < zlen bs -> bytes_assign_any v rhs = Done v).
Proof.
  intros st max max' v rhs bs t t' Hc Hw Hr Hv. destruct rhs as [| |len src| |]; try contradiction.
  destruct Hr as (Hl & Hz & Hb). apply all_Forall in Hb. cbn [view t'] in Hv. injection Hv as <-.
  assert (Hlen : zlen (firstn (Z.to_nat len) src) = len) by (rewrite zlen_firstn; lia). rewrite Hlen.
  destruct (bytes_set_exact st max v src len 0 Hc Hw Hb ltac:(lia)) as [H1 H2]. cbn [run_op] in H1, H2.
  unfold bytes_assign_any, bytes_set_from. split; intros H.
  - destruct (H1 H) as (v' & -> & Hw' & Hv'). cbn [bind]. exists v'. auto.
  - rewrite (H2 H). reflexivity.
Qed.

Lemma cstr_set : forall max v s fuel, let t := EBytes true max in
  capacity_ok max -> wt t v -> Forall is_byte s -> In 0 s \/ max < zlen s ->
  exists data, let str := firstn (Z.to_nat max) (c_string s) in
    run_op fuel (OpCStr (Some s)) (OElem t) v = Done (NoErrors, VB (zlen str) data)
    /\ wt t (VB (zlen str) data) /\ view t (VB (zlen str) data) = SvB str
    /\ (zlen str < max -> nth_error data (length str) = Some 0).
Proof.
  intros max v s fuel t Hc Hw Hb Hs. destruct v as [| |cur data| |]; try contradiction. destruct Hw as (_ & Hz & Hd). apply all_Forall in Hd.
  set (str := firstn (Z.to_nat max) (c_string s)).
  exists (str ++ (if zlen str <? max then 0 :: skipn (S (length str)) data else [])). cbv zeta. fold str. cbn [run_op t].
  split; [exact (cstr_ok max cur data s Hc Hz Hb Hs)|]. split; [now apply cstr_wt|]. split.
  - cbn [view t]. f_equal. replace (Z.to_nat (zlen str)) with (length str) by (unfold zlen; lia). rewrite firstn_app, firstn_all.
    rewrite Nat.sub_diag, firstn_O. apply app_nil_r.
  - intros Hlt. destruct (Z.ltb_spec (zlen str) max); [|lia]. rewrite nth_error_app2 by lia. now rewrite Nat.sub_diag.
Qed.

Lemma cstr_null : forall max v fuel, let t := EBytes true max in
  capacity_ok max -> wt t v ->
  exists v', run_op fuel (OpCStr None) (OElem t) v = Done (NoErrors, v') /\ wt t v' /\ view t v' = SvB [].
Proof.
  intros max v fuel t Hc Hw. destruct v as [| |cur data| |]; try contradiction. destruct Hw as (_ & Hz & _). unfold capacity_ok in Hc.
  cbn [run_op t string_set_cstr bytes_clear bind]. eexists. split; [reflexivity|]. split; [|reflexivity].
  cbn [wt]. split; [lia|]. rewrite zlen_zrepeat by lia. split; [lia|]. apply all_repeat. unfold is_byte; lia.
Qed.

(** *** The C string accessor *)
Lemma read_cstr_prefix : forall str rest, ~ In 0 str -> read_cstr (str ++ 0 :: rest) = Done str.
Proof.
  induction str as [|c str IH]; intros rest H; cbn [app read_cstr]; [reflexivity|].
  destruct (Z.eqb_spec c 0); [exfalso; apply H; left; congruence|]. rewrite IH by (intros Hi; apply H; right; exact Hi). reflexivity.
Qed.

Lemma c_string_nonzero s : ~ In 0 (c_string s).
Proof.
  induction s as [|c s IH]; cbn [c_string]; [easy|]. destruct (Z.eqb_spec c 0); [easy|]. intros [H|H]; auto.
Qed.

Lemma cstr_after_set : forall max v s fuel v', let t := EBytes true max in
  capacity_ok max -> wt t v -> Forall is_byte s -> In 0 s \/ max < zlen s -> zlen (c_string s) < max ->
  run_op fuel (OpCStr (Some s)) (OElem t) v = Done (NoErrors, v') ->
  string_c_str v' = Done (c_string s) /\ view t v' = SvB (c_string s).
Proof.
  intros max v s fuel v' t Hc Hw Hb Hs Hlen E. destruct v as [| |cur data| |]; try contradiction. destruct Hw as (_ & Hz & Hd).
  cbn [run_op t] in E. rewrite (cstr_ok max cur data s Hc Hz Hb Hs) in E. cbv zeta in E.
  rewrite firstn_all2 in E by (unfold zlen in Hlen; lia). destruct (Z.ltb_spec (zlen (c_string s)) max); [|lia]. injection E as <-.
  cbn [string_c_str view t]. split; [apply read_cstr_prefix, c_string_nonzero|]. f_equal.
  replace (Z.to_nat (zlen (c_string s))) with (length (c_string s)) by (unfold zlen; lia). rewrite firstn_app, firstn_all.
  rewrite Nat.sub_diag, firstn_O. apply app_nil_r.
Qed.

Lemma read_zeros n : (0 < n)%nat -> read_cstr (repeat 0 n) = Done [].
Proof. destruct n; [lia|reflexivity]. Qed.

Lemma cstr_after_clear : forall max v v', let t := EBytes true max in
  capacity_ok max -> wt t v -> clear t v = Done v' -> string_c_str v' = Done [] /\ view t v' = SvB [].
Proof.
  intros max v v' t Hc Hw E. destruct v as [| |cur data| |]; try contradiction. destruct Hw as (_ & Hz & _). unfold capacity_ok in Hc.
  cbn [clear t bytes_clear] in E. injection E as <-. cbn [string_c_str view t]. split; [|reflexivity]. unfold zrepeat. apply read_zeros. lia.
Qed.

Section Reader.
Context {S : Type} {R : rops S} {rel : S -> list Z -> Prop} (ok : reader_ok R rel).

(** Decoding leaves the array behind the payload zero. *)
Lemma bytes_loop_data : forall p rest len data s, rel s (p ++ rest) -> 0 <= len -> len + zlen p <= zlen data ->
  exists s', bytes_deserialize_loop R (length p) len data s
    = Done (len + zlen p, firstn (Z.to_nat len) data ++ p ++ skipn (Z.to_nat (len + zlen p)) data, s').
Proof.
  induction p as [|b p IH]; intros rest len data s Hr Hl Hle; cbn [length bytes_deserialize_loop].
  - exists s. rewrite zlen_nil, Z.add_0_r. cbn [app]. now rewrite firstn_skipn.
  - rewrite zlen_cons in *. pose proof (zlen_nonneg p). cbn [app] in Hr.
    destruct (ro_pop_cons _ _ ok _ _ _ Hr) as (s' & -> & Hs'). cbn [bind]. rewrite aset_ok by lia. cbn [bind].
    destruct (IH rest (len + 1) (upd (Z.to_nat len) b data) s' Hs') as (s2 & ->); [lia|rewrite zlen_upd; lia|].
    exists s2. replace (Z.to_nat (len + 1)) with (Datatypes.S (Z.to_nat len)) by lia.
    rewrite firstn_S_upd by (unfold zlen in *; lia). rewrite skipn_upd_lt by lia. rewrite <- app_assoc.
    replace (len + 1 + zlen p) with (len + (1 + zlen p)) by lia. reflexivity.
Qed.

Lemma cstr_after_decode : forall max v l p rest s fuel, let t := EBytes true max in
  capacity_ok max -> varint32 l (zlen p) -> zlen p < max -> ~ In 0 p -> rel s (l ++ p ++ rest) ->
  exists v' s', elem_deserialize_check_type t (deserialize fuel t) LENDEL S R v s = Done (NoErrors, v', s')
    /\ string_c_str v' = Done p /\ view t v' = SvB p.
Proof.
  intros max v l p rest s fuel t Hc (Hl & Hv) Hlen Hn Hr. unfold capacity_ok in Hc. pose proof (zlen_nonneg p).
  unfold elem_deserialize_check_type, t, elem_wiretype, wt_eqb. rewrite Z.eqb_refl. cbn [deserialize]. unfold bytes_deserialize.
  destruct (DeserializeVarint_wf ok 32 l (p ++ rest) s) as (s1 & -> & Hr1); auto; [left; reflexivity|].
  cbn [bind]. rewrite Hv. destruct (Z.leb_spec (zlen p) max); [|lia].
  replace (Z.to_nat (zlen p)) with (length p) by (unfold zlen; lia).
  destruct (bytes_loop_data p rest 0 (zrepeat 0 max) s1 Hr1) as (s2 & ->); [lia|rewrite zlen_zrepeat; lia|].
  rewrite Z.add_0_l. cbn [bind Z.to_nat firstn app]. rewrite Z.eqb_refl. do 2 eexists. split; [reflexivity|].
  assert (E : skipn (Z.to_nat (zlen p)) (zrepeat 0 max) = 0 :: repeat 0 (Z.to_nat max - Datatypes.S (Z.to_nat (zlen p)))).
  { unfold zrepeat. replace (Z.to_nat max) with (Z.to_nat (zlen p) + Datatypes.S (Z.to_nat max - Datatypes.S (Z.to_nat (zlen p))))%nat at 1 by lia.
    rewrite repeat_app, skipn_app, skipn_all2 by (rewrite repeat_length; lia). rewrite repeat_length, Nat.sub_diag. reflexivity. }
  rewrite E. cbn [string_c_str view]. split; [now apply read_cstr_prefix|]. f_equal.
  replace (Z.to_nat (zlen p)) with (length p) by (unfold zlen; lia). rewrite firstn_app, firstn_all, Nat.sub_diag, firstn_O. apply app_nil_r.
Qed.
End Reader.

Lemma cstr_stale : exists max ops1 ops2 v1 v2, let ty := OElem (EBytes true max) in
  capacity_ok max /\ Forall (op_ok ty) ops1 /\ Forall (op_ok ty) ops2
  (* a shorter value after a longer one *)
  /\ run_ops 0 ops1 ty (construct ty) = Done v1 /\ oview ty v1 = SvB [120; 121] /\ string_c_str v1 = Done [120; 121; 99; 100]
  (* a value that fills the array: the reader runs off its end *)
  /\ run_ops 0 ops2 ty (construct ty) = Done v2 /\ oview ty v2 = SvB [97; 98; 99; 100; 101] /\ string_c_str v2 = UB.
Proof.
  exists 5, [OpBytesSet [97; 98; 99; 100] 4; OpBytesSet [120; 121] 2], [OpCStr (Some [97; 98; 99; 100; 101; 0])].
  do 2 eexists. cbv zeta. split; [unfold capacity_ok; lia|].
  split; [repeat constructor; cbn; unfold is_byte; try lia|]. split; [constructor; [|constructor]; cbn [op_ok]; unfold is_byte; split; [repeat constructor; lia|left; cbn; tauto]|].
  split; [vm_compute; reflexivity|]. split; [reflexivity|]. split; [reflexivity|]. split; [vm_compute; reflexivity|]. split; reflexivity.
Qed.

(** *** Repeated fields *)
Lemma rep_history : forall max t ops fuel v, let ty := ORep max t in
  oty_ok ty -> Forall (op_ok ty) ops -> run_ops fuel ops ty (construct ty) = Done v ->
  exists l, oview ty v = SvR l /\ zlen l <= max /\ acalls ty (SvR []) ops (SvR l).
Proof.
  intros max t ops fuel v ty Hok Hl Hr. destruct (reached_ok fuel ty ops v Hok Hl Hr) as (Hw & _ & Ha). cbn [owt ty wt_field] in Hw.
  destruct v as [| | |len data|]; try contradiction. destruct Hw as (Hlen & Hz & _). eexists. split; [reflexivity|].
  split; [rewrite zlen_map, zlen_firstn; lia|exact Ha].
Qed.

Lemma rep_get_checked : forall max t v l index, wt_field (KRep max) (wt t) v -> oview (ORep max t) v = SvR l -> 0 <= index ->
  match nth_error l (Z.to_nat index) with
  | Some x => exists y, rep_get_const_checked v index = Done (NoErrors, Some y) /\ view t y = x
  | None => rep_get_const_checked v index = Done (IndexOutOfBound, None)
  end.
Proof.
  intros max t v l index Hw Hv Hi. destruct v as [| | |len data|]; try contradiction. cbn [wt_field] in Hw. destruct Hw as (Hlen & Hz & _).
  cbn [oview view_field] in Hv. injection Hv as <-. cbn [rep_get_const_checked].
  destruct (Z.ltb_spec index len).
  - destruct (aget_ok data index) as (y & E & Ey); [lia|]. rewrite <- firstn_map, nth_error_firstn_lt by lia. erewrite map_nth_error by exact Ey.
    rewrite E. exists y. auto.
  - assert (N : nth_error (map (view t) (firstn (Z.to_nat len) data)) (Z.to_nat index) = None).
    { apply nth_error_None. rewrite map_length, firstn_length. unfold zlen in Hz. lia. }
    now rewrite N.
Qed.

Lemma map_res_copy t : desc_ok t -> forall l, Forall (wt t) l ->
  exists l', map_res (copy_construct t) l = Done l' /\ Forall (wt t) l' /\ map (view t) l' = map (view t) l.
Proof.
  intros Hd. induction l as [|x l IH]; intros H; cbn [map_res].
  - exists []. auto.
  - inversion H; subst. unfold copy_construct at 1.
    destruct (assign_ok t Hd (default_value t) x) as (x' & -> & Hw' & _ & Hv'); [apply asg_pre_intro; [now apply default_ok|now apply default_tidy]|assumption|].
    cbn [bind]. destruct IH as (l' & -> & Hl' & Hm); [assumption|]. cbn [bind]. exists (x' :: l'). cbn [map]. rewrite Hv', Hm. auto.
Qed.

Lemma rep_copy_ctor : forall max t src, desc_ok t -> wt_field (KRep max) (wt t) src ->
  exists v', rep_copy_construct t src = Done v' /\ wt_field (KRep max) (wt t) v' /\ oview (ORep max t) v' = oview (ORep max t) src.
Proof.
  intros max t src Hd Hw. destruct src as [| | |len data|]; try contradiction. destruct Hw as (Hlen & Hz & Hall). apply all_Forall in Hall.
  destruct (map_res_copy t Hd data Hall) as (l' & E & Hl' & Hm). cbn [rep_copy_construct]. rewrite E. cbn [bind]. eexists. split; [reflexivity|].
  assert (Hzl : zlen l' = zlen data). { apply (f_equal (@length _)) in Hm. rewrite !map_length in Hm. unfold zlen. lia. }
  split; [cbn [wt_field]; split; [exact Hlen|]; split; [lia|now apply all_Forall]|].
  cbn [oview view_field]. now rewrite <- !firstn_map, Hm.
Qed.

Lemma rep_smaller_ctor : forall max max' t src, desc_ok t -> capacity_ok max -> max' <= max -> wt_field (KRep max') (wt t) src ->
  exists v', rep_construct_from_smaller t max src = Done v' /\ wt_field (KRep max) (wt t) v' /\ oview (ORep max t) v' = oview (ORep max' t) src.
Proof.
  intros max max' t src Hd Hc Hle Hw. destruct src as [| | |len data|]; try contradiction. destruct Hw as (Hlen & Hz & Hall). apply all_Forall in Hall.
  unfold capacity_ok in Hc. cbn [rep_construct_from_smaller].
  destruct (construct_ok (ORep max t) (conj Hd Hc)) as (Hw0 & Ht0 & _). cbn [construct default_field_of owt wt_field otidy tidy_field] in Hw0, Ht0. destruct Hw0 as (_ & Hz0 & Hw0).
  destruct (set_data_loop_ok t (assign_ok t) Hd (length data) 0 (zrepeat (default_value t) max) data) as (d' & -> & Hz' & Hw' & Ht' & Hf & _); auto; try (unfold zlen in *; lia).
  cbn [bind]. eexists. split; [reflexivity|]. split; [cbn [wt_field]; split; [lia|]; split; [lia|exact Hw']|].
  cbn [oview view_field]. f_equal. cbn [Z.to_nat Nat.add firstn app skipn] in Hf. rewrite <- !firstn_map.
  assert (E : firstn (Z.to_nat len) (map (view t) d') = firstn (Z.to_nat len) (firstn (length data) (map (view t) d'))).
  { rewrite firstn_firstn. f_equal. unfold zlen in *. lia. }
  rewrite E, Hf, firstn_firstn. f_equal. unfold zlen in *. lia.
Qed.

(** *** Presence *)
Lemma shows_present_ok fs os v pos num t : wt (EMsg fs os) v -> nth_error fs pos = Some (num, KOpt, t) ->
  has_field fs v pos = Done (shows_present (view (EMsg fs os) v) pos).
Proof.
  intros Hw En. destruct v as [| | | |pres vs ovs]; try contradiction. cbn [wt] in Hw. destruct Hw as (Hz & Hu & Hw1 & _). apply all_Forall in Hu.
  unfold has_field. rewrite En, opt_index_optix.
  rewrite (presence_has_ok pres (optix fs pos) (n_optional fs)); auto; [|eapply optix_bound; exact En].
  destruct (all2_nth _ _ _ _ _ Hw1 En) as (x & Ex & _). rewrite view_tab. cbn [shows_present].
  rewrite (view_fields_nth_fwd fs pos 0 pres vs num KOpt t x En Ex), Z.add_0_l. cbn [view_field]. destruct (present pres (optix fs pos)); reflexivity.
Qed.

Lemma shows_present_default fs os pos : shows_present (sdefault (EMsg fs os)) pos = false.
Proof.
  cbn [sdefault shows_present]. rewrite nth_error_map. destruct (nth_error fs pos) as [[[num k] t]|]; [|reflexivity]. cbn [option_map].
  destruct k, t; reflexivity.
Qed.

Lemma nth_error_upd {A} n m (x : A) l : nth_error (upd m x l) n = if Nat.eqb m n then match nth_error l n with Some _ => Some x | None => None end else nth_error l n.
Proof.
  revert n m; induction l as [|y l IH]; intros [|n] [|m]; cbn [upd nth_error Nat.eqb]; auto.
  destruct (Nat.eqb m n); reflexivity.
Qed.

Lemma acall_present fs os x o e y pos num t b : nth_error fs pos = Some (num, KOpt, t) -> op_ok (OElem (EMsg fs os)) o -> no_decode o ->
  acall (OElem (EMsg fs os)) x o e y -> shows_present x pos = b ->
  (match x with SvM vs _ => length vs = length fs | _ => True end) -> shows_present y pos = has_after (EMsg fs os) pos b o.
Proof.
  intros En Ho Hn Ha Hb Hlen.
  inversion Ha; subst; cbn [has_after no_decode shows_present oview odefault] in *; try contradiction; try reflexivity; try (apply shows_present_default);
    rewrite ?nth_error_upd;
    repeat match goal with
    | |- context [Nat.eqb ?a ?b] => destruct (Nat.eqb_spec a b); [subst|reflexivity]
    end.
  - congruence.
  - match goal with H : nth_error _ _ = Some (SvSome _) |- _ => rewrite H end. reflexivity.
  - match goal with H : nth_error _ _ = Some SvNone |- _ => rewrite H end. reflexivity.
  - congruence.
  - assert (k = KOpt) by congruence. subst k. destruct (nth_error vs pos); reflexivity.
Qed.

Lemma view_length fs os v vs ovs : wt (EMsg fs os) v -> view (EMsg fs os) v = SvM vs ovs -> length vs = length fs /\ length ovs = length os.
Proof.
  intros Hw Hv. destruct v as [| | | |pres vs0 ovs0]; try contradiction. rewrite view_tab in Hv. injection Hv as <- <-. cbn [wt] in Hw.
  destruct Hw as (_ & _ & H1 & H2). split.
  - apply all2_length in H1. unfold vtab. generalize 0. revert vs0 H1. induction fs as [|[[n k] t] fs IH]; intros [|x vs] H i; cbn in *; try lia. f_equal. apply IH. lia.
  - apply all2_length in H2. unfold votab. revert ovs0 H2. induction os as [|ms os IH]; intros [|x vs] H; cbn in *; try lia. f_equal. apply IH. lia.
Qed.

Lemma presence_fold fs os fuel : forall ops v v' pos num t, desc_ok (EMsg fs os) -> wt (EMsg fs os) v -> tidy (EMsg fs os) v ->
  Forall (op_ok (OElem (EMsg fs os))) ops -> Forall no_decode ops -> nth_error fs pos = Some (num, KOpt, t) ->
  run_ops fuel ops (OElem (EMsg fs os)) v = Done v' ->
  shows_present (view (EMsg fs os) v') pos = fold_left (has_after (EMsg fs os) pos) ops (shows_present (view (EMsg fs os) v) pos).
Proof.
  induction ops as [|o ops IH]; intros v v' pos num t Hok Hw Ht Hl Hn En Hr; cbn [run_ops fold_left] in *; [congruence|].
  inversion Hl; inversion Hn; subst. pose proof (op_safe fuel o (OElem (EMsg fs os)) v Hok Hw Ht ltac:(assumption)) as H. unfold op_post in H.
  destruct (run_op fuel o (OElem (EMsg fs os)) v) as [[e v1]| |]; cbn [bind] in Hr; try discriminate. destruct H as (Hw1 & Ht1 & Ha).
  rewrite (IH v1 v' pos num t); auto. f_equal. eapply acall_present; eauto.
  cbn [oview]. destruct (view (EMsg fs os) v) eqn:E; auto. now apply (view_length fs os v) in E.
Qed.

Lemma presence_history : forall fs os ops0 ops fuel v0 v pos num t, let m := EMsg fs os in
  desc_ok m -> Forall (op_ok (OElem m)) ops0 -> run_ops fuel ops0 (OElem m) (construct (OElem m)) = Done v0 ->
  Forall (op_ok (OElem m)) ops -> Forall no_decode ops -> run_ops fuel ops (OElem m) v0 = Done v ->
  nth_error fs pos = Some (num, KOpt, t) ->
  exists b, has_field fs v0 pos = Done b /\ has_field fs v pos = Done (fold_left (has_after m pos) ops b).
Proof.
  intros fs os ops0 ops fuel v0 v pos num t m Hok Hl0 Hr0 Hl Hn Hr En.
  destruct (reached_ok fuel (OElem m) ops0 v0 Hok Hl0 Hr0) as (Hw & Ht & _).
  pose proof (run_ops_safe fuel (OElem m) Hok ops v0 Hl Hw Ht) as H. rewrite Hr in H. destruct H as (Hw' & _ & _).
  eexists. split; [exact (shows_present_ok fs os v0 pos num t Hw En)|]. rewrite (shows_present_ok fs os v pos num t Hw' En). f_equal.
  eapply presence_fold; eauto.
Qed.

Lemma presence_new : forall fs os pos num t, let m := EMsg fs os in desc_ok m -> nth_error fs pos = Some (num, KOpt, t) ->
  has_field fs (construct (OElem m)) pos = Done false.
Proof.
  intros fs os pos num t m Hok En. destruct (construct_ok (OElem m) Hok) as (Hw & _ & Hv).
  rewrite (shows_present_ok fs os _ pos num t Hw En). cbn [oview odefault] in Hv. unfold m in Hv |- *. rewrite Hv. now rewrite shows_present_default.
Qed.

(** *** Oneofs *)
Lemma shows_which_ok fs os v pos ms : desc_ok (EMsg fs os) -> wt (EMsg fs os) v -> nth_error os pos = Some ms ->
  which_oneof v pos = Done (shows_which (view (EMsg fs os) v) pos)
  /\ (shows_which (view (EMsg fs os) v) pos = 0 \/ exists t x, lookup ms (shows_which (view (EMsg fs os) v) pos) = Some t
        /\ (match view (EMsg fs os) v with SvM _ ovs => nth_error ovs pos | _ => None end) = Some (shows_which (view (EMsg fs os) v) pos, SvSome (view t x)) /\ wt t x).
Proof.
  intros Hok Hw En. destruct v as [| | | |pres vs ovs]; try contradiction. pose proof Hw as Hw0. cbn [wt] in Hw. destruct Hw as (_ & _ & _ & Hw2).
  destruct (all2_nth _ _ _ _ _ Hw2 En) as ([id x] & Ex & Hwx). cbn [which_oneof]. rewrite (aget_nat _ _ _ Ex). cbn [bind fst].
  rewrite view_tab. cbn [shows_which]. rewrite (view_oneofs_nth_fwd os ovs pos ms (id, x) En Ex). unfold view_oneof. cbn [fst snd]. rewrite (lookup_map view).
  unfold wt_oneof in Hwx. cbn [fst snd] in Hwx. rewrite (lookup_map wt) in Hwx. destruct (lookup ms id) as [t|] eqn:El.
  - split; [reflexivity|]. right. exists t, x. auto.
  - subst id. auto.
Qed.

Lemma shows_which_default fs os pos : shows_which (sdefault (EMsg fs os)) pos = 0.
Proof. cbn [sdefault shows_which]. rewrite nth_error_map. destruct (nth_error os pos); reflexivity. Qed.

Lemma acall_which fs os x o e y pos b : op_ok (OElem (EMsg fs os)) o -> no_decode o ->
  acall (OElem (EMsg fs os)) x o e y -> shows_which x pos = b ->
  (match x with SvM _ ovs => length ovs = length os | _ => True end) -> shows_which y pos = which_after (EMsg fs os) pos b o.
Proof.
  intros Ho Hn Ha Hb Hlen.
  inversion Ha; subst; cbn [which_after no_decode shows_which oview odefault] in *; try contradiction; try reflexivity; try (apply shows_which_default);
    rewrite ?nth_error_upd;
    repeat match goal with
    | |- context [Nat.eqb ?a ?b] => destruct (Nat.eqb_spec a b); [subst|reflexivity]
    end.
  - match goal with H : nth_error ovs _ = Some _ |- _ => rewrite H end. reflexivity.
  - match goal with H : nth_error ovs _ = Some _ |- _ => rewrite H end. reflexivity.
  - match goal with H : nth_error ovs _ = Some _ |- _ => rewrite H end. rewrite Z.eqb_refl. reflexivity.
  - match goal with H : nth_error ovs _ = Some _ |- _ => rewrite H end. cbn [andb]. destruct (Z.eqb_spec id which); [congruence|reflexivity].
Qed.

Lemma which_fold fs os fuel : forall ops v v' pos ms, desc_ok (EMsg fs os) -> wt (EMsg fs os) v -> tidy (EMsg fs os) v ->
  Forall (op_ok (OElem (EMsg fs os))) ops -> Forall no_decode ops -> nth_error os pos = Some ms ->
  run_ops fuel ops (OElem (EMsg fs os)) v = Done v' ->
  shows_which (view (EMsg fs os) v') pos = fold_left (which_after (EMsg fs os) pos) ops (shows_which (view (EMsg fs os) v) pos).
Proof.
  induction ops as [|o ops IH]; intros v v' pos ms Hok Hw Ht Hl Hn En Hr; cbn [run_ops fold_left] in *; [congruence|].
  inversion Hl; inversion Hn; subst. pose proof (op_safe fuel o (OElem (EMsg fs os)) v Hok Hw Ht ltac:(assumption)) as H. unfold op_post in H.
  destruct (run_op fuel o (OElem (EMsg fs os)) v) as [[e v1]| |]; cbn [bind] in Hr; try discriminate. destruct H as (Hw1 & Ht1 & Ha).
  rewrite (IH v1 v' pos ms); auto. f_equal. eapply acall_which; eauto.
  cbn [oview]. destruct (view (EMsg fs os) v) eqn:E; auto. now apply (view_length fs os v) in E.
Qed.

Lemma which_history : forall fs os ops0 ops fuel v0 v pos ms, let m := EMsg fs os in
  desc_ok m -> Forall (op_ok (OElem m)) ops0 -> run_ops fuel ops0 (OElem m) (construct (OElem m)) = Done v0 ->
  Forall (op_ok (OElem m)) ops -> Forall no_decode ops -> run_ops fuel ops (OElem m) v0 = Done v ->
  nth_error os pos = Some ms ->
  exists w, which_oneof v0 pos = Done w /\ which_oneof v pos = Done (fold_left (which_after m pos) ops w).
Proof.
  intros fs os ops0 ops fuel v0 v pos ms m Hok Hl0 Hr0 Hl Hn Hr En.
  destruct (reached_ok fuel (OElem m) ops0 v0 Hok Hl0 Hr0) as (Hw & Ht & _).
  pose proof (run_ops_safe fuel (OElem m) Hok ops v0 Hl Hw Ht) as H. rewrite Hr in H. destruct H as (Hw' & _ & _).
  eexists. split; [exact (proj1 (shows_which_ok fs os v0 pos ms Hok Hw En))|]. destruct (shows_which_ok fs os v pos ms Hok Hw' En) as [-> _]. f_equal.
  eapply which_fold; eauto.
Qed.

(** Whatever happened before: none or exactly one member reports has_, and it holds a valid value. *)
Lemma which_valid : forall fs os ops fuel v pos ms, let m := EMsg fs os in
  desc_ok m -> Forall (op_ok (OElem m)) ops -> run_ops fuel ops (OElem m) (construct (OElem m)) = Done v ->
  nth_error os pos = Some ms ->
  (forall id t, lookup ms id = Some t -> has_member v pos id = Done false)
  \/ exists id t x vs ovs, lookup ms id = Some t /\ has_member v pos id = Done true
       /\ (forall id' t', lookup ms id' = Some t' -> id' <> id -> has_member v pos id' = Done false)
       /\ view m v = SvM vs ovs /\ nth_error ovs pos = Some (id, SvSome (view t x)) /\ wt t x.
Proof.
  intros fs os ops fuel v pos ms m Hok Hl Hr En. destruct (reached_ok fuel (OElem m) ops v Hok Hl Hr) as (Hw & Ht & _).
  destruct (shows_which_ok fs os v pos ms Hok Hw En) as [Hwh Hc]. unfold has_member. rewrite Hwh. cbn [bind]. destruct Hc as [Hc|(t & x & Hlk & Hx & Hwx)].
  - left. intros id t Hlk. rewrite Hc. destruct (desc_member fs os pos ms id t Hok En Hlk) as [_ Hid]. f_equal. lia.
  - right. set (id := shows_which (view (EMsg fs os) v) pos) in *. destruct (view (EMsg fs os) v) as [| | | | |vs ovs] eqn:Ev; try discriminate.
    exists id, t, x, vs, ovs. split; [exact Hlk|]. split; [f_equal; lia|]. split; [intros id' t' _ Hne; f_equal; lia|]. auto.
Qed.

(** Setting a member: it is selected and shows the outcome of the call on its old value, or on the
    default value when it was not selected; nothing else changes. *)
Lemma oneof_call : forall fs os ops fuel v pos id o e v', let m := EMsg fs os in
  desc_ok m -> Forall (op_ok (OElem m)) ops -> run_ops fuel ops (OElem m) (construct (OElem m)) = Done v ->
  op_ok (OElem m) (OpOneof pos id o) -> run_op fuel (OpOneof pos id o) (OElem m) v = Done (e, v') ->
  exists vs ovs ms t old w x y, view m v = SvM vs ovs /\ nth_error os pos = Some ms /\ lookup ms id = Some t
    /\ nth_error ovs pos = Some (w, old) /\ (if w =? id then old = SvSome x else x = sdefault t)
    /\ view m v' = SvM vs (upd pos (id, SvSome y) ovs) /\ acall (OElem t) x o e y.
Proof.
  intros fs os ops fuel v pos id o e v' m Hok Hl Hr Ho E. pose proof (next_call (OElem m) ops fuel v _ Hok Hl Hr Ho) as H. rewrite E in H.
  destruct H as [Hw' Ha]. cbn [oview] in Ha. inversion Ha; subst.
  - do 8 eexists. split; [symmetry; eassumption|]. split; [eassumption|]. split; [eassumption|]. split; [eassumption|]. rewrite Z.eqb_refl. split; [reflexivity|]. split; [symmetry; eassumption|assumption].
  - exists vs, ovs, ms, t, x, which, (sdefault t), x'. split; [symmetry; eassumption|]. do 3 (split; [solve [auto]|]). destruct (Z.eqb_spec which id); [congruence|]. auto.
Qed.

(** *** Copies *)
Lemma assign_copies : forall t ops fuel dst src, desc_ok t -> Forall (op_ok (OElem t)) ops ->
  run_ops fuel ops (OElem t) (construct (OElem t)) = Done dst -> wt t src ->
  exists dst', assign t dst src = Done dst' /\ wt t dst' /\ view t dst' = view t src.
Proof.
  intros t ops fuel dst src Hok Hl Hr Hs. destruct (reached_ok fuel (OElem t) ops dst Hok Hl Hr) as (Hw & Ht & _).
  destruct (assign_ok t Hok dst src (asg_pre_intro t dst Hw Ht) Hs) as (v' & E & Hw' & _ & Hv'). eauto.
Qed.

Lemma copy_ctor : forall t src, desc_ok t -> wt t src ->
  exists v, copy_construct t src = Done v /\ wt t v /\ view t v = view t src.
Proof.
  intros t src Hok Hs. destruct (assign_ok t Hok (default_value t) src) as (v' & E & Hw' & _ & Hv'); eauto.
  apply asg_pre_intro; [now apply default_ok|now apply default_tidy].
Qed.

(** *** Decoding of one record, from the merge theorem *)
Section Record.
Context {S : Type} {R : rops S} {rel : S -> list Z -> Prop} (ok : reader_ok R rel).

Lemma view_SvM fs os v : wt (EMsg fs os) v -> exists vs ovs, view (EMsg fs os) v = SvM vs ovs.
Proof. destruct v; try contradiction. intros _. rewrite view_tab. eauto. Qed.

Lemma mdec_one fs os vs ovs r vs' ovs' : rdec fs os (SvM vs ovs) r (SvM vs' ovs') -> mdec fs os (SvM vs ovs) r (SvM vs' ovs').
Proof. intros H. rewrite <- (app_nil_r r). eapply mdec_cons; [exact H|constructor]. Qed.

Lemma decode_one_record fs os v vs ovs r vs' ovs' s fuel : desc_ok (EMsg fs os) -> wt (EMsg fs os) v -> clean (EMsg fs os) v ->
  view (EMsg fs os) v = SvM vs ovs -> rdec fs os (SvM vs ovs) r (SvM vs' ovs') -> rel s r -> (length r < fuel)%nat ->
  exists v' s', deserialize fuel (EMsg fs os) S R v s = Done (NoErrors, v', s') /\ wt (EMsg fs os) v' /\ view (EMsg fs os) v' = SvM vs' ovs'.
Proof.
  intros Hok Hw Hc Hv Hr Hs Hf.
  destruct (decode_merge fs os v r (SvM vs' ovs')) with (S := S) (R := R) (rel := rel) (s := s) (fuel := fuel) as (v' & s' & E & _ & Hv' & Hw' & _); auto.
  { rewrite Hv. now apply mdec_one. }
  exists v', s'. auto.
Qed.
End Record.

Lemma presence_decode : forall fs os v vs ovs i num t tg p bs new, let m := EMsg fs os in
  desc_ok m -> wt m v -> clean m v -> view m v = SvM vs ovs -> nth_error fs i = Some (num, KOpt, t) ->
  varint32 tg (num * 8 + wt_code (elem_wiretype t)) -> body t p bs ->
  edec t (match nth_error vs i with Some (SvSome old) => old | _ => sdefault t end) p new ->
  forall S (R : rops S) rel, reader_ok R rel -> forall s, rel s (tg ++ bs) -> forall fuel, (length (tg ++ bs) < fuel)%nat ->
  exists v' s', deserialize fuel m S R v s = Done (NoErrors, v', s')
    /\ has_field fs v' i = Done true
    /\ forall j num' t', nth_error fs j = Some (num', KOpt, t') -> j <> i -> has_field fs v' j = has_field fs v j.
Proof.
  intros fs os v vs ovs i num t tg p bs new m Hok Hw Hc Hv En Htg Hb He S R rel ok s Hs fuel Hf.
  destruct (view_length fs os v vs ovs Hw Hv) as [Hlen _].
  assert (Hi : exists y, nth_error vs i = Some y /\ (y = SvNone \/ exists old, y = SvSome old)).
  { destruct v as [| | | |pres vs0 ovs0]; try contradiction. unfold m in Hv. rewrite view_tab in Hv. assert (vs = view_fields (vtab fs) 0 pres vs0) by congruence. subst vs.
    pose proof Hw as Hw1. cbn [wt m] in Hw1. destruct Hw1 as (_ & _ & Hw1 & _). destruct (all2_nth _ _ _ _ _ Hw1 En) as (x & Ex & _).
    rewrite (view_fields_nth_fwd fs i 0 pres vs0 num KOpt t x En Ex). eexists. split; [reflexivity|]. cbn [view_field]. destruct (present _ _); eauto. }
  destruct Hi as (y & Ey & Hy).
  assert (Hr : rdec fs os (SvM vs ovs) (tg ++ bs) (SvM (upd i (SvSome new) vs) ovs)).
  { rewrite Ey in He. destruct Hy as [->|[old ->]]; [eapply rdec_opt_absent|eapply rdec_opt_present]; eauto. }
  destruct (decode_one_record ok fs os v vs ovs (tg ++ bs) _ _ s fuel Hok Hw Hc Hv Hr Hs Hf) as (v' & s' & E & Hw' & Hv').
  exists v', s'. split; [exact E|]. split.
  - rewrite (shows_present_ok fs os v' i num t Hw' En), Hv'. cbn [shows_present]. rewrite nth_error_upd, Nat.eqb_refl, Ey. reflexivity.
  - intros j num' t' Ej Hne. rewrite (shows_present_ok fs os v' j num' t' Hw' Ej), (shows_present_ok fs os v j num' t' Hw Ej). unfold m in Hv. rewrite Hv', Hv.
    cbn [shows_present]. rewrite nth_error_upd. destruct (Nat.eqb_spec i j); [congruence|reflexivity].
Qed.

Lemma oneof_decode : forall fs os v vs ovs j ms num t which old tg p bs new, let m := EMsg fs os in
  desc_ok m -> wt m v -> clean m v -> view m v = SvM vs ovs -> nth_error os j = Some ms -> lookup ms num = Some t ->
  varint32 tg (num * 8 + wt_code (elem_wiretype t)) -> body t p bs ->
  nth_error ovs j = Some (which, old) ->
  edec t (match old with SvSome x => if which =? num then x else sdefault t | _ => sdefault t end) p new ->
  forall S (R : rops S) rel, reader_ok R rel -> forall s, rel s (tg ++ bs) -> forall fuel, (length (tg ++ bs) < fuel)%nat ->
  exists v' s', deserialize fuel m S R v s = Done (NoErrors, v', s')
    /\ has_member v' j num = Done true
    /\ (forall id t', lookup ms id = Some t' -> id <> num -> has_member v' j id = Done false)
    /\ view m v' = SvM vs (upd j (num, SvSome new) ovs).
Proof.
  intros fs os v vs ovs j ms num t which old tg p bs new m Hok Hw Hc Hv En El Htg Hb Ho He S R rel ok s Hs fuel Hf.
  destruct (desc_member fs os j ms num t Hok En El) as [_ Hnum].
  assert (Hr : rdec fs os (SvM vs ovs) (tg ++ bs) (SvM vs (upd j (num, SvSome new) ovs))).
  { destruct (Z.eqb_spec which num) as [->|Hne].
    - destruct (shows_which_ok fs os v j ms Hok Hw En) as [_ H]. unfold m in Hv. rewrite Hv in H. cbn [shows_which] in H. rewrite Ho in H.
      destruct H as [H|(t' & x & _ & H & _)]; [lia|]. injection H as ->. eapply rdec_oneof_same; eauto.
    - eapply rdec_oneof_other; eauto. destruct old; exact He. }
  destruct (decode_one_record ok fs os v vs ovs (tg ++ bs) _ _ s fuel Hok Hw Hc Hv Hr Hs Hf) as (v' & s' & E & Hw' & Hv').
  exists v', s'. split; [exact E|]. destruct (shows_which_ok fs os v' j ms Hok Hw' En) as [Hwh _]. rewrite Hv' in Hwh. cbn [shows_which] in Hwh.
  rewrite nth_error_upd, Nat.eqb_refl, Ho in Hwh. unfold has_member. rewrite Hwh. cbn [bind]. rewrite Z.eqb_refl. split; [reflexivity|].
  split; [|exact Hv']. intros id t' _ Hne. f_equal. lia.
Qed.

Lemma repeated_decode : forall fs os v vs ovs i num max t old tg l p new, let m := EMsg fs os in
  desc_ok m -> wt m v -> clean m v -> view m v = SvM vs ovs ->
  nth_error fs i = Some (num, KRep max, t) -> is_packed t = false -> nth_error vs i = Some (SvR old) -> zlen old + 1 <= max ->
  varint32 tg (num * 8 + wt_code LENDEL) -> varint32 l (zlen p) -> edec t (sdefault t) p new ->
  forall S (R : rops S) rel, reader_ok R rel -> forall s, rel s (tg ++ l ++ p) -> forall fuel, (length (tg ++ l ++ p) < fuel)%nat ->
  exists v' s', deserialize fuel m S R v s = Done (NoErrors, v', s')
    /\ view m v' = SvM (upd i (SvR (old ++ [new])) vs) ovs.
Proof.
  intros fs os v vs ovs i num max t old tg l p new m Hok Hw Hc Hv En Hpk Ho Hmax Htg Hl He S R rel ok s Hs fuel Hf.
  assert (Hr : rdec fs os (SvM vs ovs) (tg ++ l ++ p) (SvM (upd i (SvR (old ++ [new])) vs) ovs)) by (eapply rdec_repeated; eauto).
  destruct (decode_one_record ok fs os v vs ovs (tg ++ l ++ p) _ _ s fuel Hok Hw Hc Hv Hr Hs Hf) as (v' & s' & E & Hw' & Hv'). eauto.
Qed.
