(** Every legal API call on a valid object is memory safe, keeps the object valid, and has the effect
    described in SpecApi.v. *)
From Verif Require Import Base Buffers Wire Schema Fields Message Api Spec SpecApi Contracts BitLemmas
  ScalarProofs BufferProofs Struct SerProofs Tables DecodeProofs ClearProofs TidyProofs AssignProofs
  SafetyProofs SafetyMsg SafetyProps.
From Coq Require Import ZifyBool ZifyNat ZifyN.
Ltac Zify.zify_post_hook ::= Z.div_mod_to_equations.

Definition otidy (ty : oty) (v : value) : Prop :=
  match ty with OElem t => tidy t v | ORep max t => tidy_field (KRep max) t 0 [] v end.

(** *** Writing through an index *)
Lemma firstn_upd_lt {A} : forall n m (x : A) l, (m < n)%nat -> firstn n (upd m x l) = upd m x (firstn n l).
Proof.
  induction n as [|n IH]; intros [|m] x [|y l] H; try lia; cbn [firstn upd]; auto. f_equal. apply IH. lia.
Qed.

Lemma nth_error_firstn_lt {A} : forall n i (l : list A), (i < n)%nat -> nth_error (firstn n l) i = nth_error l i.
Proof. induction n as [|n IH]; intros [|i] [|y l] H; cbn; auto; try lia. apply IH. lia. Qed.

Lemma put_firstn {A} max (data : list A) len i x : 0 <= len <= max -> zlen data = max -> 0 < max < 2 ^ 31 -> 0 <= i ->
  let k := Z.min i (max - 1) in
  put max (firstn (Z.to_nat len) data) i x (firstn (Z.to_nat (if len <=? k then k + 1 else len)) (upd (Z.to_nat k) x data)).
Proof.
  intros Hl Hz Hm Hi k. assert (Hk : 0 <= k < max) by lia.
  assert (Hlen : zlen (firstn (Z.to_nat len) data) = len) by (rewrite zlen_firstn; lia).
  destruct (Z.leb_spec len k).
  - replace (Z.to_nat (k + 1)) with (S (Z.to_nat k)) by lia. rewrite firstn_S_upd by (unfold zlen in Hz; lia).
    assert (E : firstn (Z.to_nat k) data = firstn (Z.to_nat len) data ++ firstn (Z.to_nat (k - len)) (skipn (Z.to_nat len) data)).
    { replace (Z.to_nat k) with (Z.to_nat len + Z.to_nat (k - len))%nat by lia.
      rewrite <- (firstn_skipn (Z.to_nat len) data) at 1. rewrite firstn_app, firstn_length.
      replace (Nat.min (Z.to_nat len) (length data)) with (Z.to_nat len) by (unfold zlen in Hz; lia).
      rewrite firstn_firstn. replace (Nat.min (Z.to_nat len + Z.to_nat (k - len)) (Z.to_nat len)) with (Z.to_nat len) by lia.
      replace (Z.to_nat len + Z.to_nat (k - len) - Z.to_nat len)%nat with (Z.to_nat (k - len)) by lia. reflexivity. }
    rewrite E, <- app_assoc. apply (put_behind max _ i x k); [reflexivity|lia|]. rewrite Hlen, zlen_firstn, zlen_skipn. lia.
  - rewrite firstn_upd_lt by lia. apply (put_in max _ i x k); [reflexivity|lia].
Qed.

Lemma put_map {A B} (f : A -> B) max l i x l' : put max l i x l' -> put max (map f l) i (f x) (map f l').
Proof.
  intros H. destruct H as [k Hk Hl|k gap Hk Hl Hg].
  - rewrite map_upd. apply put_in; [exact Hk|]. now rewrite zlen_map.
  - rewrite !map_app. cbn [map]. apply (put_behind max _ i (f x) k); [exact Hk|now rewrite zlen_map|now rewrite !zlen_map].
Qed.

(** *** C strings *)
Lemma strnlen_ok : forall n i s, In 0 s \/ (n <= length s)%nat ->
  strnlen n i s = Done (i + Z.of_nat (Nat.min n (length (c_string s)))).
Proof.
  induction n as [|n IH]; intros i s H; cbn [strnlen]; [f_equal; lia|].
  destruct s as [|c s]; [destruct H as [[]|H]; cbn in H; lia|]. cbn [c_string]. destruct (Z.eqb_spec c 0).
  - cbn [length]. rewrite Nat.min_0_r. f_equal. lia.
  - rewrite IH; [cbn [length]; f_equal; lia|]. destruct H as [[H|H]|H]; [congruence|auto|right; cbn in H; lia].
Qed.

Lemma strncpy_ok : forall n s, In 0 s \/ (n <= length s)%nat ->
  strncpy_bytes n s = Done (firstn n (c_string s) ++ repeat 0 (n - length (c_string s))).
Proof.
  induction n as [|n IH]; intros s H; cbn [strncpy_bytes]; [reflexivity|].
  destruct s as [|c s]; [destruct H as [[]|H]; cbn in H; lia|]. cbn [c_string]. destruct (Z.eqb_spec c 0).
  - cbn [length firstn app Nat.sub]. unfold zrepeat. now rewrite Nat2Z.id.
  - rewrite IH; [reflexivity|]. destruct H as [[H|H]|H]; [congruence|auto|right; cbn in H; lia].
Qed.

Lemma c_string_bytes s : Forall is_byte s -> Forall is_byte (c_string s).
Proof. induction 1 as [|c s Hc Hs IH]; cbn [c_string]; [constructor|]. destruct (c =? 0); constructor; auto. Qed.

(** The state after set(const char* ): the string, and a terminator if there is room for it. *)
Lemma cstr_ok max cur data s : capacity_ok max -> zlen data = max -> Forall is_byte s -> In 0 s \/ max < zlen s ->
  let str := firstn (Z.to_nat max) (c_string s) in
  string_set_cstr (VB cur data) (Some s)
  = Done (NoErrors, VB (zlen str) (str ++ (if zlen str <? max then 0 :: skipn (S (length str)) data else []))).
Proof.
  intros Hc Hz Hb Hs str. unfold capacity_ok in Hc. cbn [string_set_cstr]. rewrite Hz, u32_small by lia.
  rewrite strnlen_ok by (destruct Hs as [|Hs]; [left; assumption|right; unfold zlen in Hs; lia]). cbn [bind]. rewrite Z.add_0_l.
  assert (Hstr : length str = Nat.min (Z.to_nat max) (length (c_string s))) by (unfold str; apply firstn_length).
  assert (Hlen : Z.min (Z.of_nat (Nat.min (Z.to_nat (max + 1)) (length (c_string s)))) max = zlen str) by (unfold zlen; lia).
  rewrite Hlen. assert (Hle : 0 <= zlen str <= max) by (unfold zlen; lia).
  destruct (Z.ltb_spec (zlen str) max).
  - assert (Hfull : str = c_string s). { unfold str. apply firstn_all2. unfold zlen in H. lia. }
    replace (Z.to_nat (zlen str + 1)) with (S (length str)) by (unfold zlen; lia).
    rewrite strncpy_ok by (destruct Hs as [|Hs]; [left; assumption|right; unfold zlen in *; lia]).
    rewrite <- Hfull. replace (S (length str) - length str)%nat with 1%nat by lia. rewrite firstn_all2 by lia. cbn [bind repeat].
    assert (Hl1 : zlen (str ++ [0]) = zlen str + 1) by (rewrite zlen_app; reflexivity).
    rewrite memcpy_ok by lia. cbn [bind Z.to_nat firstn app]. do 3 f_equal.
    replace (Z.to_nat (0 + (zlen str + 1))) with (S (length str)) by (unfold zlen; lia).
    rewrite firstn_all2 by (unfold zlen in Hl1; lia). rewrite <- app_assoc. reflexivity.
  - assert (Hm : zlen str = max) by lia. replace (Z.to_nat (zlen str)) with (length str) by (unfold zlen; lia).
    rewrite strncpy_ok by (destruct Hs as [|Hs]; [left; assumption|right; unfold zlen in *; lia]). cbn [bind].
    replace (length str - length (c_string s))%nat with 0%nat by lia. cbn [repeat]. rewrite app_nil_r.
    assert (E : firstn (length str) (c_string s) = str). { unfold str at 2. f_equal. unfold zlen in Hm. lia. }
    rewrite E. rewrite memcpy_ok by lia. cbn [bind Z.to_nat firstn app]. do 3 f_equal.
    rewrite firstn_all2 by (unfold zlen; lia). rewrite skipn_all2 by (unfold zlen in *; lia). reflexivity.
Qed.

Lemma cstr_wt max s data (st : bool) : let str := firstn (Z.to_nat max) (c_string s) in
  capacity_ok max -> zlen data = max -> Forall is_byte data -> Forall is_byte s ->
  wt (EBytes st max) (VB (zlen str) (str ++ (if zlen str <? max then 0 :: skipn (S (length str)) data else []))).
Proof.
  intros str Hc Hz Hd Hs. unfold capacity_ok in Hc. cbn [wt].
  assert (Hle : 0 <= zlen str <= max) by (unfold zlen, str; rewrite firstn_length; lia).
  assert (Hb : Forall is_byte str) by (apply Forall_firstn; now apply c_string_bytes).
  split; [exact Hle|]. destruct (Z.ltb_spec (zlen str) max).
  - split; [rewrite zlen_app, zlen_cons, zlen_skipn; unfold zlen in *; lia|]. apply all_Forall. apply Forall_app. split; [exact Hb|].
    constructor; [unfold is_byte; lia|]. now apply Forall_skipn.
  - rewrite app_nil_r. split; [lia|now apply all_Forall].
Qed.

(** *** Repeated fields *)
Lemma rep_get_ok len data i max : zlen data = max -> 0 < max < 2 ^ 31 ->
  rep_get len data i = (Z.min i (max - 1), if len <=? Z.min i (max - 1) then Z.min i (max - 1) + 1 else len).
Proof. intros Hz Hm. unfold rep_get. rewrite Hz, u32_small by lia. reflexivity. Qed.

Lemma opt_index_optix fs pos : opt_index fs pos = optix fs pos.
Proof.
  revert pos. induction fs as [|[[num k] t] fs IH]; intros [|pos]; cbn [opt_index optix]; auto.
Qed.

(** *** All calls *)
Definition op_post (fuel : nat) (o : op) (ty : oty) (v : value) : Prop :=
  match run_op fuel o ty v with
  | Done (e, v') => owt ty v' /\ otidy ty v' /\ acall ty (oview ty v) o e (oview ty v')
  | UB => False
  | Fuel => decodes o
  end.

Lemma owt_field k t v : k <> KRecursive -> wt_field k (wt t) v -> owt (oty_of k t) v.
Proof. destruct k; cbn; auto; congruence. Qed.
Lemma owt_field_inv k t v : k <> KRecursive -> owt (oty_of k t) v -> wt_field k (wt t) v.
Proof. destruct k; cbn; auto; congruence. Qed.

Lemma agree_but_0 fs pos pres pres' : (forall q num t, nth_error fs q = Some (num, KOpt, t) -> q <> pos ->
  present pres' (optix fs q) = present pres (optix fs q)) -> agree_but fs 0 pos pres pres'.
Proof. intros H q num t Hq Hne. rewrite Z.add_0_l. eapply H; eauto. Qed.

(** A message with one field replaced. *)
Lemma field_replace fs os pres vs ovs pres' pos num k t x x' :
  wt (EMsg fs os) (VM pres vs ovs) -> tidy (EMsg fs os) (VM pres vs ovs) ->
  nth_error fs pos = Some (num, k, t) -> nth_error vs pos = Some x ->
  zlen pres' = presence_size (n_optional fs) -> Forall is_u32 pres' ->
  (forall q num' t', nth_error fs q = Some (num', KOpt, t') -> q <> pos -> present pres' (optix fs q) = present pres (optix fs q)) ->
  wt_field k (wt t) x' -> tidy_field k t (optix fs pos) pres' x' ->
  aset vs (Z.of_nat pos) x' = Done (upd pos x' vs)
  /\ wt (EMsg fs os) (VM pres' (upd pos x' vs) ovs) /\ tidy (EMsg fs os) (VM pres' (upd pos x' vs) ovs)
  /\ view (EMsg fs os) (VM pres' (upd pos x' vs) ovs)
     = SvM (upd pos (view_field k (view t) (optix fs pos) pres' x') (view_fields (vtab fs) 0 pres vs)) (view_oneofs (votab os) ovs).
Proof.
  intros Hw Ht Hf Hx Hz Hu Hp Hwx Htx. split; [apply aset_nat; eapply nth_error_lt; exact Hx|]. split; [|split].
  - cbn [wt] in *. destruct Hw as (_ & _ & Hw1 & Hw2). split; [exact Hz|]. split; [now apply all_Forall|]. split; [|exact Hw2].
    eapply all2_upd; eauto.
  - eapply tidy_upd_field; eauto. intros q num' t' Hq Hne E. rewrite <- (Hp q num' t'); auto.
  - rewrite view_tab. f_equal. rewrite (view_fields_upd fs pos 0 pres pres' vs num k t x' Hf); [reflexivity|]. now apply agree_but_0.
Qed.

Lemma oneof_replace fs os pres vs ovs pos ms o o' :
  wt (EMsg fs os) (VM pres vs ovs) -> tidy (EMsg fs os) (VM pres vs ovs) ->
  nth_error os pos = Some ms -> nth_error ovs pos = Some o ->
  wt_oneof (map (fun '(num, t) => (num, wt t)) ms) o' -> tidy_oneof ms o' ->
  aset ovs (Z.of_nat pos) o' = Done (upd pos o' ovs)
  /\ wt (EMsg fs os) (VM pres vs (upd pos o' ovs)) /\ tidy (EMsg fs os) (VM pres vs (upd pos o' ovs))
  /\ view (EMsg fs os) (VM pres vs (upd pos o' ovs))
     = SvM (view_fields (vtab fs) 0 pres vs) (upd pos (view_oneof (map (fun '(num, t) => (num, view t)) ms) o') (view_oneofs (votab os) ovs)).
Proof.
  intros Hw Ht Hf Hx Hwx Htx. split; [apply aset_nat; eapply nth_error_lt; exact Hx|]. split; [|split].
  - cbn [wt] in *. destruct Hw as (Hz & Hu & Hw1 & Hw2). split; [exact Hz|]. split; [exact Hu|]. split; [exact Hw1|].
    eapply all2_upd; eauto.
  - eapply tidy_upd_oneof; eauto.
  - rewrite view_tab. f_equal. now apply view_oneofs_upd.
Qed.

Theorem op_safe fuel : forall o ty v, oty_ok ty -> owt ty v -> otidy ty v -> op_ok ty o -> op_post fuel o ty v.
Proof.
  induction o as [z| |src|src|src len|str|i b|i src|src|src len| |i o IH|pos o IH|pos|pos id o IH|pos id|bytes];
    intros ty v Hok Hw Ht Hl; unfold op_post; cbn [run_op].
  - (* OpScalarSet *) destruct ty as [[sc| |]|]; try contradiction. split; [exact Hl|]. split; [constructor|apply a_scalar].
  - (* OpClear *) destruct ty as [t|max t]; cbn [oty_ok owt otidy oview] in *.
    + destruct (clear_good t v Hw Hok) as (v' & -> & Hg). cbn [bind]. split; [apply Hg|]. split; [now apply fresh_tidy|].
      destruct Hg as (_ & _ & ->). apply (a_clear (OElem t)).
    + destruct Hok as [Hd Hc]. destruct v as [| | |len data|]; try contradiction. destruct Hw as (Hlen & Hz & Hall).
      destruct (map_res_ok (clear t) (wt t) (fun y => good t y (sdefault t)) data (fun x Hx => clear_good t x Hx Hd) Hall) as (l' & E & Hl' & Hz').
      cbn [rep_clear]. rewrite E. cbn [bind]. split; [|split].
      * cbn [wt_field]. split; [lia|]. split; [lia|]. eapply all_impl; [|exact Hl']. intros x Hx; apply Hx.
      * cbn [tidy_field]. apply all_Forall in Hl'. eapply Forall_impl; [|exact Hl']. intros x Hx. now apply fresh_tidy.
      * apply (a_clear (ORep max t)).
  - (* OpAssign *) destruct ty as [t|max t]; cbn [oty_ok owt otidy oview op_ok] in *.
    + destruct (assign_ok t Hok v src (asg_pre_intro t v Hw Ht) Hl) as (v' & -> & Hw' & Ht' & Hv'). cbn [bind].
      split; [exact Hw'|]. split; [exact Ht'|]. rewrite Hv'. apply (a_assign (OElem t)).
    + destruct Hok as [Hd Hc].
      destruct (rep_assign_ok t max (assign_ok t) Hd Hc v src Hw (fun _ _ => Ht) Hl) as (v' & -> & Hw' & Ht' & Hv'). cbn [bind].
      split; [exact Hw'|]. split; [apply Ht'|]. rewrite (Hv' 0 [] 0 []). apply (a_assign (ORep max t)).
  - (* OpSetFrom *) destruct ty as [[|st max|]|]; try contradiction. cbn [oty_ok owt otidy oview op_ok] in *.
    destruct Hl as (max' & Hc' & Hs). destruct src as [| |slen sdata| |]; try contradiction. destruct Hs as (Hsl & Hsz & Hsb).
    cbn [bytes_set_from]. unfold desc_ok in Hok. destruct (bytes_set_ok st max v sdata slen Hok Hw) as (e & v' & -> & Hw' & Hv'); [now apply all_Forall|lia|lia|].
    split; [exact Hw'|]. split; [constructor|].
    assert (Hzl : zlen (firstn (Z.to_nat slen) sdata) = slen) by (rewrite zlen_firstn; lia).
    destruct (Z.leb_spec slen max); destruct Hv' as [-> Hv'].
    + rewrite Hv'. eapply a_setfrom; [reflexivity|lia].
    + rewrite Hv'. eapply a_setfrom_full; [reflexivity|lia].
  - (* OpBytesSet *) destruct ty as [[|st max|]|]; try contradiction. cbn [oty_ok owt otidy oview op_ok] in *.
    destruct Hl as [Hb Hl]. destruct (bytes_set_ok st max v src len Hok Hw Hb) as (e & v' & -> & Hw' & Hv'); [lia|lia|].
    split; [exact Hw'|]. split; [constructor|]. destruct (Z.leb_spec len max); destruct Hv' as [-> Hv']; rewrite Hv'.
    + now apply a_set.
    + now apply a_set_full.
  - (* OpCStr *) destruct ty as [[|[] max|]|]; try (destruct str; contradiction). cbn [oty_ok owt otidy oview] in *. cbn [desc_ok] in Hok.
    destruct v as [| |cur data| |]; try contradiction. destruct Hw as (Hc & Hz & Hb). apply all_Forall in Hb.
    destruct str as [s|].
    + cbn [op_ok] in Hl. destruct Hl as [Hsb Hs]. rewrite (cstr_ok max cur data s Hok Hz Hsb Hs). split; [now apply cstr_wt|]. split; [constructor|].
      set (str := firstn (Z.to_nat max) (c_string s)).
      assert (E : view (EBytes true max) (VB (zlen str) (str ++ (if zlen str <? max then 0 :: skipn (S (length str)) data else []))) = SvB str).
      { cbn [view]. f_equal. replace (Z.to_nat (zlen str)) with (length str) by (unfold zlen; lia). rewrite firstn_app, firstn_all.
        rewrite Nat.sub_diag, firstn_O. apply app_nil_r. }
      rewrite E. apply a_cstr.
    + cbn [string_set_cstr bytes_clear bind]. split; [|split; [constructor|apply a_cstr_null]].
      unfold capacity_ok in Hok. cbn [wt]. split; [lia|]. rewrite zlen_zrepeat by lia. split; [lia|]. apply all_repeat. unfold is_byte; lia.
  - (* OpBytesPut *) destruct ty as [[|st max|]|]; try contradiction. cbn [oty_ok owt otidy oview op_ok] in *. cbn [desc_ok] in Hok.
    destruct Hl as [Hi Hb]. unfold legal_index in Hi. destruct v as [| |cur data| |]; try contradiction. destruct Hw as (Hc & Hz & Hd). unfold capacity_ok in Hok.
    cbn [bytes_put]. unfold bytes_get. rewrite Hz, u32_small by lia. set (k := Z.min i (max - 1)). assert (Hk : 0 <= k < max) by lia.
    rewrite aset_ok by lia. cbn [bind]. split; [|split; [constructor|]].
    + cbn [wt]. rewrite zlen_upd. split; [destruct (Z.leb_spec cur k); lia|]. split; [exact Hz|]. apply all_Forall. apply Forall_upd; [now apply all_Forall|exact Hb].
    + cbn [view]. apply a_put. unfold k. apply put_firstn; lia.
  - (* OpRepSet *) destruct ty as [|max t]; try contradiction. cbn [oty_ok owt otidy oview op_ok] in *. destruct Hok as [Hd Hc].
    destruct Hl as [Hi Hs]. unfold legal_index in Hi. destruct v as [| | |cur data|]; try contradiction. destruct Hw as (Hcur & Hz & Hall). unfold capacity_ok in Hc.
    cbn [rep_set]. rewrite (rep_get_ok cur data i max Hz Hc). cbn [tidy_field] in Ht. set (k := Z.min i (max - 1)). assert (Hk : 0 <= k < max) by lia.
    destruct (aget_ok data k) as (x & -> & Ex); [lia|]. cbn [bind]. apply all_Forall in Hall.
    assert (Hx : wt t x) by (eapply Forall_forall in Hall; [exact Hall|]; eapply nth_error_In; exact Ex).
    assert (Htx : tidy t x) by (eapply Forall_forall in Ht; [exact Ht|]; eapply nth_error_In; exact Ex).
    destruct (assign_ok t Hd x src (asg_pre_intro t x Hx Htx) Hs) as (x' & -> & Hw' & Ht' & Hv'). cbn [bind].
    rewrite aset_ok by lia. cbn [bind]. split; [|split].
    + cbn [wt_field]. rewrite zlen_upd. split; [destruct (Z.leb_spec cur k); lia|]. split; [exact Hz|]. apply all_Forall. now apply Forall_upd.
    + cbn [tidy_field]. now apply Forall_upd.
    + cbn [view_field]. apply a_rep_set. rewrite <- Hv'. apply put_map. unfold k. apply put_firstn; lia.
  - (* OpRepAdd *) destruct ty as [|max t]; try contradiction. cbn [oty_ok owt otidy oview op_ok] in *. destruct Hok as [Hd Hc].
    pose proof Hw as Hw0. pose proof Ht as Ht0. destruct v as [| | |cur data|]; try contradiction. destruct Hw as (Hcur & Hz & Hall). unfold capacity_ok in Hc.
    cbn [tidy_field] in Ht. cbn [rep_add]. destruct (Z.ltb_spec cur (zlen data)).
    + destruct (aget_ok data cur) as (x & -> & Ex); [lia|]. cbn [bind]. apply all_Forall in Hall.
      assert (Hx : wt t x) by (eapply Forall_forall in Hall; [exact Hall|]; eapply nth_error_In; exact Ex).
      assert (Htx : tidy t x) by (eapply Forall_forall in Ht; [exact Ht|]; eapply nth_error_In; exact Ex).
      destruct (assign_ok t Hd x src (asg_pre_intro t x Hx Htx) Hl) as (x' & -> & Hw' & Ht' & Hv'). cbn [bind].
      rewrite aset_ok by lia. cbn [bind]. split; [|split].
      * cbn [wt_field]. rewrite zlen_upd. split; [lia|]. split; [exact Hz|]. apply all_Forall. now apply Forall_upd.
      * cbn [tidy_field]. now apply Forall_upd.
      * cbn [view_field]. replace (Z.to_nat (cur + 1)) with (S (Z.to_nat cur)) by lia. rewrite firstn_S_upd by (eapply nth_error_lt; exact Ex).
        rewrite map_app. cbn [map]. rewrite Hv'. apply a_rep_add. rewrite zlen_map, zlen_firstn. lia.
    + split; [exact Hw0|]. split; [exact Ht0|]. cbn [view_field]. apply a_rep_add_full. rewrite zlen_map, zlen_firstn. lia.
  - (* OpRepSetData *) destruct ty as [|max t]; try contradiction. cbn [oty_ok owt otidy oview op_ok] in *. destruct Hok as [Hd Hc]. destruct Hl as [Hs Hl].
    pose proof Hw as Hw0. pose proof Ht as Ht0. destruct v as [| | |cur data|]; try contradiction. destruct Hw as (Hcur & Hz & Hall). unfold capacity_ok in Hc.
    cbn [tidy_field] in Ht. cbn [rep_set_data]. destruct (Z.leb_spec len (zlen data)).
    + destruct (set_data_loop_ok t (assign_ok t) Hd (Z.to_nat len) 0 data src) as (d' & -> & Hz' & Hw' & Ht' & Hf & _); try lia; auto. cbn [bind].
      split; [|split].
      * cbn [wt_field]. split; [lia|]. split; [lia|exact Hw'].
      * exact Ht'.
      * cbn [view_field]. cbn [Z.to_nat Nat.add firstn app skipn] in Hf. rewrite <- (firstn_map _ _ d'), Hf, firstn_map. apply a_rep_data. lia.
    + split; [exact Hw0|]. split; [exact Ht0|]. cbn [view_field]. apply a_rep_data_full. lia.
  - (* OpTouch *) split; [exact Hw|]. split; [exact Ht|apply a_touch].
  - (* OpRepAt *) destruct ty as [|max t]; try contradiction. cbn [oty_ok owt otidy oview op_ok] in *. destruct Hok as [Hd Hc]. destruct Hl as [Hi Hl]. unfold legal_index in Hi.
    destruct v as [| | |cur data|]; try contradiction. destruct Hw as (Hcur & Hz & Hall). unfold capacity_ok in Hc. cbn [tidy_field] in Ht.
    rewrite (rep_get_ok cur data i max Hz Hc). set (k := Z.min i (max - 1)). assert (Hk : 0 <= k < max) by lia.
    destruct (aget_ok data k) as (x & -> & Ex); [lia|]. cbn [bind]. apply all_Forall in Hall.
    assert (Hx : wt t x) by (eapply Forall_forall in Hall; [exact Hall|]; eapply nth_error_In; exact Ex).
    assert (Htx : tidy t x) by (eapply Forall_forall in Ht; [exact Ht|]; eapply nth_error_In; exact Ex).
    pose proof (IH (OElem t) x Hd Hx Htx Hl) as H. unfold op_post in H.
    destruct (run_op fuel o (OElem t) x) as [[e x']| |]; cbn [bind]; auto. destruct H as (Hw' & Ht' & Ha). cbn [owt otidy oview] in *.
    rewrite aset_ok by lia. cbn [bind]. split; [|split].
    + cbn [wt_field]. rewrite zlen_upd. split; [destruct (Z.leb_spec cur k); lia|]. split; [exact Hz|]. apply all_Forall. now apply Forall_upd.
    + cbn [tidy_field]. now apply Forall_upd.
    + cbn [view_field].
      pose proof (put_map (view t) _ _ _ _ _ (put_firstn max data cur i x' Hcur Hz Hc ltac:(lia))) as Hp. cbv zeta in Hp. fold k in Hp.
      destruct (Z.leb_spec cur k) as [Hle|Hlt].
      * inversion Hp as [k' Hk' Hk2 Heq|k' gap Hk' Hk2 Hg Heq]; [exfalso; rewrite zlen_map, zlen_firstn in Hk2; lia|].
        eapply a_rep_at_behind; eauto.
      * rewrite firstn_upd_lt, map_upd by lia. eapply a_rep_at; [reflexivity| |exact Ha]. fold k.
        rewrite <- firstn_map. rewrite nth_error_firstn_lt; [|lia]. now apply map_nth_error.
  - (* OpField *) destruct ty as [[| |fs os]|]; try contradiction. cbn [op_ok] in Hl.
    destruct (nth_error fs pos) as [[[num k] t]|] eqn:En; [|contradiction]. cbn [oty_ok owt otidy oview] in Hok, Hw, Ht.
    assert (Hkr : k <> KRecursive) by (intros ->; contradiction).
    destruct v as [| | | |pres vs ovs]; try contradiction. pose proof Hw as Hw0. cbn [wt] in Hw. destruct Hw as (Hz & Hu & Hw1 & Hw2). apply all_Forall in Hu.
    destruct (desc_field fs os pos num k t Hok En) as (Hdt & _ & Hk).
    destruct (all2_nth _ _ _ _ _ Hw1 En) as (x & Ex & Hwx).
    pose proof (tidy_elem _ _ _ _ _ _ _ _ _ _ Ht En Ex) as Htx.
    assert (Hot : oty_ok (oty_of k t)) by (destruct k; cbn; auto).
    assert (Htx' : otidy (oty_of k t) x). { destruct k; cbn [oty_of otidy tidy_field] in *; auto; try apply Htx. congruence. }
    assert (Hop : op_ok (oty_of k t) o) by (destruct k; auto; contradiction).
    pose proof (IH (oty_of k t) x Hot (owt_field k t x Hkr Hwx) Htx' Hop) as H. unfold op_post in H.
    assert (Hrun : exists pres', (match k with KOpt => presence_set pres (opt_index fs pos) | _ => Done pres end) = Done pres'
       /\ zlen pres' = presence_size (n_optional fs) /\ Forall is_u32 pres'
       /\ (forall q num' t', nth_error fs q = Some (num', KOpt, t') -> q <> pos -> present pres' (optix fs q) = present pres (optix fs q))
       /\ (k = KOpt -> present pres' (optix fs pos) = true)).
    { destruct k as [| |max|]; try (exists pres; do 4 (split; [solve [auto]|]); discriminate).
      rewrite opt_index_optix. destruct (presence_set_ok pres (optix fs pos) (n_optional fs)) as (p' & -> & Hz' & Hu' & Hp'); auto; [eapply optix_bound; exact En|].
      exists p'. split; [reflexivity|]. split; [exact Hz'|]. split; [exact Hu'|]. split.
      - intros q num' t' Hq Hne. rewrite Hp' by apply optix_nonneg. destruct (Z.eqb_spec (optix fs q) (optix fs pos)); [|reflexivity].
        exfalso. apply Hne. eapply optix_inj; eauto.
      - intros _. rewrite Hp' by apply optix_nonneg. now rewrite Z.eqb_refl. }
    destruct Hrun as (pres' & Epres & Hz' & Hu' & Hp' & Hset).
    assert (Estep : run_op fuel (OpField pos o) (OElem (EMsg fs os)) (VM pres vs ovs) =
      (let* (e, x') := run_op fuel o (oty_of k t) x in let* vs' := aset vs (Z.of_nat pos) x' in Done (e, VM pres' vs' ovs))).
    { cbn [run_op]. rewrite En, (aget_nat _ _ _ Ex). destruct k; cbn [bind]; try congruence; try (injection Epres as <-; reflexivity); rewrite Epres; reflexivity. }
    cbn [run_op] in Estep. rewrite En in Estep. rewrite Estep. clear Estep.
    destruct (run_op fuel o (oty_of k t) x) as [[e x']| |]; cbn [bind]; auto. destruct H as (Hw' & Ht' & Ha).
    assert (Htf : tidy_field k t (optix fs pos) pres' x').
    { destruct k; cbn [oty_of otidy tidy_field] in *; auto; try congruence. split; [exact Ht'|]. rewrite (Hset eq_refl). discriminate. }
    destruct (field_replace fs os pres vs ovs pres' pos num k t x x' Hw0 Ht En Ex Hz' Hu' Hp' (owt_field_inv _ _ _ Hkr Hw') Htf) as (-> & Hw2' & Ht2 & Hv2).
    cbn [bind]. split; [exact Hw2'|]. split; [exact Ht2|]. cbn [oview]. rewrite Hv2, view_tab.
    pose proof (view_fields_nth_fwd fs pos 0 pres vs num k t x En Ex) as Hn. rewrite Z.add_0_l in Hn.
    destruct k as [| |max|]; cbn [oty_of oview view_field] in *.
    + eapply a_plain; eauto.
    + rewrite (Hset eq_refl). destruct (present pres (optix fs pos)) eqn:Ep.
      * eapply a_opt; eauto.
      * eapply a_opt_absent; eauto. cbn [tidy_field] in Htx. destruct Htx as [_ Htx]. rewrite (Htx Ep) in Ha. exact Ha.
    + eapply a_repeated; eauto.
    + congruence.
  - (* OpClearField *) destruct ty as [[| |fs os]|]; try contradiction. cbn [op_ok] in Hl.
    destruct (nth_error fs pos) as [[[num k] t]|] eqn:En; [|congruence]. cbn [oty_ok owt otidy oview] in Hok, Hw, Ht.
    destruct v as [| | | |pres vs ovs]; try contradiction. pose proof Hw as Hw0. cbn [wt] in Hw. destruct Hw as (Hz & Hu & Hw1 & Hw2). apply all_Forall in Hu.
    destruct (desc_field fs os pos num k t Hok En) as (Hdt & _ & Hk).
    destruct (all2_nth _ _ _ _ _ Hw1 En) as (x & Ex & Hwx).
    pose proof (tidy_elem _ _ _ _ _ _ _ _ _ _ Ht En Ex) as Htx. rewrite (aget_nat _ _ _ Ex). cbn [bind].
    assert (Hrun : exists pres' x', field_clear k (clear t) (opt_index fs pos) pres x = Done (pres', x')
       /\ zlen pres' = presence_size (n_optional fs) /\ Forall is_u32 pres'
       /\ (forall q num' t', nth_error fs q = Some (num', KOpt, t') -> q <> pos -> present pres' (optix fs q) = present pres (optix fs q))
       /\ wt_field k (wt t) x' /\ tidy_field k t (optix fs pos) pres' x'
       /\ view_field k (view t) (optix fs pos) pres' x' = sdefault_field k (sdefault t)).
    { destruct k as [| |max|]; cbn [field_clear wt_field tidy_field view_field sdefault_field] in *.
      - destruct (clear_good t x Hwx Hdt) as (x' & -> & Hg). cbn [bind]. exists pres, x'. do 4 (split; [solve [auto]|]).
        split; [apply Hg|]. split; [now apply fresh_tidy|apply Hg].
      - rewrite opt_index_optix. destruct (presence_clear_ok pres (optix fs pos) (n_optional fs)) as (p' & -> & Hz' & Hu' & Hp'); auto; [eapply optix_bound; exact En|].
        destruct (clear_good t x Hwx Hdt) as (x' & -> & Hg). cbn [bind]. exists p', x'. split; [reflexivity|]. split; [exact Hz'|]. split; [exact Hu'|]. split.
        { intros q num' t' Hq Hne. rewrite Hp' by apply optix_nonneg. destruct (Z.eqb_spec (optix fs q) (optix fs pos)); [|reflexivity].
          exfalso. apply Hne. eapply optix_inj; eauto. }
        split; [apply Hg|]. split; [split; [now apply fresh_tidy|intros _; apply Hg]|]. rewrite Hp' by apply optix_nonneg. now rewrite Z.eqb_refl.
      - destruct x as [| | |len data|]; try contradiction. destruct Hwx as (Hlen & Hzd & Hall).
        destruct (map_res_ok (clear t) (wt t) (fun y => good t y (sdefault t)) data (fun x Hx => clear_good t x Hx Hdt) Hall) as (l' & E & Hl' & Hzl').
        cbn [rep_clear]. rewrite E. cbn [bind]. exists pres, (VR 0 l'). do 4 (split; [solve [auto]|]). split; [|split].
        + split; [lia|]. split; [lia|]. eapply all_impl; [|exact Hl']. intros y Hy; apply Hy.
        + apply all_Forall in Hl'. eapply Forall_impl; [|exact Hl']. intros y Hy. now apply fresh_tidy.
        + reflexivity.
      - exists pres, x. do 6 (split; [solve [auto]|]). reflexivity. }
    destruct Hrun as (pres' & x' & -> & Hz' & Hu' & Hp' & Hwx' & Htx' & Hvx'). cbn [bind].
    destruct (field_replace fs os pres vs ovs pres' pos num k t x x' Hw0 Ht En Ex Hz' Hu' Hp' Hwx' Htx') as (-> & Hw2' & Ht2 & Hv2).
    cbn [bind]. split; [exact Hw2'|]. split; [exact Ht2|]. cbn [oview]. rewrite Hv2, Hvx', view_tab. eapply a_clear_field; eauto.
  - (* OpOneof *) destruct ty as [[| |fs os]|]; try contradiction. cbn [op_ok] in Hl.
    destruct (nth_error os pos) as [ms|] eqn:En; [|contradiction]. destruct (lookup ms id) as [t|] eqn:El; [|contradiction].
    cbn [oty_ok owt otidy oview] in Hok, Hw, Ht.
    destruct v as [| | | |pres vs ovs]; try contradiction. pose proof Hw as Hw0. cbn [wt] in Hw. destruct Hw as (Hz & Hu & Hw1 & Hw2).
    destruct (desc_member fs os pos ms id t Hok En El) as [Hdt Hid].
    destruct (all2_nth _ _ _ _ _ Hw2 En) as ([which x] & Ex & Hwx). unfold members. rewrite find_member_map, El, (aget_nat _ _ _ Ex). cbn [bind fst].
    assert (Htx : tidy_oneof ms (which, x)). { apply tidy_msg_iff in Ht. destruct Ht as [_ Ht]. eapply Ht; eauto. }
    assert (Hn : nth_error (view_oneofs (votab os) ovs) pos = Some (view_oneof (map (fun '(num, t) => (num, view t)) ms) (which, x))) by now apply view_oneofs_nth_fwd.
    unfold view_oneof in Hn. cbn [fst snd] in Hn. rewrite (lookup_map view) in Hn. unfold wt_oneof in Hwx. cbn [fst snd] in Hwx. rewrite (lookup_map wt) in Hwx.
    set (d' := if id =? which then (which, x) else oneof_init (map (fun '(num, t) => (num, t, tt)) ms) id (which, x)).
    assert (Hfin : forall e x', wt t x' -> tidy t x' ->
       (if id =? which then acall (OElem t) (view t x) o e (view t x') else acall (OElem t) (sdefault t) o e (view t x')) ->
       match (let* ovs' := aset ovs (Z.of_nat pos) (fst d', x') in Done (e, VM pres vs ovs')) with
       | Done (e, v') => wt (EMsg fs os) v' /\ tidy (EMsg fs os) v' /\ acall (OElem (EMsg fs os)) (view (EMsg fs os) (VM pres vs ovs)) (OpOneof pos id o) e (view (EMsg fs os) v')
       | UB => False | Fuel => decodes (OpOneof pos id o) end).
    { intros e x' Hwx' Htx' Ha. assert (Efst : fst d' = id).
      { unfold d'. destruct (Z.eqb_spec id which); [cbn; congruence|]. now apply (oneof_init_pre ms (fun _ => tt) id (which, x) t El Hdt). }
      rewrite Efst.
      destruct (oneof_replace fs os pres vs ovs pos ms (which, x) (id, x') Hw0 Ht En Ex) as (-> & Hw2' & Ht2 & Hv2).
      { unfold wt_oneof. cbn [fst snd]. rewrite (lookup_map wt), El. exact Hwx'. }
      { intros t' El'. cbn [fst snd] in El' |- *. assert (Et : t' = t) by congruence. rewrite Et. exact Htx'. }
      cbn [bind]. split; [exact Hw2'|]. split; [exact Ht2|]. rewrite Hv2, view_tab. unfold view_oneof. cbn [fst snd]. rewrite (lookup_map view), El.
      destruct (Z.eqb_spec id which) as [E|E].
      - subst which. rewrite El in Hn. eapply a_oneof_same; eauto.
      - destruct (lookup ms which); eapply a_oneof_other; try exact Hn; eauto; lia. }
    destruct t as [sc|st max|fs' os'].
    + destruct o as [z| | | | | | | | | | | | | | | |]; try contradiction. cbn [run_op bind]. apply Hfin; [exact Hl|constructor|].
      destruct (id =? which); apply a_scalar.
    + assert (Hd' : wt (EBytes st max) (snd d') /\ tidy (EBytes st max) (snd d') /\ (if id =? which then snd d' = x else view (EBytes st max) (snd d') = sdefault (EBytes st max))).
      { unfold d'. destruct (Z.eqb_spec id which) as [E|E]; cbn [snd].
        - subst which. rewrite El in Hwx. split; [exact Hwx|]. split; [now apply (Htx (EBytes st max))|reflexivity].
        - unfold oneof_init. rewrite find_member_map, El. cbn [snd is_enum placement_new]. split; [now apply default_ok|]. split; [now apply default_tidy|now apply default_ok]. }
      destruct Hd' as (Hwd & Htd & Hvd). pose proof (IH (OElem (EBytes st max)) (snd d') Hdt Hwd Htd Hl) as H. unfold op_post in H.
      destruct (run_op fuel o (OElem (EBytes st max)) (snd d')) as [[e x']| |]; cbn [bind]; [|exact H|exact H]. destruct H as (Hw' & Ht' & Ha).
      apply Hfin; [exact Hw'|exact Ht'|]. destruct (id =? which); [now rewrite <- Hvd|]. cbn [oview] in Ha. rewrite Hvd in Ha. exact Ha.
    + assert (Hd' : wt (EMsg fs' os') (snd d') /\ tidy (EMsg fs' os') (snd d') /\ (if id =? which then snd d' = x else view (EMsg fs' os') (snd d') = sdefault (EMsg fs' os'))).
      { unfold d'. destruct (Z.eqb_spec id which) as [E|E]; cbn [snd].
        - subst which. rewrite El in Hwx. split; [exact Hwx|]. split; [now apply (Htx (EMsg fs' os'))|reflexivity].
        - unfold oneof_init. rewrite find_member_map, El. cbn [snd is_enum placement_new]. split; [now apply default_ok|]. split; [now apply default_tidy|now apply default_ok]. }
      destruct Hd' as (Hwd & Htd & Hvd). pose proof (IH (OElem (EMsg fs' os')) (snd d') Hdt Hwd Htd Hl) as H. unfold op_post in H.
      destruct (run_op fuel o (OElem (EMsg fs' os')) (snd d')) as [[e x']| |]; cbn [bind]; [|exact H|exact H]. destruct H as (Hw' & Ht' & Ha).
      apply Hfin; [exact Hw'|exact Ht'|]. destruct (id =? which); [now rewrite <- Hvd|]. cbn [oview] in Ha. rewrite Hvd in Ha. exact Ha.
  - (* OpOneofClear *) destruct ty as [[| |fs os]|]; try contradiction. cbn [op_ok] in Hl.
    destruct (nth_error os pos) as [ms|] eqn:En; [|contradiction]. destruct (lookup ms id) as [t|] eqn:El; [|congruence].
    cbn [oty_ok owt otidy oview] in Hok, Hw, Ht.
    destruct v as [| | | |pres vs ovs]; try contradiction. pose proof Hw as Hw0. cbn [wt] in Hw. destruct Hw as (Hz & Hu & Hw1 & Hw2).
    destruct (all2_nth _ _ _ _ _ Hw2 En) as ([which x] & Ex & Hwx). unfold members. rewrite find_member_map, El, (aget_nat _ _ _ Ex). cbn [bind fst].
    assert (Htx : tidy_oneof ms (which, x)). { apply tidy_msg_iff in Ht. destruct Ht as [_ Ht]. eapply Ht; eauto. }
    assert (Hn : nth_error (view_oneofs (votab os) ovs) pos = Some (view_oneof (map (fun '(num, t) => (num, view t)) ms) (which, x))) by now apply view_oneofs_nth_fwd.
    pose proof (desc_lookup0 fs os pos ms Hok En) as H0.
    destruct (desc_member fs os pos ms id t Hok En El) as [Hdt Hid].
    destruct (Z.eqb_spec id which) as [E|E].
    + subst which.
      destruct (oneof_replace fs os pres vs ovs pos ms (id, x) (oneof_clear (map (fun '(num, t) => (num, t, tt)) ms) (id, x)) Hw0 Ht En Ex) as (-> & Hw2' & Ht2 & Hv2).
      { now apply oneof_clear_wt. } { now apply (oneof_clear_tidy ms (fun _ => tt)). }
      cbn [bind]. split; [exact Hw2'|]. split; [exact Ht2|]. cbn [oview]. rewrite Hv2, view_tab. unfold oneof_clear. cbn [fst]. rewrite find_member_map, El.
      unfold view_oneof at 1. cbn [fst snd]. rewrite (lookup_map view), H0.
      unfold view_oneof in Hn. cbn [fst snd] in Hn. rewrite (lookup_map view), El in Hn. eapply a_oneof_clear; eauto.
    + destruct (oneof_replace fs os pres vs ovs pos ms (which, x) (which, x) Hw0 Ht En Ex Hwx Htx) as (-> & Hw2' & Ht2 & Hv2).
      cbn [bind]. rewrite (upd_same _ _ _ Ex) in *. split; [exact Hw2'|]. split; [exact Ht2|]. cbn [oview]. rewrite view_tab.
      unfold view_oneof in Hn. cbn [fst snd] in Hn. rewrite (lookup_map view) in Hn. unfold wt_oneof in Hwx. cbn [fst snd] in Hwx. rewrite (lookup_map wt) in Hwx.
      destruct (lookup ms which).
      * eapply a_oneof_clear_other; [exact Hn|congruence].
      * eapply a_oneof_clear_other; [exact Hn|lia].
  - (* OpDeserialize *) destruct ty as [[| |fs os]|]; try contradiction. cbn [oty_ok owt otidy oview op_ok] in *. destruct Hl as [Hb Hz].
    pose proof (decode_safe_fixed fs os v bytes fuel Hok Hw Hz Hb) as H. cbv zeta in H.
    destruct (deserialize fuel (EMsg fs os) rfix (rfix_ops (zlen bytes)) v (rfix_of bytes)) as [[[e v'] s']| |] eqn:E; cbn [bind]; [|exact H|exact I].
    split; [exact H|]. split; [|apply a_deserialize]. eapply deserialize_tidy; eauto.
Qed.
