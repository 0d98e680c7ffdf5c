(** * ReorderProofs: the generator's result does not depend on the order of the messages in a file. *)
From Coq Require Import String.
From Verif Require Import Base Schema Printf Generator SpecGenerator SpecReorder GenOrder GenSort GenNames.
From Coq Require Import List Permutation ZifyBool ZifyNat Lia.

(** ** Sorting *)
Section Sort.
  Context {A : Type}.
  Variable leb : A -> A -> bool.
  Hypothesis total : forall x y, leb x y = true \/ leb y x = true.
  Hypothesis trans : forall x y z, leb x y = true -> leb y z = true -> leb x z = true.

  Lemma insert_swap x y l : (leb x y = true -> leb y x = true -> x = y) ->
    insert leb x (insert leb y l) = insert leb y (insert leb x l).
  Proof.
    intros anti. induction l as [|z l IH]; cbn [insert].
    - destruct (leb x y) eqn:E1, (leb y x) eqn:E2; cbn [insert]; try reflexivity.
      + rewrite (anti eq_refl eq_refl). reflexivity.
      + destruct (total x y); congruence.
    - destruct (leb y z) eqn:Ey, (leb x z) eqn:Ex; cbn [insert]; rewrite ?Ex, ?Ey.
      + destruct (leb x y) eqn:E1, (leb y x) eqn:E2; try reflexivity.
        * rewrite (anti eq_refl eq_refl). reflexivity.
        * destruct (total x y); congruence.
      + destruct (leb x y) eqn:E1; [rewrite (trans _ _ _ E1 Ey) in Ex; discriminate|]. reflexivity.
      + destruct (leb y x) eqn:E1; [rewrite (trans _ _ _ E1 Ex) in Ey; discriminate|]. reflexivity.
      + rewrite IH. reflexivity.
  Qed.

  Lemma sort_perm l l' : Permutation l l' ->
    (forall x y, In x l -> In y l -> leb x y = true -> leb y x = true -> x = y) -> sort leb l = sort leb l'.
  Proof.
    induction 1 as [|x l l' H IH|x y l|l1 l2 l3 H1 IH1 H2 IH2]; intros anti; cbn [sort].
    - reflexivity.
    - f_equal. apply IH. intros a b Ha Hb. apply anti; right; assumption.
    - apply insert_swap. apply anti; [left|right; left]; reflexivity.
    - rewrite IH1 by exact anti. apply IH2. intros a b Ha Hb. apply anti; eapply Permutation_in; try eassumption; apply Permutation_sym; assumption.
  Qed.
End Sort.

Lemma text_leb_total a : forall b, text_leb a b = true \/ text_leb b a = true.
Proof.
  induction a as [|x a IH]; intros [|y b]; cbn [text_leb]; auto.
  destruct (IH b) as [E|E]; rewrite E; destruct (Z.ltb_spec x y), (Z.ltb_spec y x), (Z.eqb_spec x y), (Z.eqb_spec y x); cbn; auto; lia.
Qed.
Lemma text_leb_trans a : forall b c, text_leb a b = true -> text_leb b c = true -> text_leb a c = true.
Proof.
  induction a as [|x a IH]; intros [|y b] [|z c]; cbn [text_leb]; try congruence.
  intros H1 H2. apply orb_true_iff in H1, H2. apply orb_true_iff.
  destruct H1 as [H1|H1], H2 as [H2|H2]; rewrite ?andb_true_iff in *; try (left; lia).
  right. destruct H1, H2. split; [lia|]. eapply IH; eassumption.
Qed.
Lemma text_leb_anti a : forall b, text_leb a b = true -> text_leb b a = true -> a = b.
Proof.
  induction a as [|x a IH]; intros [|y b]; cbn [text_leb]; try congruence.
  intros H1 H2. apply orb_true_iff in H1, H2. rewrite !andb_true_iff in *.
  destruct H1 as [H1|[H1 H1']], H2 as [H2|[H2 H2']]; try lia. f_equal; [lia|]. apply IH; assumption.
Qed.
Lemma sort_texts l l' : Permutation l l' -> sort text_leb l = sort text_leb l'.
Proof.
  intros H. apply sort_perm; [intros; apply text_leb_total|apply text_leb_trans|exact H|].
  intros x y _ _. apply text_leb_anti.
Qed.

(** ** toposort *)
Definition entry_same (x y : text * list text) : Prop := fst x = fst y /\ same_set (snd x) (snd y).

Lemma same_set_refl a : same_set a a. Proof. intros x. reflexivity. Qed.
Lemma same_set_sym a b : same_set a b -> same_set b a. Proof. intros H x. symmetry. apply H. Qed.
Lemma same_set_trans a b c : same_set a b -> same_set b c -> same_set a c.
Proof. intros H1 H2 x. rewrite (H1 x). apply H2. Qed.
Lemma perm_same a b : Permutation a b -> same_set a b.
Proof. intros H x. split; apply Permutation_in; [|apply Permutation_sym]; exact H. Qed.
Lemma same_mem a b x : same_set a b -> mem x a = mem x b.
Proof.
  intros H. destruct (mem x b) eqn:E.
  - apply mem_In. apply H. apply mem_In. exact E.
  - destruct (mem x a) eqn:E'; [|reflexivity]. apply mem_In in E'. apply H in E'. apply mem_In in E'. congruence.
Qed.
Lemma same_filter p q a b : (forall x, p x = q x) -> same_set a b -> same_set (filter p a) (filter q b).
Proof. intros Hp H x. rewrite !filter_In, Hp. split; intros [H1 H2]; (split; [apply H; exact H1|exact H2]). Qed.
Lemma same_app a b a' b' : same_set a a' -> same_set b b' -> same_set (a ++ b) (a' ++ b').
Proof. intros H1 H2 x. rewrite !in_app_iff, (H1 x), (H2 x). reflexivity. Qed.
Lemma same_nil a b : same_set a b -> match a with [] => true | _ => false end = match b with [] => true | _ => false end.
Proof.
  intros H. destruct a as [|x a], b as [|y b]; try reflexivity.
  - destruct (proj2 (H y)). left. reflexivity.
  - destruct (proj1 (H x)). left. reflexivity.
Qed.

Lemma Forall2_maps {A B A' B'} (P : A -> B -> Prop) (Q : A' -> B' -> Prop) g h a b :
  (forall x y, P x y -> Q (g x) (h y)) -> Forall2 P a b -> Forall2 Q (map g a) (map h b).
Proof. intros Hg. induction 1; cbn; constructor; auto. Qed.
Lemma Forall2_map_eq {A B C} (P : A -> B -> Prop) (g : A -> C) h a b :
  (forall x y, P x y -> g x = h y) -> Forall2 P a b -> map g a = map h b.
Proof. intros Hg. induction 1; cbn; f_equal; auto. Qed.
Lemma Forall2_filters {A B} (P : A -> B -> Prop) p q a b :
  (forall x y, P x y -> p x = q y) -> Forall2 P a b -> Forall2 P (filter p a) (filter q b).
Proof. intros Hg. induction 1 as [|x y a b H1 H2 IH]; cbn; [constructor|]. rewrite (Hg _ _ H1). destruct (q y); [constructor; assumption|exact IH]. Qed.
Lemma perm_filter {A} (p : A -> bool) a b : Permutation a b -> Permutation (filter p a) (filter p b).
Proof.
  induction 1 as [|x l l' H IH|x y l|l1 l2 l3 H1 IH1 H2 IH2]; cbn.
  - constructor.
  - destruct (p x); [constructor|]; exact IH.
  - destruct (p x), (p y); try reflexivity. apply perm_swap.
  - eapply Permutation_trans; eassumption.
Qed.

Lemma dict_map (g h : text * list text -> text * list text) a b :
  (forall x y, entry_same x y -> entry_same (g x) (h y)) -> same_dictionary a b -> same_dictionary (map g a) (map h b).
Proof.
  intros Hg (mid & H1 & H2). exists (map h mid). split; [|apply Permutation_map; exact H2].
  eapply Forall2_maps; [|exact H1]. exact Hg.
Qed.
Lemma dict_filter (p q : text * list text -> bool) a b :
  (forall x y, entry_same x y -> p x = q y) -> same_dictionary a b -> same_dictionary (filter p a) (filter q b).
Proof.
  intros Hg (mid & H1 & H2). exists (filter q mid). split; [|apply perm_filter; exact H2].
  eapply Forall2_filters; [|exact H1]. exact Hg.
Qed.
Lemma dict_app a b a' b' : same_dictionary a a' -> same_dictionary b b' -> same_dictionary (a ++ b) (a' ++ b').
Proof.
  intros (m & H1 & H2) (m' & H1' & H2'). exists (m ++ m'). split; [apply Forall2_app; assumption|apply Permutation_app; assumption].
Qed.
Lemma dict_perm a b : Permutation a b -> same_dictionary a b.
Proof. intros H. exists a. split; [|exact H]. clear. induction a; constructor; [split; [reflexivity|apply same_set_refl]|assumption]. Qed.
Lemma perm_Forall2 {A B} (P : A -> B -> Prop) m b : Permutation m b -> forall m', Forall2 P b m' -> exists a', Forall2 P m a' /\ Permutation a' m'.
Proof.
  induction 1 as [|x l l' H IH|x y l|l1 l2 l3 H1 IH1 H2 IH2]; intros m' Hf.
  - inversion Hf. exists []. split; constructor.
  - inversion Hf as [|? y ? m0 Hxy Hl]; subst. destruct (IH _ Hl) as (a & Ha & Hp). exists (y :: a). split; constructor; assumption.
  - inversion Hf as [|? u ? m0 Hxu Hl]; subst. inversion Hl as [|? v ? m1 Hyv Hl']; subst. exists (v :: u :: m1).
    split; [constructor; [assumption|constructor; assumption]|apply perm_swap].
  - destruct (IH2 _ Hf) as (a2 & Ha2 & Hp2). destruct (IH1 _ Ha2) as (a1 & Ha1 & Hp1). exists a1. split; [exact Ha1|].
    eapply Permutation_trans; eassumption.
Qed.
Lemma dict_trans a b c : same_dictionary a b -> same_dictionary b c -> same_dictionary a c.
Proof.
  intros (m & H1 & H2) (m' & H1' & H2'). destruct (perm_Forall2 _ _ _ H2 _ H1') as (a' & Ha & Hp).
  exists a'. split; [|eapply Permutation_trans; eassumption]. clear - H1 Ha. revert a' Ha.
  induction H1 as [|x y a m [E1 E2] H IH]; intros a' Ha; inversion Ha as [|? z ? a0 [E1' E2'] Ha']; subst; constructor.
  - split; [congruence|]. eapply same_set_trans; eassumption.
  - apply IH. exact Ha'.
Qed.
Lemma dict_concat ls ls' : Forall2 same_dictionary ls ls' -> same_dictionary (concat ls) (concat ls').
Proof. induction 1; cbn; [exists []; split; constructor|]. apply dict_app; assumption. Qed.
Lemma dict_keys a b : same_dictionary a b -> Permutation (map fst a) (map fst b).
Proof.
  intros (m & H1 & H2). rewrite (Forall2_map_eq entry_same fst fst a m); [apply Permutation_map; exact H2| |exact H1]. intros x y [E _]. exact E.
Qed.
Lemma dict_values a b : same_dictionary a b -> same_set (concat (map snd a)) (concat (map snd b)).
Proof.
  intros (m & H1 & H2). eapply same_set_trans with (b := concat (map snd m)).
  - clear H2. induction H1 as [|x y a m [_ E] H IH]; cbn; [apply same_set_refl|]. apply same_app; assumption.
  - intros x. rewrite !in_concat. split; intros (l & Hl & Hx); exists l; (split; [|exact Hx]); (eapply Permutation_in; [|exact Hl]).
    + apply Permutation_map, H2.
    + apply Permutation_map, Permutation_sym, H2.
Qed.
Lemma dict_length a b : same_dictionary a b -> length a = length b.
Proof. intros H. apply dict_keys, Permutation_length in H. rewrite !map_length in H. exact H. Qed.

Lemma toposort_loop_same fuel : forall a b, same_dictionary a b -> toposort_loop fuel a = toposort_loop fuel b.
Proof.
  induction fuel as [|fuel IH]; intros a b H; cbn [toposort_loop]; [reflexivity|].
  set (p := fun '(_, ds) => match ds with [] => true | _ => false end : bool).
  assert (Hf : Permutation (map fst (filter p a)) (map fst (filter p b))).
  { apply dict_keys. apply dict_filter; [|exact H]. intros [k ds] [k' ds'] [_ E]. apply same_nil. exact E. }
  revert Hf. generalize (map fst (filter p a)) (map fst (filter p b)). intros oa ob Hf.
  destruct oa as [|x oa].
  - apply Permutation_nil in Hf. subst ob. pose proof (dict_length _ _ H) as E. destruct a, b; try discriminate; reflexivity.
  - destruct ob as [|y ob]; [apply Permutation_sym, Permutation_nil in Hf; discriminate|].
    rewrite (sort_texts _ _ Hf). rewrite (IH _ (map (fun '(k, ds) => (k, filter (fun d => negb (mem d (y :: ob))) ds)) (filter (fun '(k, _) => negb (mem k (y :: ob))) b))); [reflexivity|].
    assert (Em : forall z, mem z (x :: oa) = mem z (y :: ob)) by (intros z; apply same_mem, perm_same, Hf).
    apply dict_map.
    + intros [k ds] [k' ds'] [E1 E2]. cbn in E1, E2. subst k'. split; [reflexivity|]. cbn [snd]. apply same_filter; [|exact E2].
      intros z. rewrite Em. reflexivity.
    + apply dict_filter; [|exact H]. intros [k ds] [k' ds'] [E1 E2]. cbn in E1. subst k'. rewrite Em. reflexivity.
Qed.

Lemma toposort_same a b : same_dictionary a b -> toposort_flatten a = toposort_flatten b.
Proof.
  intros H. unfold toposort_flatten.
  set (g := fun '(k, ds) => (k, filter (fun d => negb (text_eqb d k)) ds)).
  assert (H1 : same_dictionary (map g a) (map g b)).
  { apply dict_map; [|exact H]. intros [k ds] [k' ds'] [E1 E2]. cbn in E1, E2. subst k'. split; [reflexivity|]. cbn.
    apply same_filter; [reflexivity|exact E2]. }
  set (ea := nodup text_dec (filter (fun d => negb (mem d (map fst (map g a)))) (concat (map snd (map g a))))).
  set (eb := nodup text_dec (filter (fun d => negb (mem d (map fst (map g b)))) (concat (map snd (map g b))))).
  assert (He : Permutation ea eb).
  { apply NoDup_Permutation; [apply NoDup_nodup|apply NoDup_nodup|]. intros x. unfold ea, eb. rewrite !nodup_In.
    apply same_filter; [|apply dict_values; exact H1]. intros z. f_equal. apply same_mem, perm_same, dict_keys, H1. }
  assert (H2 : same_dictionary (map g a ++ map (fun e => (e, [])) ea) (map g b ++ map (fun e => (e, [])) eb)).
  { apply dict_app; [exact H1|]. apply dict_perm, Permutation_map, He. }
  rewrite (dict_length _ _ H2). apply toposort_loop_same. exact H2.
Qed.

(** ** The dependencies of reordered messages *)
Fixpoint reordered_induction (P : pmsg -> pmsg -> Prop)
  (H : forall n enums fields oneofs nested mid nested', Forall2 reordered nested mid -> Forall2 P nested mid -> Permutation mid nested' ->
    P (PMsg n nested enums fields oneofs) (PMsg n nested' enums fields oneofs)) m m' (R : reordered m m') : P m m' :=
  match R in reordered m m' return P m m' with
  | Reordered n enums fields oneofs nested mid nested' Hf Hp =>
      H n enums fields oneofs nested mid nested' Hf
        ((fix go l l' (F : Forall2 reordered l l') : Forall2 P l l' :=
            match F with
            | Forall2_nil _ => Forall2_nil P
            | Forall2_cons x y Hx Hl => Forall2_cons x y (reordered_induction P H _ _ Hx) (go _ _ Hl)
            end) nested mid Hf) Hp
  end.

Lemma reordered_name m m' : reordered m m' -> p_name m = p_name m'.
Proof. intros []. reflexivity. Qed.

Lemma same_concat ls ls' : Forall2 same_set ls ls' -> same_set (concat ls) (concat ls').
Proof. induction 1; cbn; [apply same_set_refl|apply same_app; assumption]. Qed.
Lemma perm_concat {A} (ls ls' : list (list A)) : Permutation ls ls' -> Permutation (concat ls) (concat ls').
Proof.
  induction 1 as [|x l l' H IH|x y l|l1 l2 l3 H1 IH1 H2 IH2]; cbn.
  - constructor.
  - apply Permutation_app_head. exact IH.
  - rewrite !app_assoc. apply Permutation_app_tail, Permutation_app_comm.
  - eapply Permutation_trans; eassumption.
Qed.

Lemma add_msg_reordered m m' : reordered m m' -> forall p,
  same_set (fst (toposort_add_msg p m)) (fst (toposort_add_msg p m'))
  /\ same_dictionary (snd (toposort_add_msg p m)) (snd (toposort_add_msg p m')).
Proof.
  induction 1 as [n enums fields oneofs nested mid nested' Hr IH Hp] using reordered_induction. intros p.
  set (local := p ++ [n]).
  assert (Hd : same_set (fst (toposort_add_msg p (PMsg n nested enums fields oneofs))) (fst (toposort_add_msg p (PMsg n nested' enums fields oneofs)))).
  { rewrite (add_msg_eq p n nested), (add_msg_eq p n nested'). cbn [fst]. fold local. apply same_app; [apply same_set_refl|]. apply same_app.
    - apply same_filter; [reflexivity|]. rewrite !map_map. eapply same_set_trans with (b := concat (map (fun m => fst (toposort_add_msg local m)) mid)).
      + apply same_concat. eapply Forall2_maps; [|exact IH]. intros x y Hxy. apply (Hxy local).
      + apply perm_same, perm_concat, Permutation_map, Hp.
    - apply same_filter; [|apply same_set_refl]. intros x. f_equal. apply same_mem. apply same_app; [|apply same_set_refl].
      rewrite (Forall2_map_eq reordered _ (fun m' => dotted (local ++ [p_name m'])) nested mid); [apply perm_same, Permutation_map, Hp| |exact Hr].
      intros x0 y0 Hxy. rewrite (reordered_name _ _ Hxy). reflexivity. }
  split; [exact Hd|]. rewrite (add_msg_eq p n nested), (add_msg_eq p n nested'). cbn [snd]. fold local.
  apply dict_app; [|apply dict_app; [apply dict_perm; reflexivity|]].
  - rewrite !map_map. eapply dict_trans with (b := concat (map (fun m => snd (toposort_add_msg local m)) mid)).
    + apply dict_concat. eapply Forall2_maps; [|exact IH]. intros x y Hxy. apply (Hxy local).
    + apply dict_perm, perm_concat, Permutation_map, Hp.
  - eexists. split; [|reflexivity]. constructor; [|constructor]. split; [reflexivity|exact Hd].
Qed.

Lemma data_reordered c ms ms' : (exists mid, Forall2 reordered ms mid /\ Permutation mid ms') ->
  same_dictionary (concat (map (fun m => snd (toposort_add_msg c m)) ms)) (concat (map (fun m => snd (toposort_add_msg c m)) ms')).
Proof.
  intros (mid & Hr & Hp). eapply dict_trans with (b := concat (map (fun m => snd (toposort_add_msg c m)) mid)).
  - apply dict_concat. eapply Forall2_maps; [|exact Hr]. intros x y Hxy. apply (add_msg_reordered _ _ Hxy).
  - apply dict_perm, perm_concat, Permutation_map, Hp.
Qed.

(** ** The sorted definitions *)
Lemma sorted_index_found c n order : forall i d, (exists x, In x order /\ strip c x = n) ->
  exists k x, sorted_index c n order i d = (i + k)%nat /\ nth_error order k = Some x /\ strip c x = n.
Proof.
  induction order as [|y order IH]; intros i d (x & Hx & E); [destruct Hx|]. cbn [sorted_index].
  destruct (in_dec text_dec n (map (strip c) order)) as [Hi|Hi].
  - apply in_map_iff in Hi. destruct Hi as (z & Ez & Hz). destruct (IH (S i) (if text_eqb n (strip c y) then i else d)) as (k & w & H1 & H2 & H3).
    + exists z. split; assumption.
    + exists (S k), w. split; [rewrite H1; lia|]. split; assumption.
  - rewrite sorted_index_none.
    + destruct Hx as [->|Hx]; [|destruct Hi; apply in_map_iff; exists x; split; assumption].
      exists 0%nat, x. rewrite <- E, text_eqb_refl. split; [lia|]. split; reflexivity.
    + intros z Hz Ez. apply Hi. apply in_map_iff. exists z. split; assumption.
Qed.

Lemma sorted_index_inj c n n' order : (exists x, In x order /\ strip c x = n) -> (exists x, In x order /\ strip c x = n') ->
  sorted_index c n order 0 0 = sorted_index c n' order 0 0 -> n = n'.
Proof.
  intros H H' E. destruct (sorted_index_found c n order 0 0 H) as (k & x & E1 & E2 & E3).
  destruct (sorted_index_found c n' order 0 0 H') as (k' & x' & E1' & E2' & E3'). assert (k = k') by lia. subst k'. congruence.
Qed.

(** All names of messages are found in the order. *)
Fixpoint covers (order : list text) (c : path) (m : pmsg) : Prop :=
  match m with
  | PMsg n nested _ _ _ =>
      (exists x, In x order /\ strip c x = n) /\ NoDup (map p_name nested)
      /\ (fix all ms := match ms with [] => True | m' :: ms' => covers order (c ++ [n]) m' /\ all ms' end) nested
  end.
Lemma covers_eq order c n nested enums fields oneofs : covers order c (PMsg n nested enums fields oneofs) <->
  (exists x, In x order /\ strip c x = n) /\ NoDup (map p_name nested) /\ Forall (covers order (c ++ [n])) nested.
Proof.
  cbn [covers]. assert (E : forall ms, (fix all ms := match ms with [] => True | m' :: ms' => covers order (c ++ [n]) m' /\ all ms' end) ms
    <-> Forall (covers order (c ++ [n])) ms).
  { induction ms as [|a ms IH]; [split; constructor|]. rewrite Forall_cons_iff, IH. reflexivity. }
  rewrite E. reflexivity.
Qed.
Lemma covers_name order c m : covers order c m -> exists x, In x order /\ strip c x = p_name m.
Proof. destruct m. rewrite covers_eq. intros [H _]. exact H. Qed.

Lemma sort_pmsgs_perm order c ms ms' : (forall m, In m ms -> exists x, In x order /\ strip c x = p_name m) ->
  NoDup (map p_name ms) -> Permutation ms ms' -> sort (leb_index order c) ms = sort (leb_index order c) ms'.
Proof.
  intros Hf Hn Hp. apply sort_perm; [| |exact Hp|].
  - intros x y. unfold leb_index. destruct (Nat.leb_spec (sorted_index c (p_name x) order 0 0) (sorted_index c (p_name y) order 0 0)); [left; reflexivity|right].
    apply Nat.leb_le. lia.
  - intros x y z. unfold leb_index. rewrite !Nat.leb_le. lia.
  - intros x y Hx Hy. unfold leb_index. rewrite !Nat.leb_le. intros H1 H2. assert (E : p_name x = p_name y).
    { eapply sorted_index_inj; [apply Hf; exact Hx|apply Hf; exact Hy|lia]. }
    clear - Hn Hx Hy E. induction ms as [|a ms IH]; [destruct Hx|]. cbn in Hn. apply NoDup_cons_iff in Hn. destruct Hn as [Ha Hn].
    destruct Hx as [->|Hx], Hy as [->|Hy]; [reflexivity| | |apply IH; assumption].
    + destruct Ha. rewrite E. apply in_map. exact Hy.
    + destruct Ha. rewrite <- E. apply in_map. exact Hx.
Qed.

Lemma sort_reordered order m m' : reordered m m' -> forall c, covers order c m -> sort_pmsg order c m = sort_pmsg order c m'.
Proof.
  induction 1 as [n enums fields oneofs nested mid nested' Hr IH Hp] using reordered_induction. intros c Hc.
  rewrite covers_eq in Hc. destruct Hc as (_ & Hn & Hc). cbn [sort_pmsg]. f_equal.
  assert (E : map (sort_pmsg order (c ++ [n])) nested = map (sort_pmsg order (c ++ [n])) mid).
  { clear - IH Hc. induction IH as [|x y l l' H1 H2 IHl]; [reflexivity|]. apply Forall_cons_iff in Hc. destruct Hc as [H3 Hc]. cbn.
    rewrite (H1 _ H3), (IHl Hc). reflexivity. }
  rewrite E. apply sort_pmsgs_perm; [| |apply Permutation_map; exact Hp].
  - rewrite <- E. intros a Ha. apply in_map_iff in Ha. destruct Ha as (b & <- & Hb). rewrite sort_pmsg_name.
    rewrite Forall_forall in Hc. apply covers_name. apply Hc. exact Hb.
  - rewrite <- E, map_map. erewrite map_ext; [exact Hn|]. intros a. apply sort_pmsg_name.
Qed.

Lemma nested_names p m : NoDup (type_names p m) -> NoDup (map p_name (p_nested m)) /\ Forall (fun a => NoDup (type_names (p ++ [p_name m]) a)) (p_nested m).
Proof.
  destruct m as [n nested enums fields oneofs]. cbn [type_names p_nested p_name]. intros H. apply NoDup_cons_iff in H. destruct H as [_ H].
  apply NoDup_app_remove_l in H. split.
  - clear - H. induction nested as [|a l IH]; cbn in *; [constructor|]. constructor.
    + intros Hi. apply in_map_iff in Hi. destruct Hi as (b & E & Hb).
      assert (Ha : In ((p ++ [n]) ++ [p_name a]) (type_names (p ++ [n]) a)) by (eapply type_names_inside; apply inside_self).
      assert (Hb' : In ((p ++ [n]) ++ [p_name a]) (concat (map (type_names (p ++ [n])) l))).
      { apply in_concat. eexists. split; [apply in_map; exact Hb|]. rewrite <- E. eapply type_names_inside. apply inside_self. }
      apply in_split in Ha. destruct Ha as (l1 & l2 & Ea). rewrite Ea, <- app_assoc in H. apply NoDup_remove_2 in H.
      apply H. apply in_or_app. right. apply in_or_app. right. exact Hb'.
    + apply IH. apply NoDup_app_remove_l in H. exact H.
  - apply Forall_forall. intros a Ha. eapply NoDup_concat_in; [exact H|]. apply in_map. exact Ha.
Qed.

Lemma remove_first_keep x z l : In z l -> z <> x -> In z (remove_first x l).
Proof.
  induction l as [|y l IH]; intros Hi Hne; [destruct Hi|]. cbn. destruct (text_eqb x y) eqn:E.
  - apply text_eqb_eq in E. subst y. destruct Hi as [->|Hi]; [contradiction|exact Hi].
  - destruct Hi as [->|Hi]; [left; reflexivity|right; apply IH; assumption].
Qed.

Lemma covers_all order m : forall c, (forall s m', inside c m s m' -> In (dotted s) order /\ dotfree (p_name m')) -> NoDup (type_names c m) ->
  covers order c m.
Proof.
  induction m as [n nested enums fields oneofs IH] using pmsg_induction. intros c Hin Hn. rewrite covers_eq.
  destruct (nested_names _ _ Hn) as [Hn1 Hn2]. cbn [p_nested p_name] in Hn1, Hn2. split; [|split; [exact Hn1|]].
  - destruct (Hin _ _ (inside_self c (PMsg n nested enums fields oneofs))) as [H1 H2]. cbn [p_name] in H1, H2. exists (dotted (c ++ [n])).
    split; [exact H1|]. apply strip_self. exact H2.
  - rewrite Forall_forall in *. intros a Ha. apply IH; [exact Ha| |apply Hn2; exact Ha].
    intros s m' Hs. apply Hin. eapply inside_nested; eassumption.
Qed.

Lemma concat_names p ms : NoDup (concat (map (type_names p) ms)) -> NoDup (map p_name ms) /\ Forall (fun a => NoDup (type_names p a)) ms.
Proof.
  intros H. split.
  - induction ms as [|a l IH]; cbn in *; [constructor|]. constructor.
    + intros Hi. apply in_map_iff in Hi. destruct Hi as (b & E & Hb).
      assert (Ha : In (p ++ [p_name a]) (type_names p a)) by (eapply type_names_inside; apply inside_self).
      assert (Hb' : In (p ++ [p_name a]) (concat (map (type_names p) l))).
      { apply in_concat. eexists. split; [apply in_map; exact Hb|]. rewrite <- E. eapply type_names_inside. apply inside_self. }
      apply in_split in Ha. destruct Ha as (l1 & l2 & Ea). rewrite Ea, <- app_assoc in H. apply NoDup_remove_2 in H.
      apply H. apply in_or_app. right. apply in_or_app. right. exact Hb'.
    + apply IH. apply NoDup_app_remove_l in H. exact H.
  - apply Forall_forall. intros a Ha. eapply NoDup_concat_in; [exact H|]. apply in_map. exact Ha.
Qed.

Lemma sort_file_reordered request f f' : legal request -> In f request -> file_reordered f f' -> sort_file f' = sort_file f.
Proof.
  intros Hl Hf (E1 & E2 & Hr). unfold sort_file. rewrite E1.
  rewrite <- (toposort_same _ _ (data_reordered (p_package f) _ _ Hr)).
  destruct (toposort_flatten _) as [order0|] eqn:Et; [|reflexivity]. f_equal.
  set (order := match p_package f with [] => _ | _ => _ end). destruct Hr as (mid & Hr & Hp).
  pose proof (file_names _ _ Hl Hf) as Hn.
  assert (Hids : forall T, In T (file_type_names f) -> Forall identifier T).
  { intros T HT. apply (legal_ids _ _ Hl). apply in_concat. eexists. split; [apply in_map; exact Hf|exact HT]. }
  pose proof (file_package _ _ Hl Hf) as Hpk.
  assert (Hkeys : NoDup (map fst (concat (map (fun m => snd (toposort_add_msg (p_package f) m)) (p_msgs f))))).
  { assert (P : Permutation (map fst (concat (map (fun m => snd (toposort_add_msg (p_package f) m)) (p_msgs f)))) (map dotted (concat (map (type_names (p_package f)) (p_msgs f))))).
    { rewrite !concat_map, !map_map. apply concat_perm. clear. induction (p_msgs f) as [|m ms IH]; cbn; [constructor|constructor; [apply add_msg_keys|exact IH]]. }
    eapply Permutation_NoDup; [apply Permutation_sym, P|].
    assert (Hi : forall T, In T (concat (map (type_names (p_package f)) (p_msgs f))) -> Forall dotfree T).
    { intros T HT. apply ids_dotfree. apply Hids. unfold file_type_names. apply in_or_app. right. exact HT. }
    clear P. revert Hi Hn. generalize (concat (map (type_names (p_package f)) (p_msgs f))). intros l Hi Hd.
    induction Hd as [|T l HT Hd IH]; cbn; constructor.
    - intros H. apply in_map_iff in H. destruct H as (T' & E & HT'). apply dotted_inj in E; [congruence| |]; apply Hi; [right; exact HT'|left; reflexivity].
    - apply IH. intros T' HT'. apply Hi. right. exact HT'. }
  assert (Ho : forall s m, file_message f s m -> In (dotted s) order /\ dotfree (p_name m)).
  { intros s m Hm. pose proof (Hids _ (file_message_name _ _ _ Hm)) as Hi. split.
    - assert (H0 : In (dotted s) order0).
      { apply (toposort_flatten_ok _ _ Hkeys Et). left. destruct Hm as (top & Ht & Hs). apply inside_entry in Hs. destruct Hs as (q & _ & Hs).
        eapply In_fst. apply in_concat. eexists. split; [|exact Hs]. apply in_map_iff. exists top. split; [reflexivity|exact Ht]. }
      unfold order. destruct (p_package f) as [|x pk] eqn:Epk; [exact H0|]. apply remove_first_keep; [exact H0|]. rewrite <- Epk in *. intros E.
      apply dotted_inj in E; [|apply ids_dotfree; exact Hi|apply ids_dotfree; exact Hpk].
      destruct Hm as (top & _ & Hs). apply inside_prefix in Hs. destruct Hs as [r Er]. rewrite Er in E. apply (f_equal (@length _)) in E.
      rewrite !app_length in E. cbn in E. lia.
    - destruct Hm as (top & _ & Hs). apply inside_parent in Hs. destruct Hs as (q & -> & _). apply Forall_app in Hi. destruct Hi as [_ Hi].
      inversion Hi as [|? ? [_ H] _]. exact H. }
  destruct (concat_names _ _ Hn) as [Hn1 Hn2].
  assert (Hc : Forall (covers order (p_package f)) (p_msgs f)).
  { apply Forall_forall. intros m Hm. apply covers_all; [|rewrite Forall_forall in Hn2; apply Hn2; exact Hm].
    intros s m' Hs. apply Ho. exists m. split; assumption. }
  assert (E : forall ms, map (sort_nested order) (sort_definitions (p_package f) order (map (define (p_package f)) ms))
              = map (define (p_package f)) (sort (leb_index order (p_package f)) (map (sort_pmsg order (p_package f)) ms))).
  { intros ms. rewrite sort_definitions_define. rewrite (sort_map (sort_pmsg order (p_package f)) _ (leb_index order (p_package f))).
    - rewrite !map_map. apply map_ext. intros m. apply sort_nested_define.
    - intros x y. unfold leb_index. rewrite !sort_pmsg_name. reflexivity. }
  rewrite !E. f_equal. clear E.
  assert (E : map (sort_pmsg order (p_package f)) (p_msgs f) = map (sort_pmsg order (p_package f)) mid).
  { clear - Hr Hc. induction Hr as [|x y l l' H1 H2 IHl]; [reflexivity|]. apply Forall_cons_iff in Hc. destruct Hc as [H3 Hc]. cbn.
    rewrite (sort_reordered _ _ _ H1 _ H3), (IHl Hc). reflexivity. }
  rewrite E. symmetry. apply sort_pmsgs_perm; [| |apply Permutation_map; exact Hp].
  - rewrite <- E. intros a Ha. apply in_map_iff in Ha. destruct Ha as (b & <- & Hb). rewrite sort_pmsg_name.
    rewrite Forall_forall in Hc. apply covers_name. apply Hc. exact Hb.
  - rewrite <- E, map_map. erewrite map_ext; [exact Hn1|]. intros a. apply sort_pmsg_name.
Qed.

Lemma Forall2_In_l {A B} (P : A -> B -> Prop) l l' : Forall2 P l l' -> Forall2 (fun a b => In a l /\ P a b) l l'.
Proof.
  intros H. assert (Hi : forall k, incl l k -> Forall2 (fun a b => In a k /\ P a b) l l').
  { induction H as [|x y l l' H1 H2 IH]; intros k Hk; constructor.
    - split; [apply Hk; left; reflexivity|exact H1].
    - apply IH. intros a Ha. apply Hk. right. exact Ha. }
  apply Hi, incl_refl.
Qed.

Theorem generate_reordered limit request request' : legal request -> Forall2 file_reordered request request' ->
  generate limit request' = generate limit request.
Proof.
  intros Hl H. unfold generate.
  assert (E1 : map sort_file request' = map sort_file request).
  { symmetry. eapply Forall2_map_eq; [|apply Forall2_In_l, H]. intros f f' [Hf Hr]. symmetry. eapply sort_file_reordered; eassumption. }
  assert (E2 : map (fun f => map (fun e => p_package f ++ [e]) (p_enums f)) request' = map (fun f => map (fun e => p_package f ++ [e]) (p_enums f)) request).
  { symmetry. eapply Forall2_map_eq; [|exact H]. intros f f' (Ep & Ee & _). rewrite Ep, Ee. reflexivity. }
  assert (E3 : forall css, map (fun '(f, cs) => {| h_package := p_package f; h_enums := p_enums f; h_classes := cs |}) (combine request' css)
               = map (fun '(f, cs) => {| h_package := p_package f; h_enums := p_enums f; h_classes := cs |}) (combine request css)).
  { clear - H. induction H as [|f f' l l' (Ep & Ee & _) Hl IH]; intros [|cs css]; cbn; try reflexivity. rewrite Ep, Ee, IH. reflexivity. }
  rewrite E1, E2. destruct (sequence _) as [files|]; [|reflexivity]. destruct (forallb _ _); [|reflexivity].
  destruct (register_passes _ _ _ _) as [[] st]; [|reflexivity]. destruct (sequence _) as [css|]; [|reflexivity]. rewrite E3. reflexivity.
Qed.
