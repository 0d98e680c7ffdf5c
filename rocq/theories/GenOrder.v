(** * GenOrder: proofs about names and the order of the classes. *)
From Coq Require Import String.
From Verif Require Import Base Schema Printf Generator SpecGenerator.
From Coq Require Import List Permutation ZifyBool ZifyNat Lia.

(** ** Equality tests *)

Lemma text_eqb_eq a b : text_eqb a b = true <-> a = b.
Proof. unfold text_eqb. destruct (text_dec a b); split; congruence. Qed.
Lemma text_eqb_refl a : text_eqb a a = true.
Proof. apply text_eqb_eq. reflexivity. Qed.
Lemma path_eqb_eq a b : path_eqb a b = true <-> a = b.
Proof. unfold path_eqb. destruct (path_dec a b); split; congruence. Qed.
Lemma mem_In a l : mem a l = true <-> In a l.
Proof.
  unfold mem. rewrite existsb_exists. split.
  - intros [x [H E]]. apply text_eqb_eq in E. subst. exact H.
  - intros H. exists a. split; [exact H|apply text_eqb_refl].
Qed.
Lemma mem_not_In a l : negb (mem a l) = true <-> ~ In a l.
Proof. rewrite <- mem_In. destruct (mem a l); cbn; split; intuition congruence. Qed.

(** ** Order *)

Lemma before_app_l {A} (l l' : list A) x y : before l x y -> before (l ++ l') x y.
Proof. intros (a & b & c & ->). exists a, b, (c ++ l'). repeat (rewrite <- app_assoc; cbn). reflexivity. Qed.
Lemma before_app_r {A} (l l' : list A) x y : before l' x y -> before (l ++ l') x y.
Proof. intros (a & b & c & ->). exists (l ++ a), b, c. rewrite <- app_assoc. reflexivity. Qed.
Lemma before_app {A} (l l' : list A) x y : In x l -> In y l' -> before (l ++ l') x y.
Proof.
  intros Hx Hy. apply in_split in Hx, Hy. destruct Hx as (a & b & ->), Hy as (c & d & ->).
  exists a, (b ++ c), d. repeat (rewrite <- app_assoc; cbn). reflexivity.
Qed.
Lemma before_cons {A} (l : list A) x y : In y l -> before (x :: l) x y.
Proof. intros H. apply (before_app [x] l); [left; reflexivity|exact H]. Qed.
Lemma before_tl {A} (l : list A) z x y : before l x y -> before (z :: l) x y.
Proof. intros H. apply (before_app_r [z] l). exact H. Qed.
Lemma before_In {A} (l : list A) x y : before l x y -> In x l /\ In y l.
Proof.
  intros (a & b & c & ->). split; apply in_or_app; right; cbn; [left; reflexivity|].
  right. apply in_or_app. right. left. reflexivity.
Qed.
Lemma before_inv {A} (l : list A) z x y : before (z :: l) x y -> (z = x /\ In y l) \/ before l x y.
Proof.
  intros (a & b & c & E). destruct a as [|w a]; cbn in E; injection E as -> ->.
  - left. split; [reflexivity|]. apply in_or_app. right. left. reflexivity.
  - right. exists a, b, c. reflexivity.
Qed.
Lemma before_trans {A} (l : list A) x y z : NoDup l -> before l x y -> before l y z -> before l x z.
Proof.
  induction l as [|w l IH]; intros Hn H1 H2.
  - apply before_In in H1. destruct H1 as [[] _].
  - inversion Hn as [|? ? Hw Hl]; subst.
    apply before_inv in H1. apply before_inv in H2. destruct H1 as [[-> H1]|H1], H2 as [[E H2]|H2].
    + subst. apply before_cons. exact H2.
    + apply before_cons. apply before_In in H2. apply H2.
    + subst. apply before_In in H1. destruct H1; contradiction.
    + apply before_tl. apply IH; assumption.
Qed.
Lemma before_neq {A} (l : list A) x y : NoDup l -> before l x y -> x <> y.
Proof.
  intros Hn (a & b & c & ->) ->. apply NoDup_remove_2 in Hn.
  apply Hn. apply in_or_app. right. apply in_or_app. right. left. reflexivity.
Qed.

(** ** Sorting *)

Section Sort.
  Context {A : Type} (leb : A -> A -> bool).
  Hypothesis total : forall x y, leb x y = false -> leb y x = true.
  Hypothesis trans : forall x y z, leb x y = true -> leb y z = true -> leb x z = true.

  Lemma insert_perm x l : Permutation (x :: l) (insert leb x l).
  Proof.
    induction l as [|y l IH]; cbn; [reflexivity|]. destruct (leb x y); [reflexivity|].
    rewrite perm_swap. constructor. exact IH.
  Qed.
  Lemma sort_perm l : Permutation l (sort leb l).
  Proof.
    induction l as [|x l IH]; cbn; [constructor|].
    rewrite <- insert_perm. constructor. exact IH.
  Qed.

  Fixpoint ordered (l : list A) : Prop :=
    match l with
    | [] => True
    | x :: l' => Forall (fun y => leb x y = true) l' /\ ordered l'
    end.
  Lemma insert_ordered x l : ordered l -> ordered (insert leb x l).
  Proof.
    induction l as [|y l IH]; cbn; [intuition|]. intros [H1 H2]. destruct (leb x y) eqn:E; cbn.
    - split; [|split; assumption]. constructor; [exact E|].
      revert H1. apply Forall_impl. intros z. apply trans. exact E.
    - split; [|apply IH; exact H2]. apply (Permutation_Forall (insert_perm x l)).
      constructor; [apply total; exact E|exact H1].
  Qed.
  Lemma sort_ordered l : ordered (sort leb l).
  Proof. induction l as [|x l IH]; cbn; [exact I|]. apply insert_ordered. exact IH. Qed.

  Lemma ordered_before l x y : ordered l -> In x l -> In y l -> leb y x = false -> before l x y.
  Proof.
    induction l as [|z l IH]; cbn; [intros _ []|]. intros [H1 H2] [->|Hx] [->|Hy] E.
    - rewrite (total _ _ E) in E. discriminate.
    - apply before_cons. exact Hy.
    - rewrite Forall_forall in H1. rewrite (H1 _ Hx) in E. discriminate.
    - apply before_tl. apply IH; assumption.
  Qed.
  Lemma sort_before l x y : In x l -> In y l -> leb y x = false -> before (sort leb l) x y.
  Proof.
    intros Hx Hy E. apply ordered_before; [apply sort_ordered| | |exact E];
      eapply Permutation_in; try apply sort_perm; assumption.
  Qed.
End Sort.

Lemma sort_In {A} (leb : A -> A -> bool) l x : In x (sort leb l) <-> In x l.
Proof.
  split; intros H.
  - eapply Permutation_in; [apply Permutation_sym, (sort_perm leb)|exact H].
  - eapply Permutation_in; [apply (sort_perm leb)|exact H].
Qed.

(** ** toposort *)

Lemma NoDup_app_remove_l {A} (l l' : list A) : NoDup (l ++ l') -> NoDup l'.
Proof. induction l as [|x l IH]; cbn; intros H; [exact H|]. inversion H; subst. auto. Qed.
Lemma NoDup_app_remove_r {A} (l l' : list A) : NoDup (l ++ l') -> NoDup l.
Proof.
  induction l as [|x l IH]; cbn; intros H; [constructor|]. inversion H; subst. constructor; [|auto].
  intros Hi. apply H2. apply in_or_app. left. exact Hi.
Qed.
Lemma NoDup_app {A} (l l' : list A) : NoDup l -> NoDup l' -> (forall x, In x l -> In x l' -> False) -> NoDup (l ++ l').
Proof.
  induction l as [|x l IH]; cbn; intros H1 H2 H3; [exact H2|]. inversion H1; subst. constructor.
  - rewrite in_app_iff. intros [H|H]; [contradiction|]. eapply H3; [left; reflexivity|exact H].
  - apply IH; auto. intros y Ha Hb. eapply H3; [right; exact Ha|exact Hb].
Qed.

Lemma NoDup_map_filter {A B} (f : A -> B) (p : A -> bool) l : NoDup (map f l) -> NoDup (map f (filter p l)).
Proof.
  induction l as [|x l IH]; cbn; intros H; [constructor|]. inversion H; subst.
  destruct (p x); cbn; [constructor|]; auto.
  intros Hi. apply H2. apply in_map_iff in Hi. destruct Hi as (y & E & Hy). apply filter_In in Hy.
  rewrite <- E. apply in_map. apply Hy.
Qed.
Lemma In_fst {A B} (l : list (A * B)) k v : In (k, v) l -> In k (map fst l).
Proof. intros H. apply (in_map fst) in H. exact H. Qed.
Lemma NoDup_keys_eq {A B} (l : list (A * B)) k v v' :
  NoDup (map fst l) -> In (k, v) l -> In (k, v') l -> v = v'.
Proof.
  induction l as [|[a b] l IH]; cbn; [intros _ []|]. intros Hn [E|H] [E'|H']; inversion Hn; subst.
  - congruence.
  - injection E as -> ->. apply In_fst in H'. contradiction.
  - injection E' as -> ->. apply In_fst in H. contradiction.
  - auto.
Qed.

Lemma toposort_loop_ok fuel : forall data order, NoDup (map fst data) -> toposort_loop fuel data = Some order ->
  NoDup order
  /\ (forall k, In k order <-> In k (map fst data))
  /\ (forall k ds d, In (k, ds) data -> In d ds -> before order d k).
Proof.
  induction fuel as [|fuel IH]; intros data order Hn H; cbn [toposort_loop] in H; [discriminate|].
  set (free := map fst (filter (fun '(_, ds) => match ds with [] => true | _ => false end) data)) in *.
  assert (Hf : forall k, In k free <-> In (k, []) data).
  { intros k. unfold free. rewrite in_map_iff. split.
    - intros [[k' ds] [E Hi]]. cbn in E. subst k'. apply filter_In in Hi. destruct Hi as [Hi Hd].
      destruct ds; [exact Hi|discriminate].
    - intros Hi. exists (k, []). split; [reflexivity|]. apply filter_In. split; [exact Hi|reflexivity]. }
  assert (Hfn : NoDup free) by (apply NoDup_map_filter; exact Hn).
  clearbody free. assert (Ef : free = [] \/ free <> []) by (destruct free; [left; reflexivity|right; discriminate]).
  destruct Ef as [->|Ef].
  - destruct data; [|discriminate]. injection H as <-. split; [constructor|]. split; [intros; reflexivity|intros ? ? ? []].
  - destruct free as [|k0 ks]; [contradiction|]. set (free := k0 :: ks) in *. clearbody free. clear Ef k0 ks.
    set (data' := map (fun '(k, ds) => (k, filter (fun d => negb (mem d free)) ds)) (filter (fun '(k, _) => negb (mem k free)) data)) in *.
    destruct (toposort_loop fuel data') as [rest|] eqn:Er; [|discriminate]. injection H as <-.
    assert (Ek : map fst data' = map fst (filter (fun '(k, _) => negb (mem k free)) data)).
    { unfold data'. rewrite map_map. apply map_ext. intros [? ?]. reflexivity. }
    assert (Hn' : NoDup (map fst data')) by (rewrite Ek; apply NoDup_map_filter; exact Hn).
    destruct (IH _ _ Hn' Er) as (R1 & R2 & R3). clear IH Er.
    assert (Hk : forall k, In k (map fst data') <-> In k (map fst data) /\ ~ In k free).
    { intros k. rewrite Ek. rewrite !in_map_iff. split.
      - intros [[k' ds] [E Hi]]. cbn in E. subst k'. apply filter_In in Hi. destruct Hi as [Hi Hm].
        apply mem_not_In in Hm. split; [|exact Hm]. exists (k, ds). split; [reflexivity|exact Hi].
      - intros [[[k' ds] [E Hi]] Hm]. cbn in E. subst k'. exists (k, ds). split; [reflexivity|].
        apply filter_In. split; [exact Hi|]. apply mem_not_In. exact Hm. }
    split; [|split].
    + apply NoDup_app.
      * eapply Permutation_NoDup; [apply sort_perm|exact Hfn].
      * exact R1.
      * intros k H1 H2. apply sort_In in H1. apply R2, Hk in H2. intuition.
    + intros k. rewrite in_app_iff, sort_In, R2, Hk. split.
      * intros [H|[H _]]; [|exact H]. apply Hf in H. eapply In_fst. exact H.
      * intros H. destruct (in_dec text_dec k free); [left|right]; intuition.
    + intros k ds d Hi Hd.
      assert (Hkf : ~ In k free).
      { intros Hc. apply Hf in Hc. pose proof (NoDup_keys_eq _ _ _ _ Hn Hi Hc). subst. destruct Hd. }
      assert (Hi' : In (k, filter (fun d => negb (mem d free)) ds) data').
      { unfold data'. apply in_map_iff. exists (k, ds). split; [reflexivity|]. apply filter_In.
        split; [exact Hi|]. apply mem_not_In. exact Hkf. }
      destruct (in_dec text_dec d free) as [Hdf|Hdf].
      * apply before_app; [apply sort_In; exact Hdf|]. apply R2. eapply In_fst. exact Hi'.
      * apply before_app_r. eapply R3; [exact Hi'|]. apply filter_In. split; [exact Hd|]. apply mem_not_In. exact Hdf.
Qed.

Lemma toposort_flatten_ok data order : NoDup (map fst data) -> toposort_flatten data = Some order ->
  NoDup order
  /\ (forall k, In k order <-> In k (map fst data) \/ exists k' ds, In (k', ds) data /\ In k ds)
  /\ (forall k ds d, In (k, ds) data -> In d ds -> d <> k -> before order d k).
Proof.
  intros Hn H. unfold toposort_flatten in H.
  set (data1 := map (fun '(k, ds) => (k, filter (fun d => negb (text_eqb d k)) ds)) data) in *.
  set (extra := nodup text_dec (filter (fun d => negb (mem d (map fst data1))) (concat (map snd data1)))) in *.
  assert (E1 : map fst data1 = map fst data).
  { unfold data1. rewrite map_map. apply map_ext. intros [? ?]. reflexivity. }
  assert (Hin : forall k ds d, In (k, ds) data -> In d ds -> d <> k -> exists ds', In (k, ds') data1 /\ In d ds').
  { intros k ds d Hi Hd Hne. exists (filter (fun d => negb (text_eqb d k)) ds). split.
    - unfold data1. apply in_map_iff. exists (k, ds). split; [reflexivity|exact Hi].
    - apply filter_In. split; [exact Hd|]. destruct (text_eqb d k) eqn:E; [|reflexivity].
      apply text_eqb_eq in E. contradiction. }
  assert (Hin' : forall k ds' d, In (k, ds') data1 -> In d ds' -> exists ds, In (k, ds) data /\ In d ds).
  { intros k ds' d Hi Hd. unfold data1 in Hi. apply in_map_iff in Hi. destruct Hi as ([k' ds] & E & Hi).
    injection E as -> <-. exists ds. split; [exact Hi|]. apply filter_In in Hd. apply Hd. }
  assert (He : forall k, In k extra <-> ~ In k (map fst data1) /\ exists k' ds, In (k', ds) data1 /\ In k ds).
  { intros k. unfold extra. rewrite nodup_In, filter_In, mem_not_In, in_concat. split.
    - intros [[ds [Hi Hd]] Hm]. split; [exact Hm|]. apply in_map_iff in Hi. destruct Hi as ([k' ds'] & E & Hi).
      cbn in E. subst ds'. exists k', ds. split; assumption.
    - intros [Hm (k' & ds & Hi & Hd)]. split; [|exact Hm]. exists ds. split; [|exact Hd].
      apply in_map_iff. exists (k', ds). split; [reflexivity|exact Hi]. }
  assert (Em : map fst (data1 ++ map (fun e => (e, [])) extra) = map fst data1 ++ extra).
  { rewrite map_app, map_map. f_equal. apply map_id. }
  apply toposort_loop_ok in H.
  - destruct H as (H1 & H2 & H3). split; [exact H1|]. split.
    + intros k. rewrite H2, Em, in_app_iff, E1. split.
      * intros [H|H]; [left; exact H|right]. apply He in H. destruct H as [_ (k' & ds & Hi & Hd)].
        destruct (Hin' _ _ _ Hi Hd) as (ds' & Hi' & Hd'). exists k', ds'. split; assumption.
      * intros [H|(k' & ds & Hi & Hd)]; [left; exact H|].
        destruct (in_dec text_dec k (map fst data)) as [|Hk]; [left; assumption|right]. apply He. rewrite E1.
        split; [exact Hk|]. assert (Hne : k <> k') by (intros ->; apply Hk; eapply In_fst; exact Hi).
        destruct (Hin _ _ _ Hi Hd Hne) as (ds' & Hi' & Hd'). exists k', ds'. split; assumption.
    + intros k ds d Hi Hd Hne. destruct (Hin _ _ _ Hi Hd Hne) as (ds' & Hi' & Hd').
      eapply H3; [apply in_or_app; left; exact Hi'|exact Hd'].
  - rewrite Em, E1. apply NoDup_app; [exact Hn|apply NoDup_nodup|].
    intros k H1 H2. apply He in H2. rewrite E1 in H2. intuition.
Qed.

(** ** Names *)

Lemma starts_with_spec pre s : starts_with pre s = true <-> exists r, s = pre ++ r.
Proof.
  revert s. induction pre as [|a pre IH]; intros s; cbn; [split; [eexists; reflexivity|reflexivity]|].
  destruct s as [|c s]; [split; [discriminate|intros [r H]; discriminate]|].
  rewrite andb_true_iff, Z.eqb_eq, IH. split.
  - intros [-> [r ->]]. exists r. reflexivity.
  - intros [r H]. injection H as -> ->. split; [reflexivity|exists r; reflexivity].
Qed.

Definition dotfree (n : text) : Prop := ~ In 46 n.
Definition stop (x : text) : Prop := x = [] \/ exists r, x = 46 :: r.

Lemma split_dot (a b x y : text) : dotfree a -> dotfree b -> stop x -> stop y -> a ++ x = b ++ y -> a = b /\ x = y.
Proof.
  unfold dotfree. revert b. induction a as [|c a IH]; intros [|d b] Ha Hb Hx Hy E; cbn in *.
  - split; [reflexivity|exact E].
  - exfalso. destruct Hx as [->|[r ->]]; [discriminate|]. injection E as <- _. apply Hb. left. reflexivity.
  - exfalso. destruct Hy as [->|[r ->]]; [discriminate|]. injection E as -> _. apply Ha. left. reflexivity.
  - injection E as <- E. destruct (IH b) as [-> ->]; intuition.
Qed.

Lemma dotted_cons n p : dotted (n :: p) = 46 :: n ++ dotted p.
Proof. reflexivity. Qed.
Lemma dotted_app p q : dotted (p ++ q) = dotted p ++ dotted q.
Proof. unfold dotted. rewrite map_app, concat_app. reflexivity. Qed.
Lemma dotted_stop p : stop (dotted p).
Proof. destruct p; [left; reflexivity|right]. rewrite dotted_cons. eexists. reflexivity. Qed.

Lemma dotted_inj p q : Forall dotfree p -> Forall dotfree q -> dotted p = dotted q -> p = q.
Proof.
  revert q. induction p as [|n p IH]; intros [|m q] Hp Hq E; [reflexivity|discriminate|discriminate|].
  inversion Hp; subst. inversion Hq; subst. rewrite !dotted_cons in E. injection E as E.
  apply split_dot in E; auto using dotted_stop. destruct E as [-> E]. f_equal. auto.
Qed.

Lemma dotted_prefix c p r : Forall dotfree c -> Forall dotfree p -> dotted p = dotted c ++ 46 :: r ->
  exists a rest, p = c ++ a :: rest /\ r = a ++ dotted rest.
Proof.
  revert p. induction c as [|n c IH]; intros p Hc Hp E.
  - destruct p as [|a rest]; [discriminate|]. rewrite dotted_cons in E. injection E as <-. exists a, rest. split; reflexivity.
  - destruct p as [|m p]; [discriminate|]. inversion Hc; subst. inversion Hp; subst.
    rewrite !dotted_cons in E. injection E as E. rewrite <- app_assoc in E. apply split_dot in E; auto using dotted_stop.
    + destruct E as [-> E]. destruct (IH p) as (a & rest & -> & ->); auto. exists a, rest. split; reflexivity.
    + destruct (dotted_stop c) as [->|[x ->]]; right; eexists; reflexivity.
Qed.

(** The pattern of [strip] starts with a dot and ends with one. *)
Lemma pattern_dot c : exists t, dotted c ++ chars "." = 46 :: t.
Proof. destruct c as [|n c]; [eexists; reflexivity|]. rewrite dotted_cons. eexists. reflexivity. Qed.

Lemma remove_all_keep pat s x : (exists t, pat = 46 :: t) -> dotfree s -> remove_all pat (s ++ x) 0 = s ++ remove_all pat x 0.
Proof.
  intros [t ->] H. induction s as [|a s IH]; [reflexivity|]. unfold dotfree in *. cbn [app remove_all].
  replace (starts_with (46 :: t) (a :: s ++ x)) with false.
  - f_equal. apply IH. intros Hi. apply H. right. exact Hi.
  - symmetry. cbn [starts_with]. destruct (46 =? a) eqn:E; [|reflexivity]. exfalso. apply H. left. lia.
Qed.
Lemma remove_all_skip pat s x k : (k = length s)%nat -> remove_all pat (s ++ x) k = remove_all pat x 0.
Proof.
  revert k. induction s as [|a s IH]; intros k ->; cbn [app length]; [reflexivity|]. cbn [remove_all]. apply IH. reflexivity.
Qed.
Lemma remove_all_hit pat x : (exists t, pat = 46 :: t) -> remove_all pat (pat ++ x) 0 = remove_all pat x 0.
Proof.
  intros [t ->]. assert (E : starts_with (46 :: t) ((46 :: t) ++ x) = true) by (apply starts_with_spec; eexists; reflexivity).
  cbn [app] in *. cbn [remove_all]. rewrite E. apply remove_all_skip. cbn. lia.
Qed.
Lemma remove_all_dot pat s : starts_with pat (46 :: s) = false -> In 46 (remove_all pat (46 :: s) 0).
Proof. intros E. cbn [remove_all]. rewrite E. left. reflexivity. Qed.

(** The own name. *)
Lemma strip_self c a : dotfree a -> strip c (dotted (c ++ [a])) = a.
Proof.
  intros Ha. unfold strip. rewrite dotted_app. change (dotted [a]) with (46 :: a ++ []). rewrite app_nil_r.
  replace (dotted c ++ 46 :: a) with ((dotted c ++ chars ".") ++ a).
  - rewrite remove_all_hit by apply pattern_dot. rewrite <- (app_nil_r a) at 1.
    rewrite remove_all_keep; [cbn; apply app_nil_r|apply pattern_dot|exact Ha].
  - rewrite <- app_assoc. reflexivity.
Qed.

(** Without a scope, all dots are removed. *)
Lemma strip_nil p : Forall dotfree p -> strip [] (dotted p) = concat p.
Proof.
  unfold strip. change (dotted [] ++ chars ".") with [46].
  induction p as [|n p IH]; intros H; [reflexivity|]. inversion H; subst.
  rewrite dotted_cons. change (46 :: n ++ dotted p) with ([46] ++ n ++ dotted p).
  rewrite remove_all_hit by (eexists; reflexivity).
  rewrite remove_all_keep; [|eexists; reflexivity|assumption]. cbn [concat]. f_equal. auto.
Qed.

(** With a scope, and no name twice in the path, only names in the scope give a name without dots. *)
Lemma strip_scope c p a : c <> [] -> Forall dotfree c -> Forall dotfree p -> NoDup p -> dotfree a -> a <> [] ->
  strip c (dotted p) = a -> p = c ++ [a].
Proof.
  intros Hc0 Hc Hp Hn Ha Ha0 E. unfold strip in E.
  destruct p as [|n p]; [cbn in E; congruence|].
  destruct (starts_with (dotted c ++ chars ".") (dotted (n :: p))) eqn:S.
  - apply starts_with_spec in S. destruct S as [r S]. rewrite <- app_assoc in S.
    change (chars "." ++ r) with (46 :: r) in S.
    destruct (dotted_prefix c (n :: p) r Hc Hp S) as (b & rest & Ep & ->). rewrite S in E.
    replace (dotted c ++ 46 :: b ++ dotted rest) with ((dotted c ++ chars ".") ++ b ++ dotted rest) in E
      by (rewrite <- app_assoc; reflexivity).
    rewrite (remove_all_hit _ (b ++ dotted rest) (pattern_dot c)) in E.
    rewrite Ep in Hp. apply Forall_app in Hp. destruct Hp as [_ Hp]. inversion Hp as [|? ? Hb Hr]; subst.
    rewrite remove_all_keep in * by (try apply pattern_dot; exact Hb).
    destruct rest as [|m rest]; [rewrite Ep; cbn; rewrite app_nil_r; reflexivity|].
    exfalso. destruct (starts_with (dotted c ++ chars ".") (dotted (m :: rest))) eqn:S'.
    + apply starts_with_spec in S'. destruct S' as [r S']. rewrite <- app_assoc in S'.
      change (chars "." ++ r) with (46 :: r) in S'.
      destruct (dotted_prefix c (m :: rest) r Hc Hr S') as (b' & rest' & Er & _).
      destruct c as [|x c]; [contradiction|]. rewrite Ep in Hn. rewrite Er in Hn.
      cbn in Hn. inversion Hn as [|? ? Hx _]; subst. apply Hx. apply in_or_app. right. right. left. reflexivity.
    + apply Ha. rewrite dotted_cons in *. apply in_or_app. right. apply remove_all_dot. exact S'.
  - exfalso. apply Ha. rewrite <- E. rewrite dotted_cons in *. apply remove_all_dot. exact S.
Qed.

(** A text without dots stays as it is. *)
Lemma strip_dotfree c x : dotfree x -> strip c x = x.
Proof.
  intros H. unfold strip. rewrite <- (app_nil_r x) at 1. rewrite remove_all_keep; [cbn; apply app_nil_r|apply pattern_dot|exact H].
Qed.
