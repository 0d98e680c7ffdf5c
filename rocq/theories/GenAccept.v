(** * GenAccept: which requests the generator accepts. *)
From Coq Require Import String.
From Verif Require Import Base Schema Printf Generator SpecGenerator GenOrder GenSort GenReg GenRender GenTypes GenOnce GenNames GenProps GenTopo.
From Coq Require Import List Permutation ZifyBool ZifyNat Lia.

(** ** Messages and their names *)

Lemma inside_names p m s m' : inside p m s m' -> In s (type_names p m).
Proof. intros H. eapply type_names_type_in; [exact H|left; reflexivity]. Qed.
Lemma inside_unique m : forall p s m1 m2, NoDup (type_names p m) -> inside p m s m1 -> inside p m s m2 -> m1 = m2.
Proof.
  induction m as [n nested enums fields oneofs IH] using pmsg_induction. intros p s m1 m2 Hn H1 H2.
  cbn [type_names] in Hn. inversion Hn as [|? ? Hno Hn']; subst.
  assert (Hself : forall a m', In a nested -> inside (p ++ [n]) a (p ++ [n]) m' -> False).
  { intros a m' Ha H. apply Hno. apply in_or_app. right. apply in_concat. eexists. split; [apply in_map; exact Ha|]. eapply inside_names. exact H. }
  apply inside_inv in H1, H2. cbn [p_name p_nested] in *.
  destruct H1 as [[-> ->]|(a & Ha & H1)], H2 as [[E ->]|(b & Hb & H2)]; [reflexivity|exfalso; eapply Hself; eassumption| |].
  - subst s. exfalso. eapply Hself; eassumption.
  - apply NoDup_app_remove_l in Hn'. assert (a = b).
    { eapply (NoDup_concat_eq (type_names (p ++ [n]))); [exact Hn'|exact Ha|exact Hb|eapply inside_names; exact H1|eapply inside_names; exact H2]. }
    subst b. rewrite Forall_forall in IH. eapply (IH a Ha); [|exact H1|exact H2]. eapply NoDup_concat_in; [exact Hn'|apply in_map; exact Ha].
Qed.
Lemma file_message_unique f s m1 m2 : NoDup (concat (map (type_names (p_package f)) (p_msgs f))) ->
  file_message f s m1 -> file_message f s m2 -> m1 = m2.
Proof.
  intros Hn (a & Ha & H1) (b & Hb & H2). assert (a = b).
  { eapply (NoDup_concat_eq (type_names (p_package f))); [exact Hn|exact Ha|exact Hb|eapply inside_names; exact H1|eapply inside_names; exact H2]. }
  subst b. eapply inside_unique; [|exact H1|exact H2]. eapply NoDup_concat_in; [exact Hn|apply in_map; exact Ha].
Qed.
Lemma inside_last p m s m' : inside p m s m' ->
  (s = p ++ [p_name m] /\ m' = m) \/ exists s0 m0, inside p m s0 m0 /\ In m' (p_nested m0) /\ s = s0 ++ [p_name m'].
Proof.
  induction 1 as [p m|p n nested enums fields oneofs a s m' Ha H IH]; [left; split; reflexivity|right].
  destruct IH as [[-> ->]|(s0 & m0 & Hi & Hm & ->)].
  - exists (p ++ [n]), (PMsg n nested enums fields oneofs). split; [apply (inside_self p (PMsg n nested enums fields oneofs))|]. split; [exact Ha|reflexivity].
  - exists s0, m0. split; [eapply inside_nested; eassumption|]. split; [exact Hm|reflexivity].
Qed.
Lemma child_in f K m x : NoDup (concat (map (type_names (p_package f)) (p_msgs f))) -> file_message f K m -> K <> p_package f ->
  In (K ++ [x]) (file_type_names f) -> In x (map p_name (p_nested m) ++ m_enums m).
Proof.
  intros Hn Hm HK HT. apply file_type_names_inv in HT. destruct HT as [(e & _ & E)|(X & mX & HX & [E|(e & He & E)])].
  - apply app_inj_tail in E. destruct E as [E _]. contradiction.
  - subst X. destruct HX as (top & Ht & Hi). apply inside_last in Hi. destruct Hi as [[E _]|(s0 & m0 & Hi & Hin & E)].
    + apply app_inj_tail in E. destruct E as [E _]. contradiction.
    + apply app_inj_tail in E. destruct E as [<- ->]. assert (m0 = m) by (eapply file_message_unique; [exact Hn|exists top; split; eassumption|exact Hm]).
      subst m0. apply in_or_app. left. apply in_map. exact Hin.
  - apply app_inj_tail in E. destruct E as [-> ->]. assert (mX = m) by (eapply file_message_unique; eassumption). subst mX.
    apply in_or_app. right. exact He.
Qed.

(** ** The entries of dependency_data *)

Definition local_names (s : path) (m : pmsg) : list text := map (fun x => dotted (s ++ [x])) (map p_name (p_nested m) ++ m_enums m).

Lemma deps_inv m : forall c d, In d (fst (toposort_add_msg c m)) ->
  d = dotted c \/ d = chars "FieldErrorRecursive" \/
  exists s m' g T, inside c m s m' /\ In g (m_fields m') /\ refers g T /\ T <> s /\ d = dotted T
    /\ (starts_with (dotted (c ++ [p_name m])) d = false \/ (s = c ++ [p_name m] /\ m' = m /\ ~ In d (local_names s m))).
Proof.
  induction m as [n nested enums fields oneofs IH] using pmsg_induction. intros c d H. rewrite Forall_forall in IH.
  rewrite add_msg_eq in H. cbn [fst] in H. apply in_app_or in H. destruct H as [[<-|[]]|H]; [left; reflexivity|].
  apply in_app_or in H. destruct H as [H|H]; apply filter_In in H; destruct H as [H Hno].
  - apply negb_true_iff in Hno. apply in_concat in H. destruct H as (l & Hl & H). rewrite map_map in Hl. apply in_map_iff in Hl. destruct Hl as (a & <- & Ha).
    destruct (IH a Ha _ _ H) as [->|[->|(s & m' & g & T & Hi & Hg & Hr & HT & -> & _)]].
    + exfalso. rewrite (proj2 (starts_with_spec _ _)) in Hno; [discriminate|]. exists []. rewrite app_nil_r. reflexivity.
    + right. left. reflexivity.
    + right. right. exists s, m', g, T. split; [eapply inside_nested; eassumption|]. split; [exact Hg|]. split; [exact Hr|]. split; [exact HT|].
      split; [reflexivity|]. left. exact Hno.
  - apply mem_not_In in Hno. apply in_concat in H. destruct H as (l & Hl & H). apply in_map_iff in Hl. destruct Hl as (g & <- & Hg).
    unfold type_name in H.
    assert (Hcase : forall ref, refers g ref -> In d [if path_eqb ref (c ++ [n]) then chars "FieldErrorRecursive" else dotted ref] ->
      d = dotted c \/ d = chars "FieldErrorRecursive" \/
      exists s m' g T, inside c (PMsg n nested enums fields oneofs) s m' /\ In g (m_fields m') /\ refers g T /\ T <> s /\ d = dotted T
      /\ (starts_with (dotted (c ++ [n])) d = false \/ (s = c ++ [n] /\ m' = PMsg n nested enums fields oneofs /\ ~ In d (local_names s (PMsg n nested enums fields oneofs))))).
    { intros ref Hr [E|[]]. destruct (path_eqb ref (c ++ [n])) eqn:Eq; [right; left; symmetry; exact E|]. right. right. subst d.
      exists (c ++ [n]), (PMsg n nested enums fields oneofs), g, ref. split; [apply (inside_self c (PMsg n nested enums fields oneofs))|].
      split; [exact Hg|]. split; [exact Hr|]. split; [intros ->; rewrite (proj2 (path_eqb_eq _ _) eq_refl) in Eq; discriminate|]. split; [reflexivity|].
      right. split; [reflexivity|]. split; [reflexivity|]. intros Hi. apply Hno. unfold local_names in Hi. rewrite map_app, map_map in Hi. exact Hi. }
    destruct (pf_type g) as [sc| | |ref|ref] eqn:Et; try (destruct H); apply (Hcase ref);
      first [left; exact Et|right; exact Et|left; assumption|contradiction].
Qed.

Lemma entries_inv m : forall c k ds, In (k, ds) (snd (toposort_add_msg c m)) -> exists X mX, inside c m X mX /\
  ((exists q, X = q ++ [p_name mX] /\ k = dotted X /\ ds = fst (toposort_add_msg q mX))
   \/ exists e, In e (m_enums mX) /\ k = dotted (X ++ [e]) /\ ds = [dotted X]).
Proof.
  induction m as [n nested enums fields oneofs IH] using pmsg_induction. intros c k ds H. rewrite Forall_forall in IH.
  pose proof (inside_self c (PMsg n nested enums fields oneofs)) as Hself. cbn [p_name] in Hself.
  rewrite add_msg_eq in H. cbn [snd] in H. apply in_app_or in H. destruct H as [H|H].
  - apply in_concat in H. destruct H as (l & Hl & H). rewrite map_map in Hl. apply in_map_iff in Hl. destruct Hl as (a & <- & Ha).
    destruct (IH a Ha _ _ _ H) as (X & mX & Hi & Hc). exists X, mX. split; [eapply inside_nested; eassumption|exact Hc].
  - apply in_app_or in H. destruct H as [H|[H|[]]].
    + apply in_map_iff in H. destruct H as (e & E & He). injection E as <- <-. eexists _, _. split; [exact Hself|]. right. exists e.
      split; [exact He|]. split; reflexivity.
    + injection H as <- <-. eexists _, _. split; [exact Hself|]. left. exists c. split; [reflexivity|]. split; [reflexivity|].
      rewrite add_msg_eq. reflexivity.
Qed.

(** ** Sorting a file *)

Section FileTotal.
  Variables (f : pfile) (rank : path -> nat).
  Let pkg := p_package f.
  Hypothesis Hids : Forall identifier pkg.
  Hypothesis Hused : forall T, In T (file_type_names f) \/ file_ref f T -> Forall identifier T.
  Hypothesis Hnames : NoDup (concat (map (type_names (p_package f)) (p_msgs f))).
  Hypothesis Hpk : forall T, In T (file_type_names f) -> ~ prefix T pkg.
  Hypothesis Hdeep : no_deep f.
  Hypothesis Hrank : forall s m g T c a b x y, file_message f s m -> In g (m_fields m) -> refers g T -> In T (file_type_names f) ->
    s = c ++ a :: x -> T = c ++ b :: y -> a <> b -> (rank (c ++ [b]) < rank (c ++ [a]))%nat.

  Fixpoint ranks (c q : path) : list nat := match q with [] => [] | a :: q' => rank (c ++ [a]) :: ranks (c ++ [a]) q' end.
  Definition key (x : text) : list nat :=
    match find (fun p => text_eqb (dotted p) x) (file_type_names f) with Some p => ranks pkg (skipn (length pkg) p) | None => [] end.

  Lemma ranks_app q q' : forall c, ranks c (q ++ q') = ranks c q ++ ranks (c ++ q) q'.
  Proof. induction q as [|a q IH]; intros c; cbn; [rewrite app_nil_r; reflexivity|]. f_equal. rewrite IH, <- app_assoc. reflexivity. Qed.

  Lemma key_type T : In T (file_type_names f) -> key (dotted T) = ranks pkg (skipn (length pkg) T).
  Proof.
    intros HT. unfold key. destruct (find _ _) as [p|] eqn:E.
    - apply find_some in E. destruct E as [Hp E]. apply text_eqb_eq in E. apply dotted_inj in E; [subst p; reflexivity| |].
      + apply ids_dotfree, Hused. left. exact Hp.
      + apply ids_dotfree, Hused. left. exact HT.
    - pose proof (find_none _ _ E T HT) as H. cbn in H. rewrite text_eqb_refl in H. discriminate.
  Qed.
  Lemma key_other x : (forall T, In T (file_type_names f) -> x <> dotted T) -> key x = [].
  Proof.
    intros H. unfold key. destruct (find _ _) as [p|] eqn:E; [|reflexivity]. apply find_some in E. destruct E as [Hp E].
    apply text_eqb_eq in E. exfalso. apply (H p Hp). symmetry. exact E.
  Qed.
  Lemma type_pkg T : In T (file_type_names f) -> exists a q, T = pkg ++ a :: q.
  Proof.
    intros HT. apply file_type_names_inv in HT. destruct HT as [(e & _ & ->)|(X & mX & (top & _ & Hi) & HT)]; [exists e, []; reflexivity|].
    destruct (inside_parent _ _ _ _ Hi) as (q & E & [r ->]). assert (HX : exists a q, X = pkg ++ a :: q).
    { destruct r as [|y r]; [exists (p_name mX), []|exists y, (r ++ [p_name mX])]; rewrite E; [rewrite app_nil_r; reflexivity|rewrite <- app_assoc; reflexivity]. }
    destruct HX as (a & q & HX). destruct HT as [->|(e & _ & ->)]; [exists a, q; exact HX|].
    exists a, (q ++ [e]). rewrite HX, <- app_assoc. reflexivity.
  Qed.
  Lemma key_pkg a q : In (pkg ++ a :: q) (file_type_names f) -> key (dotted (pkg ++ a :: q)) = ranks pkg (a :: q).
  Proof. intros H. rewrite key_type by exact H. rewrite skipn_app, skipn_all, Nat.sub_diag. reflexivity. Qed.

  Lemma key_nonempty K : In K (file_type_names f) -> lex [] (key (dotted K)) = true.
  Proof. intros HK. destruct (type_pkg K HK) as (a & q & ->). rewrite key_pkg by exact HK. reflexivity. Qed.
  Lemma key_below K x r : In K (file_type_names f) -> In (K ++ x :: r) (file_type_names f) -> lex (key (dotted K)) (key (dotted (K ++ x :: r))) = true.
  Proof.
    intros HK HX. destruct (type_pkg K HK) as (a & q & ->). rewrite <- app_assoc in *. cbn [app] in *. rewrite !key_pkg by assumption.
    change (a :: q ++ x :: r) with ((a :: q) ++ x :: r). rewrite ranks_app. rewrite <- (app_nil_r (ranks pkg (a :: q))) at 1. rewrite lex_app. reflexivity.
  Qed.
  Lemma key_aside c a b x y : In (c ++ a :: x) (file_type_names f) -> In (c ++ b :: y) (file_type_names f) -> a <> b ->
    (rank (c ++ [b]) < rank (c ++ [a]))%nat -> lex (key (dotted (c ++ b :: y))) (key (dotted (c ++ a :: x))) = true.
  Proof.
    intros Ha Hb Hne Hlt. destruct (type_pkg _ Ha) as (a' & q & Ea). destruct (type_pkg _ Hb) as (b' & q' & Eb).
    assert (Hp : exists r, c = pkg ++ r).
    { clear - Ea Eb Hne. generalize dependent pkg. clear pkg. intros pkg Ea Eb. revert c Ea Eb. induction pkg as [|z p IH]; intros c Ea Eb.
      - exists c. reflexivity.
      - destruct c as [|w c]; [injection Ea as -> _; injection Eb as -> _; contradiction|]. injection Ea as -> Ea. injection Eb as Eb.
        destruct (IH c Ea Eb) as [r ->]. exists r. reflexivity. }
    destruct Hp as [r ->]. rewrite <- !app_assoc in *.
    assert (E : forall z w, skipn (length pkg) (pkg ++ r ++ z :: w) = r ++ z :: w).
    { intros z w. rewrite skipn_app, skipn_all, Nat.sub_diag. reflexivity. }
    rewrite !key_type, !E by assumption. rewrite !ranks_app, lex_app. cbn [ranks lex]. apply orb_true_iff. left. apply Nat.ltb_lt.
    rewrite <- !app_assoc. exact Hlt.
  Qed.

  Lemma diverge (p q : path) : ~ prefix p q -> ~ prefix q p -> exists c a b x y, p = c ++ a :: x /\ q = c ++ b :: y /\ a <> b.
  Proof.
    revert q. induction p as [|a p IH]; intros q H1 H2; [exfalso; apply H1; exists q; reflexivity|].
    destruct q as [|b q]; [exfalso; apply H2; exists (a :: p); reflexivity|].
    destruct (text_dec a b) as [->|Hne]; [|exists [], a, b, p, q; repeat split; assumption].
    destruct (IH q) as (c & a & b' & x & y & -> & -> & Hne).
    - intros [r ->]. apply H1. exists r. reflexivity.
    - intros [r ->]. apply H2. exists r. reflexivity.
    - exists (b :: c), a, b', x, y. repeat split. exact Hne.
  Qed.

  Lemma scope_type c ms : scope_of f c ms -> c = pkg \/ In c (file_type_names f).
  Proof. intros [[-> _]|(m & Hm & _)]; [left; reflexivity|right; eapply file_message_name; exact Hm]. Qed.
  Lemma key_scope c ms x r : scope_of f c ms -> In (c ++ x :: r) (file_type_names f) -> lex (key (dotted c)) (key (dotted (c ++ x :: r))) = true.
  Proof.
    intros Hc HX. destruct (scope_type _ _ Hc) as [->|H]; [|apply key_below; assumption].
    rewrite (key_other (dotted pkg)); [apply key_nonempty; exact HX|]. intros T HT E. apply dotted_inj in E; [|apply ids_dotfree; exact Hids|].
    - apply (Hpk T HT). rewrite E. apply prefix_refl.
    - apply ids_dotfree, Hused. left. exact HT.
  Qed.

  Lemma edges c m d : (exists ms, scope_of f c ms /\ In m ms) -> In d (fst (toposort_add_msg c m)) -> d <> dotted (c ++ [p_name m]) ->
    lex (key d) (key (dotted (c ++ [p_name m]))) = true.
  Proof.
    intros (ms & Hc & Hm) Hd Hdne. pose proof (scope_of_message _ _ _ _ Hc Hm) as Hmsg. pose proof (file_message_name _ _ _ Hmsg) as HK.
    destruct (deps_inv _ _ _ Hd) as [->|[->|(s & m' & g & T & Hi & Hg & Hr & HT & -> & Hcase)]].
    - eapply key_scope; eassumption.
    - rewrite key_other; [apply key_nonempty; exact HK|]. intros T _. destruct T as [|a T]; [discriminate|]. rewrite dotted_cons. discriminate.
    - pose proof (scope_of_inside _ _ _ _ _ _ Hc Hm Hi) as Hs.
      destruct (in_dec path_dec T (file_type_names f)) as [HTf|HTf].
      2:{ rewrite key_other; [apply key_nonempty; exact HK|]. intros T' HT' E. apply dotted_inj in E.
          - subst T'. contradiction.
          - apply ids_dotfree, Hused. right. exists s, m', g. split; [exact Hs|split; assumption].
          - apply ids_dotfree, Hused. left. exact HT'. }
      pose proof (inside_prefix _ _ _ _ Hi) as HKs.
      destruct (around T (c ++ [p_name m])) eqn:Ear.
      { apply around_spec in Ear. destruct Ear as [[|x r] E]; [rewrite app_nil_r in E; rewrite E in Hdne; contradiction|].
        rewrite E in HK |- *. apply key_below; assumption. }
      assert (HnTK : ~ prefix T (c ++ [p_name m])) by (intros H; apply around_spec in H; congruence).
      assert (HnKT : ~ prefix (c ++ [p_name m]) T).
      { intros [r E]. destruct Hcase as [Hst|(-> & -> & Hlocal)].
        - rewrite (proj2 (starts_with_spec _ _)) in Hst; [discriminate|]. exists (dotted r). rewrite E, dotted_app. reflexivity.
        - destruct r as [|x [|y r]].
          + apply HT. rewrite E. apply app_nil_r.
          + apply Hlocal. unfold local_names. rewrite E. apply (in_map (fun x => dotted ((c ++ [p_name m]) ++ [x]))). rewrite E in HTf.
            eapply child_in; [exact Hnames|exact Hs| |exact HTf]. intros Ek. apply (Hpk _ HK). rewrite Ek. apply prefix_refl.
          + exact (Hdeep _ _ _ _ _ _ _ Hs Hg Hr HTf E). }
      destruct (diverge _ _ HnKT HnTK) as (c' & a & b & x & y & EK & ET & Hab). rewrite EK in *. rewrite ET in HTf |- *.
      apply key_aside; [exact HK|exact HTf|exact Hab|]. destruct HKs as [r Es].
      apply (Hrank s m' g T c' a b (x ++ r) y Hs Hg Hr); [rewrite ET; exact HTf| |exact ET|exact Hab].
      rewrite Es, <- app_assoc. reflexivity.
  Qed.

  Lemma inside_scope_of c m X mX : (exists ms, scope_of f c ms /\ In m ms) -> inside c m X mX ->
    exists q ms, X = q ++ [p_name mX] /\ scope_of f q ms /\ In mX ms.
  Proof.
    intros (ms & Hc & Hm) H. revert ms Hc Hm. induction H as [p m|p n nested enums fields oneofs a s m' Ha H IH]; intros ms Hc Hm.
    - exists p, ms. split; [reflexivity|split; assumption].
    - apply (IH nested); [|exact Ha]. exact (scope_of_nested _ _ _ _ Hc Hm).
  Qed.

  Lemma file_sortable : exists order0, toposort_flatten (concat (map (fun m => snd (toposort_add_msg pkg m)) (p_msgs f))) = Some order0.
  Proof.
    apply (toposort_flatten_total key). intros k ds d Hk Hd Hne. apply in_concat in Hk. destruct Hk as (l & Hl & Hk).
    apply in_map_iff in Hl. destruct Hl as (top & <- & Ht). destruct (entries_inv _ _ _ _ Hk) as (X & mX & Hi & Hcase).
    assert (Hc : exists ms, scope_of f pkg ms /\ In top ms) by (exists (p_msgs f); split; [left; split; reflexivity|exact Ht]).
    destruct (inside_scope_of _ _ _ _ Hc Hi) as (q & ms & EX & Hq & HmX). pose proof (scope_of_message _ _ _ _ Hq HmX) as Hmsg. rewrite <- EX in Hmsg.
    destruct Hcase as [(q' & E' & -> & ->)|(e & He & -> & ->)].
    - rewrite EX in E'. apply app_inj_tail in E'. destruct E' as [<- _]. rewrite EX in *. apply edges; [exists ms; split; assumption|exact Hd|exact Hne].
    - destruct Hd as [<-|[]]. apply (key_scope X (p_nested mX)); [right; exists mX; split; [exact Hmsg|reflexivity]|].
      eapply file_type_in; [exact Hmsg|right; exists e; split; [exact He|reflexivity]].
  Qed.
End FileTotal.

(** ** Registration *)

Definition regd (st : regs) (p : path) : Prop := all_registered (st p) = true.
Definition keeps (st st' : regs) : Prop := forall p, regd st p -> regd st' p.

Lemma set_all_keeps scope st : keeps st (set_all_registered scope true st).
Proof.
  intros p H. unfold regd, set_all_registered in *. destruct (path_dec p scope) as [->|Hp]; [rewrite set_reg_same; reflexivity|].
  rewrite set_reg_other by exact Hp. exact H.
Qed.
Lemma set_all_regd scope st : regd (set_all_registered scope true st) scope.
Proof. unfold regd, set_all_registered. rewrite set_reg_same. reflexivity. Qed.
Lemma and_registered_regd scope r p : fst r = true -> regd (snd r) scope -> regd (snd r) p -> regd (and_registered scope r) p.
Proof.
  intros H1 H2 H3. unfold regd, and_registered, set_all_registered in *. destruct (path_dec p scope) as [->|Hp].
  - rewrite set_reg_same. cbn. rewrite H1, H2. reflexivity.
  - rewrite set_reg_other by exact Hp. exact H3.
Qed.
Lemma register_child_keeps scope f st : keeps st (register_child scope f st).
Proof.
  intros p H. unfold regd, register_child in *. destruct (path_dec p scope) as [->|Hp]; [rewrite set_reg_same; exact H|].
  rewrite set_reg_other by exact Hp. exact H.
Qed.
Lemma register_field_regd scope f st : (forall ref, f_class f = FieldMessage ref -> regd st ref) ->
  fst (register_field scope f st) = true /\ keeps st (snd (register_field scope f st)).
Proof.
  intros H. unfold register_field. pose proof (register_child_keeps scope f st) as Hk.
  assert (Hif : forall b : bool, keeps st (if b then register_child scope f st else st)) by (intros []; [exact Hk|intros p Hp; exact Hp]).
  destruct (f_class f) as [sc|max|max|ref|ref|max c|]; try (split; [reflexivity|]; first [apply Hif|intros p Hp; exact Hp]).
  rewrite (H ref eq_refl). split; [reflexivity|]. cbn [snd]. apply Hif.
Qed.
Lemma register_oneof_regd scope fs : forall st, (forall f ref, In f fs -> f_class f = FieldMessage ref -> regd st ref) ->
  fst (register_oneof scope fs true st) = true /\ keeps st (snd (register_oneof scope fs true st)).
Proof.
  induction fs as [|f fs IH]; intros st H; [split; [reflexivity|intros p Hp; exact Hp]|]. cbn [register_oneof].
  destruct (register_field_regd scope f st) as [H1 H2]; [intros ref; apply H; left; reflexivity|].
  destruct (register_field scope f st) as [b st1]. cbn [fst snd] in *. subst b. cbn [andb].
  destruct (IH st1) as [H3 H4]; [intros g ref Hg Hc; apply H2; eapply H; [right; exact Hg|exact Hc]|]. split; [exact H3|].
  intros p Hp. apply H4, H2. exact Hp.
Qed.
(** A loop whose steps all succeed. *)
Lemma fold_regd {A} scope (step : A -> regs -> bool * regs) (pre : A -> regs -> Prop) :
  (forall a st, pre a st -> fst (step a st) = true /\ keeps st (snd (step a st))) ->
  (forall a st st', keeps st st' -> pre a st -> pre a st') ->
  forall l st, regd st scope -> (forall a, In a l -> pre a st) ->
  keeps st (fold_left (fun st a => and_registered scope (step a st)) l st).
Proof.
  intros Hstep Hmono. induction l as [|a l IH]; intros st Hs Hl; [intros p Hp; exact Hp|]. cbn [fold_left].
  destruct (Hstep a st) as [H1 H2]; [apply Hl; left; reflexivity|].
  assert (Hk : keeps st (and_registered scope (step a st))).
  { intros p Hp. apply and_registered_regd; [exact H1|apply H2; exact Hs|apply H2; exact Hp]. }
  intros p Hp. apply IH; [apply Hk; exact Hs| |apply Hk; exact Hp]. intros b Hb. eapply Hmono; [exact Hk|]. apply Hl. right. exact Hb.
Qed.

(** What the fields of the definitions need is registered before. *)
Definition ready (known : path -> Prop) (ds : list mdef) : Prop := forall l1 e l2 f ref, ds = l1 ++ e :: l2 -> In f (d_fields e) ->
  f_class f = FieldMessage ref -> (known ref \/ In ref (map d_scope l1)) \/ prefix ref (d_scope e).

Lemma ready_app known ds ds' : ready known (ds ++ ds') -> ready known ds /\ ready (fun p => known p \/ In p (map d_scope ds)) ds'.
Proof.
  intros H. split.
  - intros l1 e l2 f ref -> Hf Hc. eapply H; [rewrite <- app_assoc; cbn; reflexivity|exact Hf|exact Hc].
  - intros l1 e l2 f ref -> Hf Hc. destruct (H (ds ++ l1) e l2 f ref) as [[Hk|Hk]|Hk]; [rewrite <- app_assoc; reflexivity|exact Hf|exact Hc|left; left; left; exact Hk| |right; exact Hk].
    rewrite map_app in Hk. apply in_app_or in Hk. left. destruct Hk as [Hk|Hk]; [left; right; exact Hk|right; exact Hk].
Qed.
Lemma ready_weak (known known' : path -> Prop) ds : (forall p, known p -> known' p) -> ready known ds -> ready known' ds.
Proof. intros Hk H l1 e l2 f ref E Hf Hc. destruct (H l1 e l2 f ref E Hf Hc) as [[H'|H']|H']; [left; left; apply Hk; exact H'|left; right; exact H'|right; exact H']. Qed.

(** What is around the definitions is being registered. *)
Definition framed (known : path -> Prop) (d : mdef) : Prop := nests d /\ levels d /\
  forall e f ref, In e (all_defs d) -> In f (d_fields e) -> f_class f = FieldMessage ref -> prefix ref (d_scope e) -> known ref \/ prefix (d_scope d) ref.
Lemma framed_weak (known known' : path -> Prop) d : (forall p, known p -> known' p) -> framed known d -> framed known' d.
Proof.
  intros Hk (H1 & H2 & H3). split; [exact H1|]. split; [exact H2|]. intros e f ref He Hf Hc Hp.
  destruct (H3 e f ref He Hf Hc Hp) as [H|H]; [left; apply Hk; exact H|right; exact H].
Qed.
Lemma prefixes (p q r : path) : prefix p r -> prefix q r -> prefix p q \/ prefix q p.
Proof.
  intros [a ->] [b E]. revert q E. induction p as [|x p IH]; intros q E; [left; exists q; reflexivity|].
  destruct q as [|y q]; [right; exists (x :: p); reflexivity|]. cbn in E. injection E as -> E. destruct (IH q E) as [[c ->]|[c ->]].
  - left. exists c. reflexivity.
  - right. exists c. reflexivity.
Qed.
Lemma framed_nested known scope nested enums fields oneofs d : framed known (MDef scope nested enums fields oneofs) -> In d nested ->
  framed (fun p => known p \/ p = scope) d.
Proof.
  intros (H1 & H2 & H3) Hd. assert (Hin : forall e, In e (all_defs d) -> In e (all_defs (MDef scope nested enums fields oneofs))).
  { intros e He. cbn [all_defs]. apply in_or_app. left. apply in_concat. eexists. split; [apply in_map; exact Hd|exact He]. }
  split; [intros e n He; apply H1, Hin; exact He|]. split; [intros e n He; apply H2, Hin; exact He|].
  intros e f ref He Hf Hc Hp. destruct (H3 e f ref (Hin e He) Hf Hc Hp) as [H|H]; [left; left; exact H|]. cbn [d_scope] in H.
  destruct (H2 (MDef scope nested enums fields oneofs) d (all_defs_self _) Hd) as [x Ex]. cbn [d_scope] in Ex.
  assert (Hde : prefix (d_scope d) (d_scope e)) by (apply H1; [apply Hin, all_defs_self|exact He]).
  destruct (prefixes _ _ _ Hp Hde) as [H'|H']; [|right; exact H']. rewrite Ex in H'. apply prefix_child in H'.
  destruct H' as [H'|H']; [left; right; apply prefix_antisym; assumption|right; rewrite Ex, H'; apply prefix_refl].
Qed.

Definition succeeds (d : mdef) : Prop := forall st, ready (regd st) (all_defs d) -> framed (regd st) d ->
  fst (register d st) = true /\ keeps st (snd (register d st)) /\ forall p, In p (map d_scope (all_defs d)) -> regd (snd (register d st)) p.

Lemma nested_regd scope nested : Forall succeeds nested -> forall st, regd st scope -> ready (regd st) (concat (map all_defs nested)) ->
  (forall d, In d nested -> framed (regd st) d) ->
  let st' := fold_left (fun st d' => and_registered scope (register d' st)) nested st in
  keeps st st' /\ forall p, In p (map d_scope (concat (map all_defs nested))) -> regd st' p.
Proof.
  induction 1 as [|d ds Hd Hds IH]; intros st Hs Hr Hfr st'; [split; [intros p Hp; exact Hp|intros p []]|].
  cbn [map concat] in Hr. apply ready_app in Hr. destruct Hr as [Hr1 Hr2]. destruct (Hd st Hr1 (Hfr d (or_introl eq_refl))) as (H1 & H2 & H3).
  set (st1 := and_registered scope (register d st)). assert (Hk : keeps (snd (register d st)) st1).
  { intros p Hp. apply and_registered_regd; [exact H1|apply H2; exact Hs|exact Hp]. }
  destruct (IH st1) as (H4 & H5).
  - apply Hk, H2. exact Hs.
  - eapply ready_weak; [|exact Hr2]. intros p [Hp|Hp]; apply Hk; [apply H2; exact Hp|apply H3; exact Hp].
  - intros a Ha. eapply framed_weak; [|apply Hfr; right; exact Ha]. intros p Hp. apply Hk, H2. exact Hp.
  - split.
    + intros p Hp. apply H4, Hk, H2. exact Hp.
    + intros p Hp. cbn [map concat] in Hp. rewrite map_app in Hp. apply in_app_or in Hp. destruct Hp as [Hp|Hp]; [apply H4, Hk, H3; exact Hp|apply H5; exact Hp].
Qed.

Lemma register_succeeds d : succeeds d.
Proof.
  induction d as [scope nested enums fields oneofs IH] using mdef_induction. intros st Hr Hfr. rewrite register_eq. cbv zeta. cbn [fst snd].
  cbn [all_defs] in Hr |- *. apply ready_app in Hr. destruct Hr as [Hr1 Hr2].
  pose proof (set_all_keeps scope st) as K0. pose proof (set_all_regd scope st) as S0.
  destruct (nested_regd scope nested IH _ S0) as (K1 & N1); [eapply ready_weak; [|exact Hr1]; exact K0| |].
  { intros d Hd. eapply framed_weak; [|exact (framed_nested _ _ _ _ _ _ _ Hfr Hd)]. intros p [Hp| ->]; [apply K0; exact Hp|exact S0]. }
  fold (start_nested scope nested st) in K1, N1.
  set (st1 := start_nested scope nested st) in *.
  assert (Hrefs : forall f ref, In f (all_fields fields oneofs) -> f_class f = FieldMessage ref -> regd st1 ref).
  { intros f ref Hf Hc. destruct (Hr2 [] (MDef scope nested enums fields oneofs) [] f ref eq_refl Hf Hc) as [[[H|H]|[]]|H].
    - apply K1, K0. exact H.
    - apply N1. exact H.
    - destruct Hfr as (_ & _ & Hfr). destruct (Hfr _ f ref (all_defs_self _) Hf Hc H) as [H'|H']; [apply K1, K0; exact H'|].
      cbn [d_scope] in H, H'. rewrite (prefix_antisym _ _ H H'). apply K1. exact S0. }
  assert (K2 : keeps st1 (then_fields scope fields oneofs st1)).
  { unfold then_fields. set (st2 := fold_left _ fields st1).
    assert (Kf : keeps st1 st2).
    { apply (fold_regd scope (register_field scope) (fun f st => forall ref, f_class f = FieldMessage ref -> regd st ref)).
      - intros f st'. apply register_field_regd.
      - intros f st' st'' Hk H ref Hc. apply Hk, H. exact Hc.
      - apply K1. exact S0.
      - intros f Hf ref Hc. eapply Hrefs; [apply in_or_app; left; exact Hf|exact Hc]. }
    assert (Ko : keeps st2 (fold_left (fun st o => and_registered scope (register_oneof scope (snd o) true st)) oneofs st2)).
    { apply (fold_regd scope (fun o => register_oneof scope (snd o) true) (fun o st => forall f ref, In f (snd o) -> f_class f = FieldMessage ref -> regd st ref)).
      - intros o st'. apply register_oneof_regd.
      - intros o st' st'' Hk H f ref Hf Hc. apply Hk. eapply H; eassumption.
      - apply Kf, K1. exact S0.
      - intros o Ho f ref Hf Hc. apply Kf. eapply Hrefs; [|exact Hc]. apply in_or_app. right. apply in_concat. exists (snd o). split; [apply in_map; exact Ho|exact Hf]. }
    intros p Hp. apply Ko, Kf. exact Hp. }
  split; [|split].
  - apply K2, K1. exact S0.
  - intros p Hp. apply K2, K1, K0. exact Hp.
  - intros p Hp. rewrite map_app in Hp. apply in_app_or in Hp. destruct Hp as [Hp|[<-|[]]]; [apply K2, N1; exact Hp|apply K2, K1; exact S0].
Qed.

Lemma register_file_succeeds ds : forall st, ready (regd st) (concat (map all_defs ds)) -> (forall d, In d ds -> framed (regd st) d) ->
  exists st', register_file ds true st = (true, st') /\ keeps st st' /\ forall p, In p (map d_scope (concat (map all_defs ds))) -> regd st' p.
Proof.
  induction ds as [|d ds IH]; intros st Hr Hfr; [exists st; split; [reflexivity|split; [intros p Hp; exact Hp|intros p []]]|].
  cbn [map concat] in Hr. apply ready_app in Hr. destruct Hr as [Hr1 Hr2]. destruct (register_succeeds d st Hr1 (Hfr d (or_introl eq_refl))) as (H1 & H2 & H3).
  cbn [register_file]. destruct (register d st) as [b st1]. cbn [fst snd] in *. subst b. cbn [andb].
  destruct (IH st1) as (st' & E & H4 & H5).
  - eapply ready_weak; [|exact Hr2]. intros p [Hp|Hp]; [apply H2; exact Hp|apply H3; exact Hp].
  - intros a Ha. eapply framed_weak; [|apply Hfr; right; exact Ha]. exact H2.
  - exists st'. split; [exact E|]. split; [intros p Hp; apply H4, H2; exact Hp|].
    intros p Hp. cbn [map concat] in Hp. rewrite map_app in Hp. apply in_app_or in Hp. destruct Hp as [Hp|Hp]; [apply H4, H3; exact Hp|apply H5; exact Hp].
Qed.
Lemma register_files_succeeds files : forall st, ready (regd st) (concat (map all_defs (concat files))) -> (forall d, In d (concat files) -> framed (regd st) d) ->
  exists st', register_files files true st = (true, st').
Proof.
  induction files as [|ds files IH]; intros st Hr Hfr; [exists st; reflexivity|].
  cbn [concat] in Hr, Hfr. rewrite map_app, concat_app in Hr. apply ready_app in Hr. destruct Hr as [Hr1 Hr2].
  destruct (register_file_succeeds ds st Hr1) as (st1 & E & H2 & H3); [intros d Hd; apply Hfr, in_or_app; left; exact Hd|]. cbn [register_files]. rewrite E. cbn [andb].
  apply IH; [eapply ready_weak; [|exact Hr2]; intros p [Hp|Hp]; [apply H2; exact Hp|apply H3; exact Hp]|].
  intros d Hd. eapply framed_weak; [|apply Hfr, in_or_app; right; exact Hd]. exact H2.
Qed.

(** ** The order of the registration *)

Definition uses_of (l : list event) : list path := concat (map (fun e => match e with Uses s => [s] | Declared _ => [] end) l).
Lemma uses_of_app l l' : uses_of (l ++ l') = uses_of l ++ uses_of l'.
Proof. unfold uses_of. rewrite map_app, concat_app. reflexivity. Qed.
Lemma uses_of_concat ls : uses_of (concat ls) = concat (map uses_of ls).
Proof. induction ls as [|l ls IH]; cbn [concat map]; [reflexivity|]. rewrite uses_of_app, IH. reflexivity. Qed.
Lemma uses_of_declared {A} (g : A -> path) l : uses_of (map (fun a => Declared (g a)) l) = [].
Proof. induction l as [|a l IH]; [reflexivity|]. unfold uses_of in *. cbn. exact IH. Qed.
Lemma uses_pscript m : forall p, uses_of (pscript p m) = post p m.
Proof.
  induction m as [n nested enums fields oneofs IH] using pmsg_induction. intros p. cbn [pscript post]. rewrite !uses_of_app.
  rewrite (uses_of_declared (fun e => p ++ [n] ++ [e])). cbn [app]. f_equal. rewrite uses_of_concat, map_map. f_equal.
  apply map_ext_in. intros a Ha. rewrite Forall_forall in IH. apply IH. exact Ha.
Qed.
Lemma uses_request request mss : uses_of (request_script request mss) =
  concat (map all_messages (concat (map (fun '(f, ms) => map (define (p_package f)) ms) (combine request mss)))).
Proof.
  unfold request_script. rewrite uses_of_concat, map_map. induction (combine request mss) as [|[f ms] l IH]; [reflexivity|].
  cbn [map concat]. rewrite IH, map_app, concat_app. f_equal. unfold file_script. rewrite uses_of_app.
  rewrite (uses_of_declared (fun e => p_package f ++ [e])). cbn [app]. rewrite uses_of_concat, !map_map. f_equal. apply map_ext. intros m.
  rewrite uses_pscript, all_messages_define. reflexivity.
Qed.
Lemma before_uses l x y : before l (Uses x) (Uses y) -> before (uses_of l) x y.
Proof.
  intros (l1 & l2 & l3 & ->). rewrite uses_of_app. cbn [app]. exists (uses_of l1), (uses_of l2), (uses_of l3). f_equal.
  change (Uses x :: l2 ++ Uses y :: l3) with ([Uses x] ++ l2 ++ [Uses y] ++ l3). rewrite !uses_of_app. reflexivity.
Qed.
Lemma uses_declared request mss s m : legal request -> Forall2 sorted_file request mss -> message request s m ->
  before (request_script request mss) (Uses s) (Declared s).
Proof.
  intros Hl Hs (f & Hf & top & Ht & Hi).
  assert (Hno : ~ prefix s (p_package f)).
  { destruct Hl as (_ & _ & Hno). apply (Hno f s Hf). apply in_concat. exists (file_type_names f). split; [apply in_map; exact Hf|].
    eapply file_message_name. exists top. split; eassumption. }
  unfold request_script. induction Hs as [|f' ms fs mss Hms Hs IH]; [destruct Hf|]. cbn [combine map concat]. destruct Hf as [->|Hf].
  - apply before_app_l. unfold file_script. apply before_app_r. destruct Hms as (order0 & _ & ->).
    set (order := match p_package f with [] => _ | _ => _ end). clearbody order.
    apply before_concat_in with (a := pscript (p_package f) (sort_pmsg order (p_package f) top)); [apply in_map, sort_In, in_map; exact Ht|].
    eapply uses_before; [exact Hi|apply prefix_refl|exact Hno].
  - apply before_app_r. apply IH; [|exact Hf].
    destruct Hl as (H1 & H2 & H3). split; [inversion H1; assumption|]. split; [cbn in H2; apply NoDup_app_remove_l in H2; exact H2|].
    intros f0 p Hf0 Hp. apply H3; [right; exact Hf0|]. cbn. apply in_or_app. right. exact Hp.
Qed.
Lemma messages_order request mss s m g T : legal request -> imports_first request -> Forall clear_names request ->
  Forall2 sorted_file request mss -> message request s m -> In g (m_fields m) -> refers g T -> ~ prefix T s -> (exists mT, message request T mT) ->
  before (concat (map all_messages (concat (map (fun '(f, ms) => map (define (p_package f)) ms) (combine request mss))))) T s.
Proof.
  intros Hl Hi Hc Hs Hm Hg Hr HT (mT & HmT). rewrite <- uses_request. apply before_uses.
  eapply before_trans; [apply sorted_once; eassumption|eapply uses_declared; eassumption|]. eapply sorted_outside; eassumption.
Qed.

Lemma before_split {A} (l1 l2 : list A) x y : NoDup (l1 ++ y :: l2) -> before (l1 ++ y :: l2) x y -> In x l1.
Proof.
  induction l1 as [|a l1 IH]; cbn [app]; intros Hn H; inversion Hn as [|? ? Ha Hn']; subst.
  - apply before_inv in H. destruct H as [[-> H]|H]; [contradiction|]. apply before_In in H. destruct H as [_ H]. contradiction.
  - apply before_inv in H. destruct H as [[-> H]|H]; [left; reflexivity|right; apply IH; assumption].
Qed.

(** ** Fields find their definitions *)

Lemma matched messages enums d :
  (forall d' f, In d' (all_defs d) -> In f (d_fields d') -> matches messages enums (f_class f) = true) -> match_all messages enums d = true.
Proof.
  induction d as [scope nested es fields oneofs IH] using mdef_induction. intros H. cbn [match_all]. apply andb_true_iff. split.
  - apply forallb_forall. intros a Ha. rewrite Forall_forall in IH. apply IH; [exact Ha|]. intros d' f Hd. apply H. cbn [all_defs].
    apply in_or_app. left. apply in_concat. eexists. split; [apply in_map; exact Ha|exact Hd].
  - apply forallb_forall. intros f Hf. apply (H (MDef scope nested es fields oneofs)); [apply all_defs_self|exact Hf].
Qed.
Definition d_enums (d : mdef) : list text := let 'MDef _ _ es _ _ := d in es.
Lemma all_enums_defs d : forall d' e, In d' (all_defs d) -> In e (d_enums d') -> In (d_scope d' ++ [e]) (all_enums d).
Proof.
  induction d as [scope nested es fields oneofs IH] using mdef_induction. intros d' e Hd He. cbn [all_defs] in Hd. cbn [all_enums]. apply in_or_app.
  apply in_app_or in Hd. destruct Hd as [Hd|[<-|[]]].
  - right. apply in_concat in Hd. destruct Hd as (l & Hl & Hd). apply in_map_iff in Hl. destruct Hl as (a & <- & Ha).
    apply in_concat. eexists. split; [apply in_map; exact Ha|]. rewrite Forall_forall in IH. apply IH; assumption.
  - left. apply in_map_iff. exists e. split; [reflexivity|exact He].
Qed.

Section Accept.
  Variables (request : list pfile) (mss : list (list pmsg)).
  Let ds := concat (map (fun '(f, ms) => map (define (p_package f)) ms) (combine request mss)).
  Let L := concat (map all_messages ds).
  Hypothesis Hlegal : legal request.
  Hypothesis Himp : imports_first request.
  Hypothesis Hrefs : references request.
  Hypothesis Hclear : Forall clear_names request.
  Hypothesis Hsorted : Forall2 sorted_file request mss.

  Lemma message_listed s m : message request s m -> In s L.
  Proof.
    intros Hm. destruct (def_sorted _ _ Hsorted _ _ Hm) as (order & Hin). apply in_concat in Hin. destruct Hin as (l & Hl & Hin).
    apply in_map_iff in Hl. destruct Hl as (d & <- & Hd). apply in_concat. exists (all_messages d). split; [apply in_map; exact Hd|].
    rewrite all_messages_defs. apply in_map_iff. eexists. split; [|exact Hin]. rewrite d_scope_define, sort_pmsg_name. eapply message_scope. exact Hm.
  Qed.
  Let enums := concat (map (fun f => map (fun e => p_package f ++ [e]) (p_enums f)) request) ++ concat (map all_enums ds).
  Lemma enum_listed T : In T (concat (map file_type_names request)) -> (~ exists mT, message request T mT) -> In T enums.
  Proof.
    intros HT Hno. apply in_concat in HT. destruct HT as (l & Hl & HT). apply in_map_iff in Hl. destruct Hl as (f & <- & Hf).
    apply in_or_app. apply file_type_names_inv in HT. destruct HT as [(e & He & ->)|(X & mX & HX & [->|(e & He & ->)])].
    - left. apply in_concat. eexists. split; [apply in_map; exact Hf|]. apply in_map_iff. exists e. split; [reflexivity|exact He].
    - exfalso. apply Hno. exists mX, f. split; assumption.
    - right. assert (Hm : message request X mX) by (exists f; split; assumption).
      destruct (def_sorted _ _ Hsorted _ _ Hm) as (order & Hin). apply in_concat in Hin. destruct Hin as (l & Hl & Hin).
      apply in_map_iff in Hl. destruct Hl as (d & <- & Hd). apply in_concat. exists (all_enums d). split; [apply in_map; exact Hd|].
      apply (all_enums_defs d) with (e := e) in Hin.
      + rewrite d_scope_define, sort_pmsg_name, (message_scope _ _ _ Hm) in Hin. exact Hin.
      + destruct mX. exact He.
  Qed.

  Lemma all_matched : Forall (fun d => match_all L enums d = true) ds.
  Proof.
    apply Forall_forall. intros d0 Hd0. apply matched. intros d f Hd Hf. destruct (sorted_def _ _ Hsorted _ _ Hd0 Hd) as (s & m & order & Hm & ->).
    apply d_fields_sub in Hf. rewrite sort_pmsg_fields, sort_pmsg_name, (message_scope _ _ _ Hm) in Hf. destruct Hf as (g & Hg & ->).
    assert (Hsingle : matches L enums (single_factory g) = true).
    { unfold single_factory. destruct (pf_type g) as [sc| | |T|T] eqn:Et; try reflexivity; cbn [matches]; apply existsb_exists; exists T; (split; [|apply path_eqb_eq; reflexivity]);
        destruct (Hrefs s m g T Hm Hg) as [H1 H2].
      - destruct (H2 Et) as [H3 H4]. apply enum_listed; assumption.
      - destruct (H1 Et) as [mT HmT]. eapply message_listed. exact HmT. }
    unfold factory. cbn [f_class]. destruct (refers_to g s); [reflexivity|]. destruct (pf_repeated g); exact Hsingle.
  Qed.

  Lemma L_once : NoDup L.
  Proof. apply (request_messages _ _ Hsorted). apply legal_nodup. exact Hlegal. Qed.
  Lemma L_defs : map d_scope (concat (map all_defs ds)) = L.
  Proof. unfold L. rewrite concat_map, map_map. f_equal. apply map_ext. intros d. symmetry. apply all_messages_defs. Qed.

  Lemma all_ready : ready (regd no_regs) (concat (map all_defs ds)).
  Proof.
    intros l1 e l2 f ref E Hf Hc. destruct (around ref (d_scope e)) eqn:Ea; [right; apply around_spec; exact Ea|]. left. right.
    assert (He : In e (concat (map all_defs ds))) by (rewrite E; apply in_or_app; right; left; reflexivity).
    apply in_concat in He. destruct He as (l & Hl & He). apply in_map_iff in Hl. destruct Hl as (d & <- & Hd).
    destruct (sorted_def _ _ Hsorted _ _ Hd He) as (s & m & order & Hm & Ee).
    assert (Es : d_scope e = s) by (rewrite Ee, d_scope_define, sort_pmsg_name; eapply message_scope; exact Hm).
    rewrite Ee in Hf. apply d_fields_sub in Hf. rewrite sort_pmsg_fields, sort_pmsg_name, (message_scope _ _ _ Hm) in Hf. destruct Hf as (g & Hg & ->).
    apply factory_message in Hc. destruct Hc as (Ht & _). destruct (Hrefs s m g ref Hm Hg) as [H1 _].
    assert (Hne : ~ prefix ref s) by (intros H; apply around_spec in H; congruence).
    pose proof (messages_order request mss s m g ref Hlegal Himp Hclear Hsorted Hm Hg (or_introl Ht) Hne (H1 Ht)) as Hb.
    fold ds in Hb. fold L in Hb. pose proof L_once as Hnd. rewrite <- L_defs, E, map_app in Hb, Hnd. cbn [map] in Hb, Hnd. rewrite Es in Hb, Hnd.
    eapply before_split; eassumption.
  Qed.

  Lemma all_framed d : In d ds -> framed (regd no_regs) d.
  Proof.
    intros Hd. assert (Ed : exists f ms top, In (f, ms) (combine request mss) /\ d = define (p_package f) top).
    { unfold ds in Hd. apply in_concat in Hd. destruct Hd as (l & Hl & Hd). apply in_map_iff in Hl. destruct Hl as ((f & ms) & <- & Hf).
      apply in_map_iff in Hd. destruct Hd as (top & <- & _). eauto. }
    destruct Ed as (f & ms & top & Hf & Ed). apply in_combine_l in Hf.
    split; [rewrite Ed; apply define_nests|]. split; [rewrite Ed; apply define_levels|]. intros e g0 ref He Hg0 Hc Hp. right.
    destruct (sorted_def _ _ Hsorted _ _ Hd He) as (s & m & order & Hm & Ee).
    rewrite Ee in Hg0. apply d_fields_sub in Hg0. rewrite sort_pmsg_fields, sort_pmsg_name, (message_scope _ _ _ Hm) in Hg0. destruct Hg0 as (g & Hg & ->).
    apply factory_message in Hc. destruct Hc as (Ht & _). destruct (Hrefs s m g ref Hm Hg) as [H1 _]. destruct (H1 Ht) as [mT (fT & HfT & HmT)].
    assert (Hde : prefix (d_scope d) (d_scope e)) by (rewrite Ed in He |- *; apply (define_nests (p_package f) top); [apply all_defs_self|exact He]).
    destruct (prefixes _ _ _ Hp Hde) as [H|H]; [|exact H]. rewrite Ed, d_scope_define in H |- *. apply prefix_child in H.
    destruct H as [H| ->]; [exfalso|apply prefix_refl]. destruct Hlegal as (_ & _ & Hpk). apply (Hpk f ref Hf); [|exact H].
    apply in_concat. exists (file_type_names fT). split; [apply in_map; exact HfT|]. eapply file_message_name. exact HmT.
  Qed.

  Lemma all_registered_ok : exists st, register_passes 3 (map (fun '(f, ms) => map (define (p_package f)) ms) (combine request mss)) true no_regs = (true, st).
  Proof.
    destruct (register_files_succeeds _ no_regs all_ready all_framed) as (st & E). exists st. cbn [register_passes]. rewrite E. reflexivity.
  Qed.

  Variable st : regs.
  Hypothesis Hruns : runs ds no_regs st.

  Lemma unregistered p : ~ (exists m, message request p m) -> st p = fresh.
  Proof. intros H. rewrite (runs_frame _ _ _ Hruns); [reflexivity|]. intros Hi. apply H. apply (all_messages_message request mss Hsorted). exact Hi. Qed.

  Section Bounded.
  Hypothesis Henc : no_enclosing request.
  Lemma single_total n s m g : message request s m -> In g (m_fields m) -> ~ refers g s ->
    (forall T mT l1 l2, message request T mT -> L = l1 ++ T :: l2 -> (length l1 < n)%nat -> templates n st T <> None) ->
    forall l1 l2, L = l1 ++ s :: l2 -> (length l1 <= n)%nat -> class_params (templates n st) (factory s g) (single_factory g) <> None.
  Proof.
    intros Hm Hg Hr IH l1 l2 E Hlen. unfold single_factory. destruct (pf_type g) as [sc| | |T|T] eqn:Et; try discriminate. cbn [class_params].
    assert (Hne : T <> s) by (intros ->; apply Hr; left; exact Et). destruct (Hrefs s m g T Hm Hg) as [H1 _]. destruct (H1 Et) as [mT HmT].
    assert (Hnp : ~ prefix T s) by (intros H; apply Hne; exact (Henc s m g T Hm Hg (or_introl Et) H)).
    pose proof (messages_order request mss s m g T Hlegal Himp Hclear Hsorted Hm Hg (or_introl Et) Hnp (ex_intro _ mT HmT)) as Hb.
    fold ds in Hb. fold L in Hb. pose proof L_once as Hnd. rewrite E in Hb, Hnd. pose proof (before_split _ _ _ _ Hnd Hb) as Hin.
    apply in_split in Hin. destruct Hin as (a & b & ->). specialize (IH T mT a (b ++ s :: l2) HmT).
    rewrite <- app_assoc in E. rewrite app_length in Hlen. cbn in Hlen, E. specialize (IH E ltac:(lia)).
    destruct (templates n st T); [discriminate|contradiction].
  Qed.
  Lemma templates_total n : forall s m l1 l2, message request s m -> L = l1 ++ s :: l2 -> (length l1 < n)%nat -> templates n st s <> None.
  Proof.
    induction n as [|n IH]; intros s m l1 l2 Hm E Hlen; [lia|]. cbn [templates].
    rewrite (reg_of request st mss Hlegal Hsorted Hruns s m Hm). cbn [registered].
    destruct (sequence_total (fun f => class_params (templates n st) f (f_class f)) (filter (needs_in s st) (msg_fields s m))) as [xs ->]; [|discriminate].
    intros f Hf. apply filter_In in Hf. destruct Hf as [Hf _]. destruct (in_field _ _ _ _ Hm Hf) as (g & Hg & ->).
    destruct (refers_to g s) eqn:Er.
    - apply refers_to_spec in Er. rewrite (factory_recursive _ _ Er). discriminate.
    - assert (Hr : ~ refers g s) by (intros H; apply refers_to_spec in H; congruence). rewrite (factory_plain _ _ Hr).
      pose proof (single_total n s m g Hm Hg Hr IH l1 l2 E ltac:(lia)) as Hs. destruct (pf_repeated g); [|exact Hs].
      cbn [class_params]. destruct (class_params _ _ (single_factory g)); [discriminate|contradiction].
  Qed.
  Lemma t_bounded p : templates (S (length L)) st p <> None.
  Proof.
    destruct (in_dec path_dec p L) as [Hp|Hp].
    - destruct (all_messages_message request mss Hsorted p Hp) as [m Hm]. apply in_split in Hp. destruct Hp as (l1 & l2 & E).
      eapply templates_total; [exact Hm|exact E|]. rewrite E, app_length. cbn. lia.
    - cbn [templates]. rewrite unregistered; [discriminate|]. intros [m Hm]. apply Hp. eapply message_listed. exact Hm.
  Qed.
  End Bounded.

  Variable n : nat.
  Let t := templates n st.
  Hypothesis t_total : forall p, t p <> None.

  Hypothesis Hscopes : forall s m g T, message request s m -> In g (m_fields m) -> pf_type g = PEnum T -> ~ templated_scope request s T.

  Lemma enum_ok s m g T : message request s m -> In g (m_fields m) -> pf_type g = PEnum T -> enum_scopes_ok t T s = true.
  Proof.
    intros Hm Hg Et. unfold enum_scopes_ok. apply forallb_forall. intros k Hk. apply in_seq in Hk.
    destruct (Hrefs s m g T Hm Hg) as [_ H2]. destruct (H2 Et) as [_ Hno].
    destruct (t (firstn k T)) as [ps|] eqn:E; [|exfalso; exact (t_total _ E)]. destruct ps as [|p ps]; [reflexivity|exfalso].
    destruct (in_dec path_dec (firstn k T) L) as [Hp|Hp].
    - destruct (all_messages_message request mss Hsorted _ Hp) as [mx Hmx].
      assert (HkT : (k < length T)%nat).
      { destruct (Nat.eq_dec k (length T)) as [->|]; [|lia]. rewrite firstn_all in Hmx. exfalso. apply Hno. exists mx. exact Hmx. }
      apply (Hscopes s m g T Hm Hg Et). exists (firstn k T). split; [apply firstn_prefix|]. split; [|split].
      + intros E'. apply (f_equal (@length text)) in E'. rewrite firstn_length in E'. lia.
      + intros Hps. assert (Hc : (k <= shared T s)%nat); [|lia].
        unfold shared. assert (Ep : prefix (firstn k T) (removelast T)).
        { exists (skipn k (removelast T)). rewrite <- (firstn_skipn k (removelast T)) at 1. f_equal.
          assert (ET : T = removelast T ++ [last T []]) by (apply app_removelast_last; intros ->; cbn in HkT; lia).
          rewrite ET at 2. rewrite firstn_app.
          assert (Hl : length (removelast T) = (length T - 1)%nat) by (apply (f_equal (@length text)) in ET; rewrite app_length in ET; cbn in ET; lia).
          replace (k - length (removelast T))%nat with O by lia. cbn. rewrite app_nil_r. reflexivity. }
        assert (Hcommon : forall x a b : path, prefix x a -> prefix x b -> (length x <= common a b)%nat).
        { clear. induction x as [|y x IH]; intros a b [ra ->] [rb ->]; cbn [app common length]; [lia|]. destruct (text_dec y y); [|contradiction].
          apply le_n_S. apply IH; eexists; reflexivity. }
        pose proof (Hcommon _ _ _ Ep Hps) as Hl. rewrite firstn_length in Hl. lia.
      + apply (params_templated request st mss Hlegal Hsorted Hruns all_matched _ _ mx _ Hmx E). discriminate.
    - unfold t in E. destruct n as [|n']; [discriminate|]. cbn [templates] in E. rewrite unregistered in E; [discriminate|]. intros [mx Hmx]. apply Hp. eapply message_listed. exact Hmx.
  Qed.

  Lemma member_total s m f : message request s m -> In f (msg_fields s m) -> member t s f <> None.
  Proof.
    intros Hm Hf. destruct (in_field _ _ _ _ Hm Hf) as (g & Hg & ->). unfold member. destruct (refers_to g s) eqn:Er.
    - apply refers_to_spec in Er. rewrite (factory_recursive _ _ Er). discriminate.
    - assert (Hr : ~ refers g s) by (intros H; apply refers_to_spec in H; congruence). rewrite (factory_plain _ _ Hr).
      assert (Hs : class_type t s (factory s g) (single_factory g) <> None).
      { unfold single_factory. destruct (pf_type g) as [sc| | |T|T] eqn:Et; try discriminate; cbn [class_type].
        - rewrite (enum_ok s m g T Hm Hg Et). discriminate.
        - cbn [class_params]. pose proof (t_total T) as Ht. destruct (t T); [discriminate|contradiction]. }
      destruct (pf_repeated g).
      + cbn [class_type]. destruct (class_type t s (factory s g) (single_factory g)); [discriminate|contradiction].
      + unfold single_factory in *. destruct (pf_type g); destruct (class_type t s _ _); first [discriminate|contradiction].
  Qed.

  Lemma render_total d : (forall d', In d' (all_defs d) -> forall f, In f (d_fields d') -> member t (d_scope d') f <> None) -> render t d <> None.
  Proof.
    induction d as [scope nested es fields oneofs IH] using mdef_induction. intros H. cbn [render]. pose proof (t_total scope) as Ht.
    destruct (t scope) as [ps|]; [|contradiction]. destruct (sequence_total (render t) nested) as [cs ->].
    - intros a Ha. rewrite Forall_forall in IH. apply IH; [exact Ha|]. intros d' Hd. apply H. cbn [all_defs]. apply in_or_app. left.
      apply in_concat. eexists. split; [apply in_map; exact Ha|exact Hd].
    - destruct (sequence_total (member t scope) (all_fields fields oneofs)) as [xs ->]; [|discriminate].
      intros f Hf. apply (H (MDef scope nested es fields oneofs) (all_defs_self _) f Hf).
  Qed.
  Lemma defs_rendered d : In d ds -> render t d <> None.
  Proof.
    intros Hd. apply render_total. intros d' Hd' f Hf. destruct (sorted_def _ _ Hsorted _ _ Hd Hd') as (s & m & order & Hm & Ee).
    assert (Es : d_scope d' = s) by (rewrite Ee, d_scope_define, sort_pmsg_name; eapply message_scope; exact Hm).
    rewrite Es. apply (member_total s m f Hm). rewrite <- (msg_fields_sorted order (removelast s) s m). unfold msg_fields. rewrite <- Ee. exact Hf.
  Qed.
End Accept.

(** ** Everything that can be expressed is accepted *)

Lemma accepted request : legal request -> imports_first request -> references request -> Forall clear_names request ->
  (forall mss st, Forall2 sorted_file request mss ->
     runs (concat (map (fun '(f, ms) => map (define (p_package f)) ms) (combine request mss))) no_regs st ->
     exists n, forall p, templates n st p <> None) ->
  Forall orderable request -> Forall no_deep request ->
  (forall s m g T, message request s m -> In g (m_fields m) -> pf_type g = PEnum T -> ~ templated_scope request s T) ->
  exists limit hs, generate limit request = Some hs.
Proof.
  intros Hl Himp Hrefs Hclear Hbound Hord Hdeep Hsc. rewrite Forall_forall in Hord, Hdeep.
  assert (Hfile : forall f, In f request -> sort_file f <> None).
  { intros f Hf. destruct (Hord f Hf) as [rank Hrank]. pose proof (used_ids _ _ Hl Himp Hf) as Hused.
    pose proof (file_names _ _ Hl Hf) as Hnames. pose proof (file_package _ _ Hl Hf) as Hids.
    assert (Hpk : forall T, In T (file_type_names f) -> ~ prefix T (p_package f)).
    { intros T HT. destruct Hl as (_ & _ & H). apply (H f T Hf). apply in_concat. exists (file_type_names f). split; [apply in_map; exact Hf|exact HT]. }
    destruct (file_sortable f rank Hids Hused Hnames Hpk (Hdeep f Hf) Hrank) as [order0 E]. unfold sort_file. rewrite E. discriminate. }
  destruct (sequence_total sort_file request Hfile) as [files E1].
  assert (Hs : exists mss, Forall2 sorted_file request mss /\ files = map (fun '(f, ms) => map (define (p_package f)) ms) (combine request mss)).
  { clear - E1. apply sequence_map in E1. induction E1 as [|f ds fs dss H Hl IH]; [exists []; split; [constructor|reflexivity]|].
    destruct IH as (mss & H1 & ->). apply sort_file_sorted in H. destruct H as (order0 & Ht & ->).
    eexists (_ :: mss). split; [constructor; [|exact H1]|cbn; reflexivity]. exists order0. split; [exact Ht|reflexivity]. }
  destruct Hs as (mss & Hs & Ef).
  destruct (all_registered_ok request mss Hl Himp Hrefs Hclear Hs) as [st Hst].
  assert (Hruns : runs (concat files) no_regs st).
  { rewrite <- Ef in Hst. apply register_passes_runs in Hst. destruct Hst as [[E _]|H]; [discriminate|exact H]. }
  pose proof (all_matched request mss Hrefs Hs) as Hmatch. rewrite <- Ef in Hst, Hmatch.
  pose proof (Hbound mss st Hs) as Hn. rewrite <- Ef in Hn. destruct (Hn Hruns) as [n Ht].
  pose proof (defs_rendered request mss Hl Hrefs Hs st) as Hr. rewrite <- Ef in Hr. specialize (Hr Hruns n Ht Hsc).
  exists n. unfold generate. rewrite E1. cbv zeta.
  rewrite (proj2 (forallb_forall _ _)); [|apply Forall_forall; exact Hmatch]. rewrite Hst.
  destruct (sequence_total (fun ds => sequence (map (render (templates n st)) ds)) files) as [css ->].
  - intros ds Hds. destruct (sequence_total (render (templates n st)) ds) as [cs ->]; [|discriminate].
    intros d Hd. apply Hr. apply in_concat. exists ds. split; assumption.
  - eexists. reflexivity.
Qed.

(** ** What is accepted can be expressed *)

Lemma descend f c a X mX : file_message f X mX -> prefix (p_package f) c -> prefix (c ++ [a]) X ->
  exists ms ma, scope_of f c ms /\ In ma ms /\ p_name ma = a /\ inside c ma X mX.
Proof.
  intros (top & Ht & Hi). assert (Hc : scope_of f (p_package f) (p_msgs f)) by (left; split; reflexivity).
  revert Hc Ht. generalize (p_msgs f). intros ms0 Hc0 Ht0 Hp. destruct Hp as [r ->]. revert ms0 r Hc0 Ht0.
  induction Hi as [p m|p n nested enums fields oneofs m s m' Hm Hi IH]; intros ms r Hc Ht [w E].
  - rewrite <- !app_assoc in E. apply app_inv_head in E. destruct r as [|y r]; [|destruct r; discriminate]. cbn in E. injection E as <- _.
    exists ms, m. rewrite app_nil_r. repeat split; try assumption. apply inside_self.
  - destruct r as [|y r].
    + rewrite app_nil_r in *. exists ms, (PMsg n nested enums fields oneofs). split; [exact Hc|]. split; [exact Ht|]. split; [|eapply inside_nested; eassumption].
      destruct (inside_prefix _ _ _ _ Hi) as [v Ev]. rewrite Ev, <- !app_assoc in E. apply app_inv_head in E. cbn in E. injection E as <- _. reflexivity.
    + assert (y = n).
      { destruct (inside_prefix _ _ _ _ Hi) as [v Ev]. rewrite Ev, <- !app_assoc in E. apply app_inv_head in E. cbn in E. injection E as <- _. reflexivity. }
      subst y. replace (p ++ n :: r) with ((p ++ [n]) ++ r) in * by (rewrite <- app_assoc; reflexivity).
      eapply (IH nested r); [|exact Hm|exists w; exact E]. exact (scope_of_nested _ _ _ _ Hc Ht).
Qed.
Lemma scope_of_unique f c ms ms' : NoDup (concat (map (type_names (p_package f)) (p_msgs f))) ->
  (forall T, In T (file_type_names f) -> ~ prefix T (p_package f)) -> scope_of f c ms -> scope_of f c ms' -> ms = ms'.
Proof.
  intros Hn Hpk [[-> ->]|(m & Hm & ->)] [[E ->]|(m' & Hm' & ->)]; try reflexivity.
  - exfalso. apply (Hpk (p_package f)); [eapply file_message_name; exact Hm'|apply prefix_refl].
  - exfalso. subst c. apply (Hpk (p_package f)); [eapply file_message_name; exact Hm|apply prefix_refl].
  - f_equal. eapply file_message_unique; eassumption.
Qed.
Lemma aside_package pk (c : path) a b x y s T : s = c ++ a :: x -> T = c ++ b :: y -> a <> b -> prefix pk s -> prefix pk T -> prefix pk c.
Proof.
  intros -> -> Hne [u Eu] [v Ev]. revert c Eu Ev. induction pk as [|z pk IH]; intros c Eu Ev; [exists c; reflexivity|].
  destruct c as [|w c]; [cbn in Eu, Ev; injection Eu as -> _; injection Ev as -> _; contradiction|].
  cbn in Eu, Ev. injection Eu as -> Eu. injection Ev as Ev. destruct (IH c Eu Ev) as [r ->]. exists r. reflexivity.
Qed.
Lemma type_in_package f T : In T (file_type_names f) -> prefix (p_package f) T.
Proof.
  intros HT. apply file_type_names_inv in HT. destruct HT as [(e & _ & ->)|(X & mX & (top & _ & Hi) & HT)]; [exists [e]; reflexivity|].
  apply inside_prefix in Hi. destruct Hi as [r ->]. destruct HT as [->|(e & _ & ->)]; rewrite <- !app_assoc; eexists; reflexivity.
Qed.

Lemma accepted_orderable limit request hs f : legal request -> imports_first request -> references request -> Forall clear_names request ->
  generate limit request = Some hs -> In f request -> orderable f.
Proof.
  intros Hl Himp Hrefs Hclear Hgen Hf. destruct (generate_written _ _ _ Hgen) as (mss & st & Hs & _ & _).
  destruct (Forall2_In_l _ _ _ _ Hs Hf) as (ms0 & _ & (order0 & Hto & _)).
  pose proof (used_ids _ _ Hl Himp Hf) as Hused. pose proof (file_names _ _ Hl Hf) as Hnames. pose proof (file_package _ _ Hl Hf) as Hids.
  rewrite Forall_forall in Hclear. specialize (Hclear f Hf).
  assert (Hin : forall T, In T (file_type_names f) -> In T (concat (map file_type_names request))).
  { intros T HT. apply in_concat. exists (file_type_names f). split; [apply in_map; exact Hf|exact HT]. }
  assert (Hpk : forall T, In T (file_type_names f) -> ~ prefix T (p_package f)) by (intros T HT; destruct Hl as (_ & _ & H); apply (H f T Hf), Hin, HT).
  set (order := match p_package f with [] => order0 | _ => remove_first (dotted (p_package f)) order0 end).
  set (L := concat (map all_messages (concat (map (fun '(f, ms) => map (define (p_package f)) ms) (combine request mss))))).
  exists (fun p => if in_dec path_dec p L then S (sorted_index (removelast p) (last p []) order 0 0) else O).
  intros s m g T c a b x y Hm Hg Hr HT Es ET Hne.
  assert (Hpc : prefix (p_package f) c).
  { eapply aside_package; [exact Es|exact ET|exact Hne|apply type_in_package; eapply file_message_name; exact Hm|apply type_in_package; exact HT]. }
  destruct (descend f c a s m Hm Hpc) as (ms & ma & Hc & Ha & Ena & Hia).
  { exists x. rewrite Es, <- app_assoc. reflexivity. }
  assert (HaL : In (c ++ [a]) L).
  { eapply (message_listed request mss Hs). exists f. split; [exact Hf|]. rewrite <- Ena. eapply scope_of_message; eassumption. }
  destruct (in_dec path_dec (c ++ [a]) L) as [_|]; [|contradiction]. destruct (in_dec path_dec (c ++ [b]) L) as [HbL|]; [|lia].
  apply le_n_S. rewrite !removelast_last, !last_last.
  (* the type is in a message with the name of b *)
  assert (HX : exists X mX, file_message f X mX /\ type_in X mX T /\ prefix (c ++ [b]) X).
  { destruct (all_messages_message request mss Hs _ HbL) as [mb (fb & Hfb & Hmb)].
    assert (Hy : y = [] -> exists X mX, file_message f X mX /\ type_in X mX T /\ prefix (c ++ [b]) X).
    { intros ->. assert (fb = f).
      { destruct Hl as (_ & Hnd & _). eapply (NoDup_concat_eq file_type_names); [exact Hnd|exact Hfb|exact Hf|eapply file_message_name; exact Hmb|].
        rewrite <- ET. exact HT. }
      subst fb. rewrite <- ET in *. exists T, mb. split; [exact Hmb|]. split; [left; reflexivity|apply prefix_refl]. }
    destruct y as [|z y]; [apply Hy; reflexivity|].
    apply file_type_names_inv in HT. destruct HT as [(e & _ & E)|(X & mX & HX & HT)].
    - exfalso. destruct Hpc as [r ->]. rewrite ET, <- !app_assoc in E. apply app_inv_head in E. destruct r as [|? [|]]; discriminate.
    - exists X, mX. split; [exact HX|]. split; [exact HT|]. destruct HT as [->|(e & _ & E)]; [exists (z :: y); rewrite ET, <- app_assoc; reflexivity|].
      exists (removelast (z :: y)). rewrite <- (removelast_last X e), <- E, ET. replace (c ++ b :: z :: y) with ((c ++ [b]) ++ z :: y) by (rewrite <- app_assoc; reflexivity).
      apply removelast_app. discriminate. }
  destruct HX as (X & mX & HX & HTX & HbX). destruct (descend f c b X mX HX Hpc HbX) as (ms' & mb & Hc' & Hb & Enb & Hib).
  assert (ms' = ms) by (eapply scope_of_unique; eassumption). subst ms'. subst a b.
  apply (siblings_index f order0 Hto Hclear Hids Hused Hnames c ms ma mb s m T X mX g); try assumption.
Qed.

Lemma accepted_scopes limit request hs s m g T : legal request -> imports_first request -> references request ->
  generate limit request = Some hs -> message request s m -> In g (m_fields m) -> pf_type g = PEnum T -> ~ templated_scope request s T.
Proof.
  intros Hl Himp Hrefs Hgen Hm Hg Et. destruct (generate_written _ _ _ Hgen) as (mss & st & Hs & (Hru & Hma) & Hw).
  destruct (message_generated _ _ _ _ _ Hw Hm) as (c & Hgc & Hc). pose proof (field_in _ _ _ _ Hl Hm Hg) as Hf.
  assert (Hns : ~ refers g s).
  { intros [H|H]; rewrite H in Et; [discriminate|injection Et as Et; subst T]. destruct (Hrefs s m g s Hm Hg) as [_ H2]. destruct (H2 H) as [_ Hno]. apply Hno.
    exists m. exact Hm. }
  pose proof (factory_plain _ _ Hns) as Ec. destruct (class_member _ s m c (factory s g) Hc Hf) as (ty & Hty & Hin).
  { rewrite Ec. unfold single_factory. destruct (pf_repeated g), (pf_type g); discriminate. }
  assert (Hok : enum_scopes_ok (templates limit st) T s = true).
  { rewrite Ec in Hty. unfold single_factory in Hty. rewrite Et in Hty. destruct (pf_repeated g); cbn [class_type] in Hty;
      destruct (enum_scopes_ok (templates limit st) T s); first [reflexivity|discriminate]. }
  apply (plain_scopes_iff hs request s T).
  - intros x cx Hgx. eapply (template_iff limit request hs st mss Hl Hs Hru Hma Hw). exact Hgx.
  - intros x Hx. eapply templated_generated; eassumption.
  - eapply type_name_nonempty. eapply import_name; [exact Himp|exact Hm|exact Hg|right; exact Et].
  - intros k cx Hk Hgx. destruct (generated_message _ _ _ _ _ Hw Hgx) as (mx & _ & (Etx & _)). unfold enum_scopes_ok in Hok. rewrite forallb_forall in Hok.
    assert (Hlen : length (reduced_scope T s) = (length T - shared T s)%nat) by apply skipn_length.
    assert (Hi : In k (seq (S (shared T s)) (length T - shared T s))) by (apply in_seq; lia).
    apply Hok in Hi. rewrite Etx in Hi. destruct (c_params cx); [reflexivity|discriminate].
Qed.

Lemma generate_accepts request : legal request -> imports_first request -> references request -> Forall clear_names request -> no_enclosing request ->
  ((exists limit hs, generate limit request = Some hs) <->
   Forall orderable request /\ Forall no_deep request
   /\ forall s m g T, message request s m -> In g (m_fields m) -> pf_type g = PEnum T -> ~ templated_scope request s T).
Proof.
  intros Hl Himp Hrefs Hclear Henc. split.
  - intros (limit & hs & Hgen). split; [|split].
    + apply Forall_forall. intros f Hf. eapply accepted_orderable; eassumption.
    + apply Forall_forall. intros f Hf s m g T a b r Hm Hg Hr HT E. pose proof (deep_rejected limit request f s m g T a b r Hl Himp Hf Hm Hg Hr E HT). congruence.
    + intros s m g T Hm Hg Et. eapply accepted_scopes; eassumption.
  - intros (Hord & Hdeep & Hsc). apply accepted; try assumption. intros mss st Hs Hru. eexists. intros p.
    exact (t_bounded request mss Hl Himp Hrefs Hclear Hs st Hru Henc p).
Qed.

(** ** The recursion limit *)

Lemma class_type_below t t' s f c ty : below t t' -> class_type t s f c = Some ty -> class_type t' s f c = Some ty.
Proof.
  intros Hb. revert ty. induction c as [sc|max|max|ref|ref|max c IH|]; intros ty H; cbn [class_type] in *; try exact H.
  - destruct (enum_scopes_ok t ref s) eqn:E; [|discriminate].
    assert (E' : enum_scopes_ok t' ref s = true); [|rewrite E'; exact H]. apply forallb_forall.
    intros k Hk. unfold enum_scopes_ok in E. rewrite forallb_forall in E. apply E in Hk.
    destruct (t (firstn k ref)) as [l|] eqn:Et; [|discriminate]. rewrite (Hb _ _ Et). exact Hk.
  - destruct (class_params t f (FieldMessage ref)) as [ps|] eqn:E; [|discriminate]. rewrite (class_params_below _ _ _ _ _ Hb E). exact H.
  - destruct (class_type t s f c) as [e|]; [|discriminate]. rewrite (IH e eq_refl). exact H.
Qed.
Lemma sequence_mono {A B} (g g' : A -> option B) l : (forall a b, In a l -> g a = Some b -> g' a = Some b) ->
  forall xs, sequence (map g l) = Some xs -> sequence (map g' l) = Some xs.
Proof.
  induction l as [|a l IH]; intros H xs; cbn; [auto|]. destruct (g a) as [b|] eqn:E; [|discriminate].
  rewrite (H a b (or_introl eq_refl) E). destruct (sequence (map g l)) as [ys|]; [|discriminate].
  rewrite (IH (fun a b Ha => H a b (or_intror Ha)) ys eq_refl). auto.
Qed.
Lemma render_below t t' d : below t t' -> forall c, render t d = Some c -> render t' d = Some c.
Proof.
  intros Hb. induction d as [scope nested es fields oneofs IH] using mdef_induction. intros c H. cbn [render] in *. rewrite Forall_forall in IH.
  destruct (t scope) as [ps|] eqn:E1; [|discriminate]. rewrite (Hb _ _ E1).
  destruct (sequence (map (render t) nested)) as [cs|] eqn:E2; [|discriminate]. rewrite (sequence_mono (render t) (render t') nested (fun a b Ha => IH a Ha b) _ E2).
  destruct (sequence (map (member t scope) (all_fields fields oneofs))) as [xs|] eqn:E3; [|discriminate].
  rewrite (sequence_mono (member t scope) (member t' scope) (all_fields fields oneofs)) with (xs := xs); [exact H| |exact E3].
  intros f b _ Hm. unfold member in *.
  assert (Hty : forall c, option_map (fun ty => [(f_name f, ty)]) (class_type t scope f c) = Some b ->
    option_map (fun ty => [(f_name f, ty)]) (class_type t' scope f c) = Some b).
  { intros c0 Hc. destruct (class_type t scope f c0) as [ty|] eqn:E; [|discriminate]. rewrite (class_type_below _ _ _ _ _ _ Hb E). exact Hc. }
  destruct (f_class f); first [exact Hm|apply Hty; exact Hm].
Qed.
Lemma generate_limit n n' request hs : (n <= n')%nat -> generate n request = Some hs -> generate n' request = Some hs.
Proof.
  induction 1 as [|n' Hle IH]; intros H; [exact H|]. apply IH in H. clear IH Hle. unfold generate in *.
  destruct (sequence (map sort_file request)) as [files|]; [|discriminate]. cbv zeta in *. destruct (forallb _ _); [|discriminate].
  destruct (register_passes 3 files true no_regs) as [[|] st]; [|discriminate].
  destruct (sequence (map (fun ds => sequence (map (render (templates n' st)) ds)) files)) as [css|] eqn:E; [|discriminate].
  erewrite sequence_mono; [exact H| |exact E]. intros ds cs _ Hc. eapply sequence_mono; [|exact Hc].
  intros d c _ Hd. eapply render_below; [apply templates_S|exact Hd].
Qed.
