(** * GenSort: classes are completed before they are used. *)
From Coq Require Import String.
From Verif Require Import Base Schema Printf Generator SpecGenerator GenOrder.
From Coq Require Import List Permutation ZifyBool ZifyNat Lia.

Fixpoint pmsg_induction (P : pmsg -> Prop)
  (H : forall n nested enums fields oneofs, Forall P nested -> P (PMsg n nested enums fields oneofs)) (m : pmsg) : P m :=
  match m with
  | PMsg n nested enums fields oneofs =>
      H n nested enums fields oneofs
        ((fix go l : Forall P l :=
            match l with
            | [] => Forall_nil P
            | m' :: l' => Forall_cons m' (pmsg_induction P H m') (go l')
            end) nested)
  end.

Definition p_nested (m : pmsg) : list pmsg := let 'PMsg _ ns _ _ _ := m in ns.
Definition m_enums (m : pmsg) : list text := let 'PMsg _ _ es _ _ := m in es.
(** The type [T] is the message, or an enum in it. *)
Definition type_in (s : path) (m : pmsg) (T : path) : Prop := T = s \/ exists e, In e (m_enums m) /\ T = s ++ [e].

Lemma inside_step p m a s m' : In a (p_nested m) -> inside (p ++ [p_name m]) a s m' -> inside p m s m'.
Proof. destruct m. cbn. intros H1 H2. eapply inside_nested; eassumption. Qed.
Lemma inside_inv p m s m' : inside p m s m' ->
  (s = p ++ [p_name m] /\ m' = m) \/ exists a, In a (p_nested m) /\ inside (p ++ [p_name m]) a s m'.
Proof. intros H. destruct H; [left; split; reflexivity|right]. eexists. split; eassumption. Qed.
Lemma inside_prefix p m s m' : inside p m s m' -> prefix (p ++ [p_name m]) s.
Proof.
  induction 1 as [p m|p n nested enums fields oneofs a s m' Ha H [r IH]].
  - exists []. rewrite app_nil_r. reflexivity.
  - exists ([p_name a] ++ r). rewrite IH. cbn [p_name]. rewrite <- !app_assoc. reflexivity.
Qed.
Lemma inside_parent p m s m' : inside p m s m' -> exists q, s = q ++ [p_name m'] /\ prefix p q.
Proof.
  induction 1 as [p m|p n nested enums fields oneofs a s m' Ha H (q & -> & [r ->])].
  - exists p. split; [reflexivity|]. exists []. rewrite app_nil_r. reflexivity.
  - eexists. split; [reflexivity|]. exists ([n] ++ r). rewrite <- app_assoc. reflexivity.
Qed.
Lemma inside_trans p m s m' s' m'' : inside p m s m' -> forall q, s = q ++ [p_name m'] ->
  inside q m' s' m'' -> inside p m s' m''.
Proof.
  induction 1 as [p m|p n nested enums fields oneofs a s m' Ha H IH]; intros q E H'.
  - apply app_inj_tail in E. destruct E as [-> _]. exact H'.
  - eapply inside_nested; [exact Ha|]. eapply IH; eassumption.
Qed.

Lemma type_names_inside p m s m' : inside p m s m' -> In s (type_names p m).
Proof.
  induction 1 as [p m|p n nested enums fields oneofs a s m' Ha H IH].
  - destruct m. left. reflexivity.
  - right. apply in_or_app. right. apply in_concat. eexists. split; [apply in_map; exact Ha|exact IH].
Qed.
Lemma file_message_name f s m : file_message f s m -> In s (file_type_names f).
Proof.
  intros (top & Ht & H). unfold file_type_names. apply in_or_app. right. apply in_concat.
  eexists. split; [apply in_map; exact Ht|]. eapply type_names_inside. exact H.
Qed.

Lemma type_names_type_in p m s m' T : inside p m s m' -> type_in s m' T -> In T (type_names p m).
Proof.
  intros H HT. destruct HT as [->|(e & He & ->)]; [eapply type_names_inside; exact H|].
  induction H as [p m|p n nested enums fields oneofs a s m' Ha H IH].
  - destruct m. cbn [m_enums p_name] in *. right. apply in_or_app. left. apply in_map_iff. exists e. split; [|exact He].
    rewrite <- app_assoc. reflexivity.
  - right. apply in_or_app. right. apply in_concat. eexists. split; [apply in_map; exact Ha|apply IH; exact He].
Qed.
Lemma file_type_in f s m T : file_message f s m -> type_in s m T -> In T (file_type_names f).
Proof.
  intros (top & Ht & H) HT. unfold file_type_names. apply in_or_app. right. apply in_concat.
  eexists. split; [apply in_map; exact Ht|]. eapply type_names_type_in; eassumption.
Qed.

(** The list of the messages defined in a scope of the file. *)
Definition scope_of (f : pfile) (c : path) (ms : list pmsg) : Prop :=
  (c = p_package f /\ ms = p_msgs f) \/ exists m, file_message f c m /\ ms = p_nested m.

Lemma scope_of_message f c ms m : scope_of f c ms -> In m ms -> file_message f (c ++ [p_name m]) m.
Proof.
  intros [[-> ->]|(m0 & (top & Ht & H) & ->)] Hm.
  - exists m. split; [exact Hm|apply inside_self].
  - exists top. split; [exact Ht|]. destruct (inside_parent _ _ _ _ H) as (q & -> & _).
    eapply inside_trans; [exact H|reflexivity|]. eapply inside_step; [exact Hm|apply inside_self].
Qed.
Lemma scope_of_inside f c ms m s m' : scope_of f c ms -> In m ms -> inside c m s m' -> file_message f s m'.
Proof.
  intros Hc Hm H. destruct (scope_of_message f c ms m Hc Hm) as (top & Ht & H').
  exists top. split; [exact Ht|]. eapply inside_trans; [exact H'|reflexivity|exact H].
Qed.
Lemma scope_of_nested f c ms m : scope_of f c ms -> In m ms -> scope_of f (c ++ [p_name m]) (p_nested m).
Proof. intros Hc Hm. right. exists m. split; [eapply scope_of_message; eassumption|reflexivity]. Qed.

(** ** dependency_data *)

Lemma add_msg_eq p n nested enums fields oneofs : let m := PMsg n nested enums fields oneofs in
  let local := p ++ [n] in
  toposort_add_msg p m =
  ([dotted p]
   ++ filter (fun d => negb (starts_with (dotted local) d)) (concat (map fst (map (toposort_add_msg local) nested)))
   ++ filter (fun d => negb (mem d (map (fun m' => dotted (local ++ [p_name m'])) nested
                                    ++ map (fun e => dotted (local ++ [e])) enums)))
        (concat (map (type_name local) fields)),
   concat (map snd (map (toposort_add_msg local) nested))
   ++ map (fun e => (dotted (local ++ [e]), [dotted local])) enums
   ++ [(dotted local, fst (toposort_add_msg p m))]).
Proof. reflexivity. Qed.

Lemma own_entry p m : In (dotted (p ++ [p_name m]), fst (toposort_add_msg p m)) (snd (toposort_add_msg p m)).
Proof.
  destruct m as [n nested enums fields oneofs]. rewrite (add_msg_eq p n nested enums fields oneofs) at 2. cbn [snd p_name].
  apply in_or_app. right. apply in_or_app. right. left. reflexivity.
Qed.
Lemma nested_entries p m a e : In a (p_nested m) -> In e (snd (toposort_add_msg (p ++ [p_name m]) a)) -> In e (snd (toposort_add_msg p m)).
Proof.
  destruct m as [n nested enums fields oneofs]. cbn [p_nested p_name]. intros Ha He.
  rewrite add_msg_eq. cbn [snd]. apply in_or_app. left. apply in_concat. eexists. split; [|exact He].
  apply in_map. apply in_map. exact Ha.
Qed.
Lemma own_namespace p m : In (dotted p) (fst (toposort_add_msg p m)).
Proof. destruct m as [n nested enums fields oneofs]. rewrite add_msg_eq. left. reflexivity. Qed.

Lemma inside_entry p m s m' : inside p m s m' -> exists q, s = q ++ [p_name m'] /\
  In (dotted s, fst (toposort_add_msg q m')) (snd (toposort_add_msg p m)).
Proof.
  induction 1 as [p m|p n nested enums fields oneofs a s m' Ha H (q & E & IH)].
  - exists p. split; [reflexivity|apply own_entry].
  - exists q. split; [exact E|]. eapply nested_entries; [exact Ha|exact IH].
Qed.

Lemma enum_entry p m s m' e : inside p m s m' -> In e (m_enums m') -> In (dotted (s ++ [e]), [dotted s]) (snd (toposort_add_msg p m)).
Proof.
  intros H. induction H as [p m|p n nested enums fields oneofs a s m' Ha H IH]; intros He.
  - destruct m as [n nested enums fields oneofs]. cbn [p_name m_enums] in *. rewrite add_msg_eq. cbn [snd].
    apply in_or_app. right. apply in_or_app. left. apply in_map_iff. exists e. split; [reflexivity|exact He].
  - eapply nested_entries; [exact Ha|apply IH; exact He].
Qed.

(** What is used inside is a dependency, if the name does not start like the own one. *)
Lemma deps_fields p m s m' g T : inside p m s m' -> In g (m_fields m') -> refers g T -> T <> s ->
  starts_with (dotted (p ++ [p_name m])) (dotted T) = false -> In (dotted T) (fst (toposort_add_msg p m)).
Proof.
  intros H Hg Hr HT. induction H as [p m|p n nested enums fields oneofs a s m' Ha H IH]; intros Hs.
  - destruct m as [n nested enums fields oneofs]. cbn [p_name m_fields] in *.
    rewrite add_msg_eq. cbn [fst]. apply in_or_app. right. apply in_or_app. right. apply filter_In. split.
    + apply in_concat. exists [dotted T]. split; [|left; reflexivity]. apply in_map_iff. exists g. split; [|exact Hg].
      unfold type_name. destruct Hr as [->| ->]; (destruct (path_eqb T (p ++ [n])) eqn:E; [apply path_eqb_eq in E; contradiction|reflexivity]).
    + apply mem_not_In. intros Hi. apply in_app_or in Hi.
      assert (Hx : exists x, dotted T = dotted ((p ++ [n]) ++ [x])).
      { destruct Hi as [Hi|Hi]; apply in_map_iff in Hi; destruct Hi as (x & E & _); eexists; symmetry; exact E. }
      destruct Hx as [x E]. rewrite dotted_app in E.
      assert (starts_with (dotted (p ++ [n])) (dotted T) = true) by (apply starts_with_spec; eexists; exact E). congruence.
  - cbn [p_name] in *. rewrite add_msg_eq. cbn [fst]. apply in_or_app. right. apply in_or_app. left. apply filter_In. split.
    + apply in_concat. exists (fst (toposort_add_msg (p ++ [n]) a)). split; [apply in_map, in_map; exact Ha|].
      apply IH; [exact Hg|exact HT|]. destruct (starts_with (dotted ((p ++ [n]) ++ [p_name a])) (dotted T)) eqn:E; [|reflexivity].
      apply starts_with_spec in E. destruct E as [r E]. rewrite (dotted_app (p ++ [n])), <- app_assoc in E.
      assert (starts_with (dotted (p ++ [n])) (dotted T) = true) by (apply starts_with_spec; eexists; exact E). congruence.
    + rewrite Hs. reflexivity.
Qed.

Lemma concat_perm {A} (ls ls' : list (list A)) : Forall2 (@Permutation A) ls ls' -> Permutation (concat ls) (concat ls').
Proof. induction 1; cbn; [constructor|]. apply Permutation_app; assumption. Qed.

Lemma add_msg_keys m : forall p, Permutation (map fst (snd (toposort_add_msg p m))) (map dotted (type_names p m)).
Proof.
  induction m as [n nested enums fields oneofs IH] using pmsg_induction. intros p. rewrite add_msg_eq. cbn [snd type_names].
  rewrite !map_app, map_map. cbn [map fst]. rewrite app_assoc.
  rewrite <- Permutation_cons_append. cbn [map]. constructor. rewrite map_app, (map_map _ dotted).
  rewrite Permutation_app_comm. apply Permutation_app.
  - rewrite ?map_map. erewrite map_ext; [reflexivity|]. intros e. cbn [fst]. rewrite <- app_assoc. reflexivity.
  - rewrite !concat_map, !map_map. apply concat_perm. induction IH as [|a l Ha Hl IHl]; cbn; constructor; [apply Ha|exact IHl].
Qed.

(** What can occur in the order: names of types of the file, of types used, of scopes. *)
Definition mentioned (f : pfile) (x : text) : Prop :=
  x = chars "FieldErrorRecursive" \/ exists T, x = dotted T /\ (In T (file_type_names f) \/ file_ref f T \/ T = p_package f).

Lemma add_msg_mentioned f m : forall c ms, scope_of f c ms -> In m ms ->
  Forall (mentioned f) (fst (toposort_add_msg c m))
  /\ Forall (fun e => mentioned f (fst e) /\ Forall (mentioned f) (snd e)) (snd (toposort_add_msg c m)).
Proof.
  induction m as [n nested enums fields oneofs IH] using pmsg_induction. intros c ms Hc Hm.
  pose proof (scope_of_message _ _ _ _ Hc Hm) as Hs. pose proof (scope_of_nested _ _ _ _ Hc Hm) as Hsn. cbn [p_name p_nested] in *.
  assert (Hl : mentioned f (dotted (c ++ [n]))).
  { right. eexists. split; [reflexivity|]. left. eapply file_message_name. exact Hs. }
  assert (Hp : mentioned f (dotted c)).
  { right. exists c. split; [reflexivity|]. destruct Hc as [[-> _]|(m0 & H & _)]; [right; right; reflexivity|left].
    eapply file_message_name. exact H. }
  assert (Hd : Forall (mentioned f) (fst (toposort_add_msg c (PMsg n nested enums fields oneofs)))).
  { rewrite add_msg_eq. cbn [fst]. constructor; [exact Hp|]. apply Forall_app. split; apply Forall_forall; intros x Hx; apply filter_In in Hx; destruct Hx as [Hx _].
    - apply in_concat in Hx. destruct Hx as (l & Hl' & Hx). apply in_map_iff in Hl'. destruct Hl' as (r & <- & Hr).
      apply in_map_iff in Hr. destruct Hr as (a & <- & Ha). rewrite Forall_forall in IH.
      destruct (IH a Ha _ _ Hsn Ha) as [H _]. rewrite Forall_forall in H. apply H. exact Hx.
    - apply in_concat in Hx. destruct Hx as (l & Hl' & Hx). apply in_map_iff in Hl'. destruct Hl' as (g & <- & Hg).
      unfold type_name in Hx. destruct (pf_type g) as [| | |T|T] eqn:E; try (destruct Hx; fail);
        (destruct Hx as [<-|[]]; destruct (path_eqb T (c ++ [n])); [left; reflexivity|right];
         exists T; split; [reflexivity|]; right; left; exists (c ++ [n]), (PMsg n nested enums fields oneofs), g;
         split; [exact Hs|]; split; [exact Hg|]); [right|left]; exact E. }
  split; [exact Hd|]. rewrite add_msg_eq. cbn [snd]. apply Forall_app. split; [|apply Forall_app; split].
  - apply Forall_forall. intros x Hx. apply in_concat in Hx. destruct Hx as (l & Hl' & Hx). apply in_map_iff in Hl'. destruct Hl' as (r & <- & Hr).
    apply in_map_iff in Hr. destruct Hr as (a & <- & Ha). rewrite Forall_forall in IH.
    destruct (IH a Ha _ _ Hsn Ha) as [_ H]. rewrite Forall_forall in H. apply H. exact Hx.
  - apply Forall_forall. intros x Hx. apply in_map_iff in Hx. destruct Hx as (e & <- & He). cbn. split; [|constructor; [exact Hl|constructor]].
    right. eexists. split; [reflexivity|]. left. destruct Hs as (top & Ht & Hs). unfold file_type_names. apply in_or_app. right.
    apply in_concat. eexists. split; [apply in_map; exact Ht|]. clear - Hs He. remember (c ++ [n]) as s. remember (PMsg n nested enums fields oneofs) as m.
    induction Hs as [p m|p n0 nested0 enums0 fields0 oneofs0 a s m Ha H IH].
    + subst m. cbn [type_names p_name] in *. right. apply in_or_app. left. apply in_map_iff. exists e. split; [|exact He].
      rewrite <- app_assoc. reflexivity.
    + right. apply in_or_app. right. apply in_concat. eexists. split; [apply in_map; exact Ha|]. apply IH; assumption.
  - constructor; [|constructor]. split; assumption.
Qed.

(** ** The order gives the indices *)

Lemma sorted_index_none c n order : forall i d, (forall x, In x order -> strip c x <> n) -> sorted_index c n order i d = d.
Proof.
  induction order as [|x order IH]; intros i d H; cbn; [reflexivity|].
  rewrite IH by (intros y Hy; apply H; right; exact Hy).
  destruct (text_eqb n (strip c x)) eqn:E; [|reflexivity]. apply text_eqb_eq in E. exfalso.
  apply (H x); [left; reflexivity|congruence].
Qed.
Lemma sorted_index_at c n x l1 l2 : forall i d, strip c x = n -> (forall y, In y l2 -> strip c y <> n) ->
  sorted_index c n (l1 ++ x :: l2) i d = (i + length l1)%nat.
Proof.
  induction l1 as [|y l1 IH]; intros i d Hx H; cbn [app sorted_index length].
  - rewrite Hx, text_eqb_refl. rewrite sorted_index_none by exact H. lia.
  - rewrite IH by assumption. lia.
Qed.
Lemma sorted_index_before c order x y nx ny : NoDup order -> before order x y ->
  (forall z, In z order -> (strip c z = nx <-> z = x)) -> (forall z, In z order -> (strip c z = ny <-> z = y)) ->
  (sorted_index c nx order 0 0 < sorted_index c ny order 0 0)%nat.
Proof.
  intros Hn (l1 & l2 & l3 & E) Hx Hy. assert (Hdx : forall z, In z (l2 ++ y :: l3) -> z <> x).
  { intros z Hz ->. rewrite E in Hn. apply NoDup_remove_2 in Hn. apply Hn. apply in_or_app. right. exact Hz. }
  assert (Hdy : forall z, In z l3 -> z <> y).
  { intros z Hz ->. rewrite E in Hn. change (l1 ++ x :: l2 ++ y :: l3) with (l1 ++ [x] ++ l2 ++ y :: l3) in Hn.
    rewrite !app_assoc in Hn. apply NoDup_remove_2 in Hn. apply Hn. apply in_or_app. right. exact Hz. }
  rewrite E in *. rewrite sorted_index_at with (x := x).
  - change (l1 ++ x :: l2 ++ y :: l3) with (l1 ++ [x] ++ l2 ++ y :: l3). rewrite !app_assoc.
    rewrite sorted_index_at with (x := y).
    + rewrite !app_length. cbn. lia.
    + apply Hy; [|reflexivity]. apply in_or_app. right. right. apply in_or_app. right. left. reflexivity.
    + intros z Hz Hs. apply Hy in Hs; [exact (Hdy z Hz Hs)|]. apply in_or_app. right. right. apply in_or_app. right. right. exact Hz.
  - apply Hx; [|reflexivity]. apply in_or_app. right. left. reflexivity.
  - intros z Hz Hs. apply Hx in Hs; [exact (Hdx z Hz Hs)|]. apply in_or_app. right. right. exact Hz.
Qed.

Lemma remove_first_In x z l : In z (remove_first x l) -> In z l.
Proof.
  induction l as [|y l IH]; cbn; [intros []|]. destruct (text_eqb x y); [intros H; right; exact H|].
  intros [->|H]; [left; reflexivity|right; auto].
Qed.
Lemma remove_first_NoDup x l : NoDup l -> NoDup (remove_first x l).
Proof.
  induction l as [|y l IH]; cbn; intros H; [exact H|]. inversion H; subst. destruct (text_eqb x y); [assumption|].
  constructor; [|auto]. intros Hi. apply remove_first_In in Hi. contradiction.
Qed.
Lemma remove_first_before z l x y : x <> z -> y <> z -> before l x y -> before (remove_first z l) x y.
Proof.
  intros Hx Hy. induction l as [|w l IH]; intros H.
  - apply before_In in H. destruct H as [[] _].
  - cbn. apply before_inv in H. destruct (text_eqb z w) eqn:E.
    + apply text_eqb_eq in E. subst w. destruct H as [[H _]|H]; [congruence|exact H].
    + destruct H as [[-> H]|H]; [|apply before_tl; auto]. apply before_cons. clear - H Hy.
      induction l as [|w l IH]; cbn; [exact H|]. destruct H as [->|H].
      * destruct (text_eqb z y) eqn:E; [apply text_eqb_eq in E; congruence|left; reflexivity].
      * destruct (text_eqb z w); [exact H|right; auto].
Qed.

(** ** Sorted siblings *)

Lemma prefix_trans p q r : prefix p q -> prefix q r -> prefix p r.
Proof. intros [a ->] [b ->]. exists (a ++ b). rewrite app_assoc. reflexivity. Qed.
Lemma prefix_refl p : prefix p p.
Proof. exists []. rewrite app_nil_r. reflexivity. Qed.
Lemma prefix_snoc p (a : text) : prefix p (p ++ [a]).
Proof. exists [a]. reflexivity. Qed.
Lemma prefix_length p q : prefix p q -> (length p <= length q)%nat.
Proof. intros [r ->]. rewrite app_length. lia. Qed.
Lemma prefix_branch p (a b : text) q : prefix (p ++ [a]) q -> prefix (p ++ [b]) q -> a = b.
Proof. intros [r ->] [r' E]. rewrite <- !app_assoc in E. apply app_inv_head in E. injection E as -> _. reflexivity. Qed.
Lemma scope_of_package f c ms : scope_of f c ms -> prefix (p_package f) c.
Proof.
  intros [[-> _]|(m & (top & _ & H) & _)]; [apply prefix_refl|].
  destruct (inside_parent _ _ _ _ H) as (q & -> & Hq). eapply prefix_trans; [exact Hq|]. apply prefix_snoc.
Qed.

Section File.
  Variable f : pfile.
  Variable order0 : list text.
  Let data := concat (map (fun m => snd (toposort_add_msg (p_package f) m)) (p_msgs f)).
  Let order := match p_package f with [] => order0 | _ => remove_first (dotted (p_package f)) order0 end.
  Hypothesis Htopo : toposort_flatten data = Some order0.
  Hypothesis Hclear : clear_names f.
  Hypothesis Hids : Forall identifier (p_package f).
  Hypothesis Hused : forall T, In T (file_type_names f) \/ file_ref f T -> Forall identifier T.
  Hypothesis Hnames : NoDup (concat (map (type_names (p_package f)) (p_msgs f))).

  Lemma ids_dotfree T : Forall identifier T -> Forall dotfree T.
  Proof. apply Forall_impl. intros n [_ H]. exact H. Qed.

  Lemma data_keys : NoDup (map fst data).
  Proof.
    assert (P : Permutation (map fst data) (map dotted (concat (map (type_names (p_package f)) (p_msgs f))))).
    { unfold data. rewrite !concat_map, !map_map. apply concat_perm. clear. induction (p_msgs f) as [|m ms IH]; cbn; [constructor|constructor; [apply add_msg_keys|exact IH]]. }
    eapply Permutation_NoDup; [apply Permutation_sym, P|].
    assert (Hi : forall T, In T (concat (map (type_names (p_package f)) (p_msgs f))) -> Forall dotfree T).
    { intros T HT. apply ids_dotfree. apply Hused. left. unfold file_type_names. apply in_or_app. right. exact HT. }
    clear P. revert Hi Hnames. generalize (concat (map (type_names (p_package f)) (p_msgs f))). intros l Hi Hl.
    induction Hl as [|T l HT Hl IH]; cbn; constructor.
    - intros H. apply in_map_iff in H. destruct H as (T' & E & HT'). apply dotted_inj in E; [congruence| |]; apply Hi; [right; exact HT'|left; reflexivity].
    - apply IH. intros T' HT'. apply Hi. right. exact HT'.
  Qed.

  Lemma topo_NoDup : NoDup order0.
  Proof. apply (toposort_flatten_ok _ _ data_keys Htopo). Qed.
  Lemma topo_before k ds d : In (k, ds) data -> In d ds -> d <> k -> before order0 d k.
  Proof. apply (toposort_flatten_ok _ _ data_keys Htopo). Qed.

  Lemma data_top m e : In m (p_msgs f) -> In e (snd (toposort_add_msg (p_package f) m)) -> In e data.
  Proof. intros Hm He. apply in_concat. eexists. split; [|exact He]. apply in_map_iff. exists m. split; [reflexivity|exact Hm]. Qed.
  Lemma data_message s m : file_message f s m -> exists q, s = q ++ [p_name m] /\ In (dotted s, fst (toposort_add_msg q m)) data.
  Proof.
    intros (top & Ht & H). apply inside_entry in H. destruct H as (q & E & H). exists q. split; [exact E|].
    eapply data_top; eassumption.
  Qed.

  Lemma order_mentioned x : In x order0 -> mentioned f x.
  Proof.
    intros H. apply (toposort_flatten_ok _ _ data_keys Htopo) in H.
    assert (Hd : forall k ds, In (k, ds) data -> mentioned f k /\ Forall (mentioned f) ds).
    { intros k ds Hi. apply in_concat in Hi. destruct Hi as (l & Hl & Hi). apply in_map_iff in Hl. destruct Hl as (m & <- & Hm).
      assert (Hc : scope_of f (p_package f) (p_msgs f)) by (left; split; reflexivity).
      destruct (add_msg_mentioned f m _ _ Hc Hm) as [_ H']. rewrite Forall_forall in H'. apply (H' _ Hi). }
    destruct H as [H|(k & ds & Hi & Hx)].
    - apply in_map_iff in H. destruct H as ([k ds] & <- & Hi). apply (Hd _ _ Hi).
    - destruct (Hd _ _ Hi) as [_ H]. rewrite Forall_forall in H. apply H. exact Hx.
  Qed.

  Lemma message_ids s m : file_message f s m -> Forall identifier s.
  Proof. intros H. apply Hused. left. eapply file_message_name. exact H. Qed.

  Lemma strip_own c ms a x : scope_of f c ms -> In a ms -> In x order0 ->
    (strip c x = p_name a <-> x = dotted (c ++ [p_name a])).
  Proof.
    intros Hc Ha Hx. pose proof (scope_of_message _ _ _ _ Hc Ha) as Hm. pose proof (message_ids _ _ Hm) as Hi.
    apply Forall_app in Hi. destruct Hi as [Hic Hia]. inversion Hia as [|? ? [Ha0 Had] _]; subst.
    destruct Hclear as (_ & Hjoin & Hnd & Herr).
    assert (HcT : NoDup (c ++ [p_name a])) by (apply Hnd; left; eapply file_message_name; exact Hm).
    split; [|intros ->; apply strip_self; exact Had].
    intros E. destruct (order_mentioned x Hx) as [->|(T & -> & HT)].
    - exfalso. rewrite strip_dotfree in E; [apply (Herr _ _ Hm); congruence|].
      unfold dotfree. vm_compute. intuition discriminate.
    - assert (HTi : Forall identifier T).
      { destruct HT as [HT|[HT|HT]]; [apply Hused; left; exact HT|apply Hused; right; exact HT|subst; exact Hids]. }
      f_equal. destruct c as [|c0 c].
      + pose proof (scope_of_package _ _ _ Hc) as [r Er]. symmetry in Er. apply app_eq_nil in Er. destruct Er as [Er _].
        rewrite strip_nil in E by (apply ids_dotfree; exact HTi).
        destruct HT as [HT|[HT|HT]].
        * cbn. apply Hjoin; [exact Er| |left; exact HT|exact E].
          destruct Hc as [[_ ->]|(m0 & (top & _ & H) & _)]; [exact Ha|]. destruct (inside_parent _ _ _ _ H) as (q & E' & _). destruct q; discriminate.
        * cbn. apply Hjoin; [exact Er| |right; exact HT|exact E].
          destruct Hc as [[_ ->]|(m0 & (top & _ & H) & _)]; [exact Ha|]. destruct (inside_parent _ _ _ _ H) as (q & E' & _). destruct q; discriminate.
        * exfalso. subst T. rewrite Er in E. cbn in E. congruence.
      + apply strip_scope; [discriminate|apply ids_dotfree; exact Hic|apply ids_dotfree; exact HTi| |exact Had|exact Ha0|exact E].
        destruct HT as [HT|[HT|HT]]; [apply Hnd; left; exact HT|apply Hnd; right; exact HT|].
        subst T. pose proof (scope_of_package _ _ _ Hc) as [r Er]. rewrite Er in HcT. rewrite <- app_assoc in HcT.
        clear - HcT. induction (p_package f) as [|n p IH]; [constructor|]. cbn in HcT. inversion HcT; subst. constructor; [|auto].
        intros H. apply H1. apply in_or_app. left. exact H.
  Qed.

  (** A message comes after the messages it is nested in. *)
  Lemma outer_before c m s m' : (exists ms, scope_of f c ms /\ In m ms) -> inside c m s m' ->
    s = c ++ [p_name m] \/ before order0 (dotted (c ++ [p_name m])) (dotted s).
  Proof.
    intros Hc H. induction H as [p m|p n nested enums fields oneofs a s m' Ha H IH]; [left; reflexivity|right].
    destruct Hc as (ms & Hc & Hm). pose proof (scope_of_nested _ _ _ _ Hc Hm) as Hn. cbn [p_name p_nested] in *.
    pose proof (scope_of_message _ _ _ _ Hn Ha) as Hma. destruct (data_message _ _ Hma) as (q & Eq & Hd).
    apply app_inj_tail in Eq. destruct Eq as [<- _].
    assert (Hb : before order0 (dotted (p ++ [n])) (dotted ((p ++ [n]) ++ [p_name a]))).
    { eapply topo_before; [exact Hd|apply own_namespace|]. intros E. apply dotted_inj in E.
      - apply (f_equal (@length text)) in E. rewrite !app_length in E. cbn in E. lia.
      - apply ids_dotfree. eapply message_ids. eapply scope_of_message in Hm; [|exact Hc]. exact Hm.
      - apply ids_dotfree. eapply message_ids. exact Hma. }
    destruct IH as [->|IH]; [exists nested; split; assumption|exact Hb|].
    eapply before_trans; [apply topo_NoDup|exact Hb|exact IH].
  Qed.

  Lemma scope_before s m T : file_message f s m -> type_in s m T -> T = s \/ before order0 (dotted s) (dotted T).
  Proof.
    intros H HT. pose proof (file_type_in _ _ _ _ H HT) as HTn. destruct HT as [->|(e & He & ->)]; [left; reflexivity|right].
    pose proof H as (top & Ht & Hi). eapply topo_before; [eapply data_top; [exact Ht|eapply enum_entry; eassumption]|left; reflexivity|].
    intros E. apply dotted_inj in E.
    - apply (f_equal (@length text)) in E. rewrite !app_length in E. cbn in E. lia.
    - apply ids_dotfree. eapply message_ids. exact H.
    - apply ids_dotfree. apply Hused. left. exact HTn.
  Qed.

  Lemma siblings_index c ms a b s m T X mX g : scope_of f c ms -> In a ms -> In b ms -> p_name a <> p_name b ->
    inside c a s m -> inside c b X mX -> type_in X mX T -> In g (m_fields m) -> refers g T ->
    (sorted_index c (p_name b) order 0 0 < sorted_index c (p_name a) order 0 0)%nat.
  Proof.
    intros Hc Ha Hb Hne Hs HX HT Hg Hr.
    pose proof (scope_of_message _ _ _ _ Hc Ha) as Hma. pose proof (scope_of_message _ _ _ _ Hc Hb) as Hmb.
    pose proof (scope_of_inside _ _ _ _ _ _ Hc Ha Hs) as Hms. pose proof (scope_of_inside _ _ _ _ _ _ Hc Hb HX) as HmX.
    pose proof (file_type_in _ _ _ _ HmX HT) as HTn.
    assert (HXb : prefix (c ++ [p_name b]) X) by (eapply inside_prefix; exact HX).
    assert (HTb : prefix (c ++ [p_name b]) T).
    { eapply prefix_trans; [exact HXb|]. destruct HT as [->|(e & _ & ->)]; [apply prefix_refl|apply prefix_snoc]. }
    assert (Hsa : prefix (c ++ [p_name a]) s) by (eapply inside_prefix; exact Hs).
    assert (HTs : T <> s) by (intros ->; apply Hne; eapply prefix_branch; eassumption).
    assert (Hst : starts_with (dotted (c ++ [p_name a])) (dotted T) = false).
    { destruct (starts_with _ _) eqn:E; [|reflexivity]. apply starts_with_spec in E. exfalso. apply Hne.
      eapply prefix_branch; [|exact HTb]. destruct Hclear as (H & _). eapply H; [exact Hma| |exact E].
      left. exact HTn. }
    destruct (data_message _ _ Hma) as (q & Eq & Hd). apply app_inj_tail in Eq. destruct Eq as [<- _].
    assert (Hda : Forall dotfree (c ++ [p_name a])) by (apply ids_dotfree; eapply message_ids; exact Hma).
    assert (Hdb : Forall dotfree (c ++ [p_name b])) by (apply ids_dotfree; eapply message_ids; exact Hmb).
    assert (HdT : Forall dotfree T) by (apply ids_dotfree; apply Hused; left; exact HTn).
    assert (H1 : before order0 (dotted T) (dotted (c ++ [p_name a]))).
    { eapply topo_before; [exact Hd| |].
      - eapply deps_fields; eassumption.
      - intros E. apply dotted_inj in E; [|assumption|assumption]. subst T. apply Hne. eapply prefix_branch; [apply prefix_refl|exact HTb]. }
    assert (H2 : before order0 (dotted (c ++ [p_name b])) (dotted (c ++ [p_name a]))).
    { assert (H3 : before order0 (dotted X) (dotted (c ++ [p_name a]))).
      { destruct (scope_before _ _ _ HmX HT) as [E|H]; [rewrite <- E; exact H1|]. eapply before_trans; [apply topo_NoDup|exact H|exact H1]. }
      destruct (outer_before c b X mX) as [->|H]; [exists ms; split; assumption|exact HX|exact H3|].
      eapply before_trans; [apply topo_NoDup|exact H|exact H3]. }
    assert (Hpk : forall n, dotted (c ++ [n]) <> dotted (p_package f) \/ ~ identifier n).
    { intros n. destruct (text_dec n []) as [->|Hn]; [right; intros [H _]; congruence|].
      destruct (in_dec Z.eq_dec 46 n) as [Hi|Hi]; [right; intros [_ H]; contradiction|left].
      intros E. apply dotted_inj in E.
      - pose proof (prefix_length _ _ (scope_of_package _ _ _ Hc)) as L. rewrite <- E, app_length in L. cbn in L. lia.
      - apply Forall_app in Hda. apply Forall_app. split; [apply Hda|]. constructor; [exact Hi|constructor].
      - apply ids_dotfree. exact Hids. }
    assert (Hia : identifier (p_name a)).
    { pose proof (message_ids _ _ Hma) as H. apply Forall_app in H. destruct H as [_ H]. inversion H; assumption. }
    assert (Hib : identifier (p_name b)).
    { pose proof (message_ids _ _ Hmb) as H. apply Forall_app in H. destruct H as [_ H]. inversion H; assumption. }
    assert (Hord : before order (dotted (c ++ [p_name b])) (dotted (c ++ [p_name a])) /\ NoDup order /\ forall z, In z order -> In z order0).
    { assert (Horder : order = order0 \/ order = remove_first (dotted (p_package f)) order0).
      { unfold order. clear. destruct (p_package f); [left|right]; reflexivity. }
      pose proof topo_NoDup as Hnd0. destruct Horder as [->| ->]; [split; [exact H2|split; [exact Hnd0|auto]]|]. split; [|split].
      - apply remove_first_before; [| |exact H2].
        + destruct (Hpk (p_name b)) as [H|H]; [exact H|contradiction].
        + destruct (Hpk (p_name a)) as [H|H]; [exact H|contradiction].
      - apply remove_first_NoDup. exact Hnd0.
      - intros z. apply remove_first_In. }
    destruct Hord as (Ho1 & Ho2 & Ho3). eapply sorted_index_before; [exact Ho2|exact Ho1| |].
    - intros z Hz. eapply strip_own; [exact Hc|exact Hb|apply Ho3; exact Hz].
    - intros z Hz. eapply strip_own; [exact Hc|exact Ha|apply Ho3; exact Hz].
  Qed.
End File.

(** ** The sorted definitions are the definitions of the sorted messages *)

Definition leb_index (order : list text) (c : path) (a b : pmsg) : bool :=
  Nat.leb (sorted_index c (p_name a) order 0 0) (sorted_index c (p_name b) order 0 0).
Fixpoint sort_pmsg (order : list text) (c : path) (m : pmsg) : pmsg :=
  match m with
  | PMsg n nested enums fields oneofs =>
      PMsg n (sort (leb_index order (c ++ [n])) (map (sort_pmsg order (c ++ [n])) nested)) enums fields oneofs
  end.
Definition sort_pmsgs (order : list text) (c : path) (ms : list pmsg) : list pmsg :=
  sort (leb_index order c) (map (sort_pmsg order c) ms).

Lemma sort_map {A B} (g : A -> B) leb leb' l : (forall x y, leb (g x) (g y) = leb' x y) -> sort leb (map g l) = map g (sort leb' l).
Proof.
  intros H. induction l as [|x l IH]; cbn; [reflexivity|]. rewrite IH. generalize (sort leb' l). clear IH l. intros l.
  induction l as [|y l IH]; cbn; [reflexivity|]. rewrite H. destruct (leb' x y); [reflexivity|]. cbn. rewrite IH. reflexivity.
Qed.

Lemma sort_pmsg_name order c m : p_name (sort_pmsg order c m) = p_name m.
Proof. destruct m. reflexivity. Qed.
Lemma sort_pmsg_fields order c m : m_fields (sort_pmsg order c m) = m_fields m.
Proof. destruct m. reflexivity. Qed.
Lemma d_scope_define c m : d_scope (define c m) = c ++ [p_name m].
Proof. destruct m. reflexivity. Qed.
Lemma d_name_define c m : d_name (define c m) = p_name m.
Proof. unfold d_name. rewrite d_scope_define. apply last_last. Qed.

Lemma sort_definitions_define order c ms : sort_definitions c order (map (define c) ms) = map (define c) (sort (leb_index order c) ms).
Proof. unfold sort_definitions. apply sort_map. intros x y. unfold leb_index. rewrite !d_name_define. reflexivity. Qed.

Lemma sort_nested_define order m : forall c, sort_nested order (define c m) = define c (sort_pmsg order c m).
Proof.
  induction m as [n nested enums fields oneofs IH] using pmsg_induction. intros c. cbn [sort_nested define sort_pmsg]. f_equal.
  rewrite <- sort_definitions_define. f_equal. rewrite !map_map. apply map_ext_in. intros a Ha. rewrite Forall_forall in IH. apply IH. exact Ha.
Qed.

Lemma sort_file_sorted f ds : sort_file f = Some ds -> exists order0,
  let order := match p_package f with [] => order0 | _ => remove_first (dotted (p_package f)) order0 end in
  toposort_flatten (concat (map (fun m => snd (toposort_add_msg (p_package f) m)) (p_msgs f))) = Some order0
  /\ ds = map (define (p_package f)) (sort_pmsgs order (p_package f) (p_msgs f)).
Proof.
  unfold sort_file. destruct (toposort_flatten _) as [order0|]; [|discriminate]. intros H. exists order0. split; [reflexivity|].
  injection H as <-. set (order := match p_package f with [] => _ | _ => _ end). clearbody order.
  rewrite sort_definitions_define. unfold sort_pmsgs.
  rewrite (sort_map (sort_pmsg order (p_package f)) _ (leb_index order (p_package f))).
  - rewrite !map_map. apply map_ext. intros m. apply sort_nested_define.
  - intros x y. unfold leb_index. rewrite !sort_pmsg_name. reflexivity.
Qed.

Lemma inside_sorted order m : forall c s m', inside c m s m' -> inside c (sort_pmsg order c m) s (sort_pmsg order (removelast s) m').
Proof.
  intros c s m' H. induction H as [p m|p n nested enums fields oneofs a s m' Ha H IH].
  - rewrite removelast_last. rewrite <- (sort_pmsg_name order p m) at 1. apply inside_self.
  - cbn [sort_pmsg]. eapply inside_nested; [|exact IH]. apply sort_In. apply in_map. exact Ha.
Qed.
Lemma sorted_inside order m : forall c s m', inside c (sort_pmsg order c m) s m' ->
  exists m0, inside c m s m0 /\ m' = sort_pmsg order (removelast s) m0.
Proof.
  induction m as [n nested enums fields oneofs IH] using pmsg_induction. intros c s m' H.
  apply inside_inv in H. cbn [sort_pmsg p_name p_nested] in H. destruct H as [[-> ->]|(a & Ha & H)].
  - exists (PMsg n nested enums fields oneofs). split; [apply (inside_self c (PMsg n nested enums fields oneofs))|].
    rewrite removelast_last. reflexivity.
  - apply sort_In in Ha. apply in_map_iff in Ha. destruct Ha as (a0 & <- & Ha). rewrite Forall_forall in IH.
    destruct (IH a0 Ha _ _ _ H) as (m0 & H0 & ->). exists m0. split; [|reflexivity]. eapply inside_nested; eassumption.
Qed.

(** ** The order of completion *)

Fixpoint post (p : path) (m : pmsg) : list path :=
  match m with PMsg n nested _ _ _ => concat (map (post (p ++ [n])) nested) ++ [p ++ [n]] end.

Lemma all_messages_define m : forall c, all_messages (define c m) = post c m.
Proof.
  induction m as [n nested enums fields oneofs IH] using pmsg_induction. intros c. cbn [define all_messages post]. f_equal. f_equal.
  rewrite map_map. apply map_ext_in. intros a Ha. rewrite Forall_forall in IH. apply IH. exact Ha.
Qed.
Lemma post_In m : forall c s, In s (post c m) <-> exists m', inside c m s m'.
Proof.
  induction m as [n nested enums fields oneofs IH] using pmsg_induction. intros c s. cbn [post]. rewrite in_app_iff, in_concat.
  rewrite Forall_forall in IH. split.
  - intros [(l & Hl & Hs)|[<-|[]]].
    + apply in_map_iff in Hl. destruct Hl as (a & <- & Ha). apply (IH a Ha) in Hs. destruct Hs as [m' Hs]. exists m'. eapply inside_nested; eassumption.
    + eexists. apply (inside_self c (PMsg n nested enums fields oneofs)).
  - intros [m' H]. apply inside_inv in H. destruct H as [[-> ->]|(a & Ha & H)]; [right; left; reflexivity|left].
    exists (post (c ++ [n]) a). split; [apply in_map; exact Ha|]. apply IH; [exact Ha|]. exists m'. exact H.
Qed.

Lemma before_concat {A} (ls : list (list A)) a b x y : before ls a b -> In x a -> In y b -> before (concat ls) x y.
Proof.
  intros (l1 & l2 & l3 & ->) Hx Hy. rewrite concat_app. cbn [concat]. rewrite concat_app. cbn [concat].
  apply before_app_r. apply before_app; [exact Hx|]. apply in_or_app. right. apply in_or_app. left. exact Hy.
Qed.
Lemma before_map {A B} (g : A -> B) l a b : before l a b -> before (map g l) (g a) (g b).
Proof. intros (l1 & l2 & l3 & ->). exists (map g l1), (map g l2), (map g l3). rewrite map_app. cbn. rewrite map_app. reflexivity. Qed.
Lemma before_concat_in {A} (ls : list (list A)) a x y : In a ls -> before a x y -> before (concat ls) x y.
Proof.
  intros Ha H. apply in_split in Ha. destruct Ha as (l1 & l2 & ->). rewrite concat_app. cbn. apply before_app_r, before_app_l. exact H.
Qed.
Lemma NoDup_concat_eq {A B} (g : A -> list B) l a b x : NoDup (concat (map g l)) -> In a l -> In b l -> In x (g a) -> In x (g b) -> a = b.
Proof.
  induction l as [|c l IH]; cbn; [intros _ []|]. intros Hn Ha Hb Hx Hx'.
  assert (Hd : forall y, In y (g c) -> ~ In y (concat (map g l))).
  { intros y Hy Hy'. clear - Hn Hy Hy'. induction (g c) as [|z gs IHg]; [destruct Hy|]. cbn in Hn. inversion Hn; subst.
    destruct Hy as [->|Hy]; [apply H1; apply in_or_app; right; exact Hy'|auto]. }
  assert (Hn' : NoDup (concat (map g l))).
  { clear - Hn. induction (g c) as [|z gs IHg]; [exact Hn|]. cbn in Hn. inversion Hn; subst. auto. }
  destruct Ha as [->|Ha], Hb as [->|Hb]; [reflexivity| | |auto].
  - exfalso. apply (Hd x Hx). apply in_concat. eexists. split; [apply in_map; exact Hb|exact Hx'].
  - exfalso. apply (Hd x Hx'). apply in_concat. eexists. split; [apply in_map; exact Ha|exact Hx].
Qed.
Lemma NoDup_concat_in {A} (ls : list (list A)) l : NoDup (concat ls) -> In l ls -> NoDup l.
Proof.
  intros Hn Hl. apply in_split in Hl. destruct Hl as (l1 & l2 & ->). rewrite concat_app in Hn. cbn in Hn.
  apply NoDup_app_remove_l in Hn. apply NoDup_app_remove_r in Hn. exact Hn.
Qed.

(** The declarations of a message, in their order. *)
Fixpoint pscript (p : path) (m : pmsg) : list event :=
  match m with
  | PMsg n nested enums _ _ =>
      map (fun e => Declared (p ++ [n] ++ [e])) enums ++ concat (map (pscript (p ++ [n])) nested)
      ++ [Uses (p ++ [n]); Declared (p ++ [n])]
  end.
Lemma pscript_uses order m : forall c s m', inside c m s m' -> In (Uses s) (pscript c (sort_pmsg order c m)).
Proof.
  intros c s m' H. induction H as [p m|p n nested enums fields oneofs a s m' Ha H IH].
  - destruct m. cbn [sort_pmsg pscript p_name]. apply in_or_app. right. apply in_or_app. right. left. reflexivity.
  - cbn [sort_pmsg pscript]. apply in_or_app. right. apply in_or_app. left. apply in_concat. eexists. split; [|exact IH].
    apply in_map. apply sort_In. apply in_map. exact Ha.
Qed.
Lemma pscript_declared order m : forall c s m' T, inside c m s m' -> type_in s m' T -> In (Declared T) (pscript c (sort_pmsg order c m)).
Proof.
  intros c s m' T H HT. induction H as [p m|p n nested enums fields oneofs a s m' Ha H IH].
  - destruct m as [n nested enums fields oneofs]. cbn [sort_pmsg pscript p_name m_enums] in *. apply in_or_app.
    destruct HT as [->|(e & He & ->)].
    + right. apply in_or_app. right. right. left. reflexivity.
    + left. apply in_map_iff. exists e. split; [rewrite <- app_assoc; reflexivity|exact He].
  - cbn [sort_pmsg pscript]. apply in_or_app. right. apply in_or_app. left. apply in_concat. eexists. split; [|apply IH; exact HT].
    apply in_map. apply sort_In. apply in_map. exact Ha.
Qed.

Section FileOrder.
  Variable f : pfile.
  Variable order0 : list text.
  Let order := match p_package f with [] => order0 | _ => remove_first (dotted (p_package f)) order0 end.
  Hypothesis Htopo : toposort_flatten (concat (map (fun m => snd (toposort_add_msg (p_package f) m)) (p_msgs f))) = Some order0.
  Hypothesis Hclear : clear_names f.
  Hypothesis Hids : Forall identifier (p_package f).
  Hypothesis Hused : forall T, In T (file_type_names f) \/ file_ref f T -> Forall identifier T.
  Hypothesis Hnames : NoDup (concat (map (type_names (p_package f)) (p_msgs f))).

  Variables (s T X : path) (m0 mX : pmsg) (g : pfield).
  Hypothesis Hg : In g (m_fields m0).
  Hypothesis Hr : refers g T.
  Hypothesis HTX : type_in X mX T.
  Hypothesis Henc : T = X -> ~ prefix X s.

  Lemma type_names_self c a : In (c ++ [p_name a]) (type_names c a).
  Proof. destruct a. left. reflexivity. Qed.

  Lemma list_before c ms : scope_of f c ms -> NoDup (concat (map (type_names c) ms)) ->
    (forall m, In m ms -> inside c m s m0 -> inside c m X mX -> before (pscript c (sort_pmsg order c m)) (Declared T) (Uses s)) ->
    forall a b, In a ms -> In b ms -> inside c a s m0 -> inside c b X mX ->
    before (concat (map (pscript c) (sort_pmsgs order c ms))) (Declared T) (Uses s).
  Proof.
    intros Hc Hn Hsame a b Ha Hb Hs HX.
    assert (Pa : In (Uses s) (pscript c (sort_pmsg order c a))) by (eapply pscript_uses; exact Hs).
    assert (Pb : In (Declared T) (pscript c (sort_pmsg order c b))) by (eapply pscript_declared; eassumption).
    destruct (text_dec (p_name a) (p_name b)) as [E|Hne].
    - assert (a = b).
      { eapply (NoDup_concat_eq (type_names c)); [exact Hn|exact Ha|exact Hb|apply type_names_self|]. rewrite E. apply type_names_self. }
      subst b. eapply before_concat_in; [|apply Hsame; eassumption].
      apply in_map. apply sort_In. apply in_map. exact Ha.
    - eapply before_concat; [|exact Pb|exact Pa]. apply before_map. unfold sort_pmsgs. apply sort_before.
      + unfold leb_index. intros x y. rewrite !Nat.leb_gt, !Nat.leb_le. lia.
      + unfold leb_index. intros x y z. rewrite !Nat.leb_le. lia.
      + apply in_map. exact Hb.
      + apply in_map. exact Ha.
      + unfold leb_index. rewrite !sort_pmsg_name. apply Nat.leb_gt.
        eapply (siblings_index f order0 Htopo Hclear Hids Hused Hnames); eassumption.
  Qed.

  Lemma msg_before m : forall c ms, scope_of f c ms -> In m ms -> NoDup (type_names c m) ->
    inside c m s m0 -> inside c m X mX -> before (pscript c (sort_pmsg order c m)) (Declared T) (Uses s).
  Proof.
    induction m as [n nested enums fields oneofs IH] using pmsg_induction. intros c ms Hc Hm Hn Hs HX.
    pose proof (scope_of_nested _ _ _ _ Hc Hm) as Hcn. cbn [p_name p_nested] in Hcn.
    assert (Hnn : NoDup (concat (map (type_names (c ++ [n])) nested))).
    { cbn [type_names] in Hn. inversion Hn as [|? ? _ Hn']; subst. apply NoDup_app_remove_l in Hn'. exact Hn'. }
    cbn [sort_pmsg pscript].
    apply inside_inv in HX. cbn [p_name p_nested] in HX. destruct HX as [[HX EX]|(b & Hb & HX)].
    { destruct HTX as [HT|(e & He & ->)].
      - exfalso. apply (Henc HT). rewrite HX. apply inside_prefix in Hs. exact Hs.
      - apply before_app.
        + subst X mX. cbn [m_enums] in He. apply in_map_iff. exists e. split; [rewrite <- app_assoc; reflexivity|exact He].
        + apply (pscript_uses order) in Hs. cbn [sort_pmsg pscript] in Hs. apply in_app_or in Hs. destruct Hs as [Hs|Hs]; [|exact Hs].
          apply in_map_iff in Hs. destruct Hs as (e' & E & _). discriminate. }
    apply before_app_r. apply inside_inv in Hs. cbn [p_name p_nested] in Hs. destruct Hs as [[-> _]|(a & Ha & Hs)].
    - apply before_app; [|left; reflexivity]. apply in_concat. exists (pscript (c ++ [n]) (sort_pmsg order (c ++ [n]) b)).
      split; [apply in_map, sort_In, in_map; exact Hb|]. eapply pscript_declared; eassumption.
    - apply before_app_l. apply (list_before (c ++ [n]) nested Hcn Hnn) with (a := a) (b := b); try assumption.
      intros m Hm' H1 H2. rewrite Forall_forall in IH. eapply IH; try eassumption.
      eapply NoDup_concat_in; [exact Hnn|]. apply in_map. exact Hm'.
  Qed.

  Lemma file_before : file_message f s m0 -> file_message f X mX ->
    before (concat (map (pscript (p_package f)) (sort_pmsgs order (p_package f) (p_msgs f)))) (Declared T) (Uses s).
  Proof.
    intros (a & Ha & Hs) (b & Hb & HX). assert (Hc : scope_of f (p_package f) (p_msgs f)) by (left; split; reflexivity).
    apply (list_before _ _ Hc Hnames) with (a := a) (b := b); try assumption.
    intros m Hm H1 H2. eapply msg_before; try eassumption. eapply NoDup_concat_in; [exact Hnames|]. apply in_map. exact Hm.
  Qed.
End FileOrder.
