(** * GenLonger: a message whose name continues that of another message, which uses it. *)
From Coq Require Import String.
From Verif Require Import Base Schema Printf Generator SpecGenerator GenOrder GenSort GenReg GenRender GenTypes GenOnce GenNames GenProps SpecLonger GenAccept GenSingle.
From Coq Require Import List Permutation ZifyBool ZifyNat Lia.

Lemma text_leb_total a : forall b, text_leb a b = false -> text_leb b a = true.
Proof. induction a as [|x a IH]; intros [|y b]; cbn; try discriminate; try reflexivity. specialize (IH b). destruct (text_leb a b), (text_leb b a); lia. Qed.
Lemma text_leb_trans a : forall b c, text_leb a b = true -> text_leb b c = true -> text_leb a c = true.
Proof.
  induction a as [|x a IH]; intros [|y b] [|z c]; cbn; try discriminate; try reflexivity. specialize (IH b c).
  destruct (text_leb a b), (text_leb b c); try specialize (IH eq_refl eq_refl); destruct (text_leb a c); lia.
Qed.
Lemma text_leb_longer a r : r <> [] -> text_leb (a ++ r) a = false.
Proof. intros Hr. induction a as [|x a IH]; cbn; [destruct r; [contradiction|reflexivity]|]. rewrite IH. lia. Qed.

(** ** Items that only wait for the first ones come next, sorted *)

Lemma free_items (data : list (text * list text)) k :
  In k (map fst (filter (fun '(_, ds) => match ds with [] => true | _ => false end) data)) <-> In (k, []) data.
Proof.
  rewrite in_map_iff. split.
  - intros [[k' ds] [E Hi]]. cbn in E. subst k'. apply filter_In in Hi. destruct Hi as [Hi Hd]. destruct ds; [exact Hi|discriminate].
  - intros Hi. exists (k, []). split; [reflexivity|]. apply filter_In. split; [exact Hi|reflexivity].
Qed.
Definition later (free : list text) (data : list (text * list text)) : list (text * list text) :=
  map (fun '(k, ds) => (k, filter (fun d => negb (mem d free)) ds)) (filter (fun '(k, _) => negb (mem k free)) data).
Lemma later_In free data k ds : In (k, ds) data -> ~ In k free -> In (k, filter (fun d => negb (mem d free)) ds) (later free data).
Proof.
  intros H Hk. unfold later. apply in_map_iff. exists (k, ds). split; [reflexivity|]. apply filter_In. split; [exact H|]. apply mem_not_In. exact Hk.
Qed.
Lemma later_keys free data : map fst (later free data) = map fst (filter (fun '(k, _) => negb (mem k free)) data).
Proof. unfold later. rewrite map_map. apply map_ext. intros [? ?]. reflexivity. Qed.
Lemma loop_step fuel data order : toposort_loop (S fuel) data = Some order ->
  let free := map fst (filter (fun '(_, ds) => match ds with [] => true | _ => false end) data) in
  (data = [] /\ order = []) \/ exists rest, toposort_loop fuel (later free data) = Some rest /\ order = sort text_leb free ++ rest.
Proof.
  cbn [toposort_loop]. intros H. cbv zeta. fold (later (map fst (filter (fun '(_, ds) => match ds with [] => true | _ => false end) data)) data) in H.
  set (free := map fst (filter _ data)) in *. clearbody free. destruct free as [|a l].
  - destruct data; [|discriminate]. left. split; congruence.
  - right. destruct (toposort_loop fuel _) as [rest|] eqn:E; [|discriminate]. exists rest. split; [reflexivity|congruence].
Qed.

Lemma second_layer fuel data order k1 ds1 k2 ds2 : NoDup (map fst data) -> toposort_loop fuel data = Some order ->
  In (k1, ds1) data -> In (k2, ds2) data -> ds1 <> [] -> ds2 <> [] -> (forall d, In d ds1 -> In (d, []) data) ->
  text_leb k2 k1 = false -> before order k1 k2.
Proof.
  intros Hn H H1 H2 N1 N2 Hd Hlt. destruct fuel as [|fuel]; [discriminate|]. apply loop_step in H. cbv zeta in H.
  set (free := map fst (filter _ data)) in *. assert (Hf : forall k, In k free <-> In (k, []) data) by (intros k; apply free_items). clearbody free.
  destruct H as [[-> _]|(rest & H & ->)]; [destruct H1|]. apply before_app_r.
  assert (K : forall k ds, In (k, ds) data -> ds <> [] -> ~ In k free).
  { intros k ds Hi Hne Hk. apply Hf in Hk. apply Hne. eapply NoDup_keys_eq; [exact Hn|exact Hi|exact Hk]. }
  pose proof (later_In free data _ _ H1 (K _ _ H1 N1)) as L1. pose proof (later_In free data _ _ H2 (K _ _ H2 N2)) as L2.
  assert (E1 : filter (fun d => negb (mem d free)) ds1 = []).
  { destruct (filter _ ds1) as [|d l] eqn:E; [reflexivity|]. assert (Hi : In d (filter (fun d => negb (mem d free)) ds1)) by (rewrite E; left; reflexivity).
    apply filter_In in Hi. destruct Hi as [Hi Hm]. apply mem_not_In in Hm. exfalso. apply Hm, Hf, Hd. exact Hi. }
  rewrite E1 in L1. assert (Hn' : NoDup (map fst (later free data))) by (rewrite later_keys; apply NoDup_map_filter; exact Hn).
  set (data' := later free data) in *. clearbody data'. clear - H L1 L2 Hn' Hlt.
  destruct fuel as [|fuel]; [discriminate|]. apply loop_step in H. cbv zeta in H.
  set (free' := map fst (filter _ data')) in *. assert (Hf : forall k, In k free' <-> In (k, []) data') by (intros k; apply free_items). clearbody free'.
  destruct H as [[-> _]|(rest' & H & ->)]; [destruct L1|].
  destruct (in_dec text_dec k2 free') as [Hi|Hi].
  - apply before_app_l. apply sort_before; [exact (fun x => text_leb_total x)|exact (fun x => text_leb_trans x)|apply Hf; exact L1|exact Hi|exact Hlt].
  - apply before_app; [apply sort_In, Hf; exact L1|].
    apply toposort_loop_ok in H; [|rewrite later_keys; apply NoDup_map_filter; exact Hn'].
    apply H. eapply In_fst. apply later_In; [exact L2|exact Hi].
Qed.

Lemma flatten_second data order k1 ds1 k2 ds2 : NoDup (map fst data) -> toposort_flatten data = Some order ->
  In (k1, ds1) data -> In (k2, ds2) data ->
  (exists d, In d ds1 /\ ~ In d (map fst data)) -> (exists d, In d ds2 /\ ~ In d (map fst data)) ->
  (forall d, In d ds1 -> d = k1 \/ ~ In d (map fst data)) -> text_leb k2 k1 = false -> before order k1 k2.
Proof.
  intros Hn H H1 H2 (a1 & Ha1 & Hno1) (a2 & Ha2 & Hno2) Hd Hlt. unfold toposort_flatten in H.
  set (data1 := map (fun '(k, ds) => (k, filter (fun d => negb (text_eqb d k)) ds)) data) in *.
  set (extra := nodup text_dec (filter (fun d => negb (mem d (map fst data1))) (concat (map snd data1)))) in *.
  assert (E1 : map fst data1 = map fst data) by (unfold data1; rewrite map_map; apply map_ext; intros [? ?]; reflexivity).
  assert (Em : map fst (data1 ++ map (fun e => (e, @nil text)) extra) = map fst data1 ++ extra).
  { rewrite map_app, map_map. f_equal. apply map_id. }
  assert (Hin : forall k ds, In (k, ds) data -> In (k, filter (fun d => negb (text_eqb d k)) ds) data1).
  { intros k ds Hi. apply in_map_iff. exists (k, ds). split; [reflexivity|exact Hi]. }
  assert (Hkeep : forall k ds d, In (k, ds) data -> In d ds -> ~ In d (map fst data) -> In d (filter (fun d => negb (text_eqb d k)) ds)).
  { intros k ds d Hi Hdi Hno. apply filter_In. split; [exact Hdi|]. destruct (text_eqb d k) eqn:E; [|reflexivity]. apply text_eqb_eq in E. subst d.
    exfalso. apply Hno. eapply In_fst. exact Hi. }
  eapply second_layer; [|exact H|apply in_or_app; left; apply Hin; exact H1|apply in_or_app; left; apply Hin; exact H2| | | |exact Hlt].
  - rewrite Em. apply NoDup_app; [rewrite E1; exact Hn|apply NoDup_nodup|]. intros k K1 K2. unfold extra in K2. apply nodup_In, filter_In in K2.
    destruct K2 as [_ K2]. apply mem_not_In in K2. contradiction.
  - intros E. pose proof (Hkeep _ _ _ H1 Ha1 Hno1) as Hi. rewrite E in Hi. destruct Hi.
  - intros E. pose proof (Hkeep _ _ _ H2 Ha2 Hno2) as Hi. rewrite E in Hi. destruct Hi.
  - intros d Hi. pose proof Hi as Hi'. apply filter_In in Hi'. destruct Hi' as [Hds Hne]. destruct (Hd d Hds) as [->|Hno]; [rewrite text_eqb_refl in Hne; discriminate|].
    apply in_or_app. right. apply in_map_iff. exists d. split; [reflexivity|]. unfold extra. apply nodup_In, filter_In. split; [|apply mem_not_In; rewrite E1; exact Hno].
    apply in_concat. eexists. split; [apply in_map, Hin; exact H1|exact Hi].
Qed.

(** ** The keys of the dependencies *)

Section Longer.
  Variables (f : pfile) (order0 : list text).
  Let data := concat (map (fun m => snd (toposort_add_msg (p_package f) m)) (p_msgs f)).
  Let order := match p_package f with [] => order0 | _ => remove_first (dotted (p_package f)) order0 end.
  Hypothesis Htopo : toposort_flatten data = Some order0.
  Hypothesis Hplain : plain_names f.
  Hypothesis Hids : Forall identifier (p_package f).
  Hypothesis Hused : forall T, In T (file_type_names f) \/ file_ref f T -> Forall identifier T.
  Hypothesis Hnames : NoDup (concat (map (type_names (p_package f)) (p_msgs f))).

  Lemma key_inv k : In k (map fst data) -> exists T, k = dotted T /\ In T (file_type_names f) /\ prefix (p_package f) T /\ T <> p_package f.
  Proof.
    intros H.
    assert (P : Permutation (map fst data) (map dotted (concat (map (type_names (p_package f)) (p_msgs f))))).
    { unfold data. rewrite !concat_map, !map_map. apply concat_perm. clear. induction (p_msgs f) as [|m ms IH]; cbn; [constructor|constructor; [apply add_msg_keys|exact IH]]. }
    apply (Permutation_in _ P) in H. apply in_map_iff in H. destruct H as (T & <- & HT). exists T. split; [reflexivity|].
    split; [unfold file_type_names; apply in_or_app; right; exact HT|].
    apply in_concat in HT. destruct HT as (l & Hl & HT). apply in_map_iff in Hl. destruct Hl as (m & <- & Hm).
    apply type_names_inv in HT. destruct HT as (X & mX & Hi & HX). apply inside_prefix in Hi.
    assert (Hp : prefix (p_package f ++ [p_name m]) T).
    { eapply prefix_trans; [exact Hi|]. destruct HX as [->|(e & _ & ->)]; [apply prefix_refl|apply prefix_snoc]. }
    split; [eapply prefix_trans; [apply prefix_snoc|exact Hp]|]. intros ->. apply prefix_length in Hp. rewrite app_length in Hp. cbn in Hp. lia.
  Qed.

  Lemma package_no_key : ~ In (dotted (p_package f)) (map fst data).
  Proof.
    intros H. apply key_inv in H. destruct H as (T & E & HT & _ & Hne). apply dotted_inj in E; [congruence|apply ids_dotfree; exact Hids|].
    apply ids_dotfree, Hused. left. exact HT.
  Qed.

  Lemma strip_plain a x : In a (p_msgs f) -> In x order0 -> (strip (p_package f) x = p_name a <-> x = dotted (p_package f ++ [p_name a])).
  Proof.
    intros Ha Hx. assert (Hc : scope_of f (p_package f) (p_msgs f)) by (left; split; reflexivity).
    pose proof (scope_of_message _ _ _ _ Hc Ha) as Hm.
    assert (Hi : Forall identifier (p_package f ++ [p_name a])) by (apply Hused; left; eapply file_message_name; exact Hm).
    apply Forall_app in Hi. destruct Hi as [_ Hia]. inversion Hia as [|? ? [Ha0 Had] _]; subst.
    destruct Hplain as (Hjoin & Hnd & Herr).
    assert (HcT : NoDup (p_package f ++ [p_name a])) by (apply Hnd; left; eapply file_message_name; exact Hm).
    split; [|intros ->; apply strip_self; exact Had].
    intros E. destruct (order_mentioned f order0 Htopo Hused Hnames x Hx) as [->|(T & -> & HT)].
    - exfalso. rewrite strip_dotfree in E; [apply (Herr _ _ Hm); congruence|]. unfold dotfree. vm_compute. intuition discriminate.
    - assert (HTi : Forall identifier T).
      { destruct HT as [HT|[HT|HT]]; [apply Hused; left; exact HT|apply Hused; right; exact HT|subst; exact Hids]. }
      f_equal. destruct (p_package f) as [|c0 c] eqn:Ep.
      + rewrite strip_nil in E by (apply ids_dotfree; exact HTi). destruct HT as [HT|[HT|HT]].
        * apply Hjoin; [reflexivity|exact Ha|left; exact HT|exact E].
        * apply Hjoin; [reflexivity|exact Ha|right; exact HT|exact E].
        * exfalso. subst T. cbn in E. congruence.
      + apply strip_scope; [discriminate|apply ids_dotfree; exact Hids|apply ids_dotfree; exact HTi| |exact Had|exact Ha0|exact E].
        destruct HT as [HT|[HT|HT]]; [apply Hnd; left; exact HT|apply Hnd; right; exact HT|]. subst T. apply NoDup_app_remove_r in HcT. exact HcT.
  Qed.

  Variables (M X : pmsg) (r : text).
  Hypothesis HM : In M (p_msgs f).
  Hypothesis HX : In X (p_msgs f).
  Hypothesis Hr : r <> [].
  Hypothesis Ename : p_name X = p_name M ++ r.
  Hypothesis Halike : starts_alike f M.

  Lemma longer_deps d : In d (fst (toposort_add_msg (p_package f) M)) -> ~ In d (map fst data).
  Proof.
    intros Hd Hk. pose proof Hk as Hk'. apply key_inv in Hk'. destruct Hk' as (K & -> & HK & _ & HKne).
    assert (HdK : Forall dotfree K) by (apply ids_dotfree, Hused; left; exact HK).
    destruct (deps_inv _ _ _ Hd) as [E|[E|(s & m & g & T & Hi & Hg & HrT & HT & E & Hcase)]].
    - rewrite E in Hk. exact (package_no_key Hk).
    - destruct K as [|k K]; [discriminate|]. rewrite dotted_cons in E. discriminate.
    - assert (Href : file_ref f T) by (exists s, m, g; split; [exists M; split; assumption|split; assumption]).
      apply dotted_inj in E; [|exact HdK|apply ids_dotfree, Hused; right; exact Href]. subst K.
      destruct (Halike _ _ _ _ Hi Hg HrT HK) as [Hst Hown]. destruct Hcase as [Hcase|(-> & -> & Hcase)].
      + change full_name with dotted in Hst. apply starts_with_spec in Hst. congruence.
      + destruct (Hown eq_refl) as [->|(x & ->)]; [contradiction|]. apply Hcase. unfold local_names. apply in_map_iff. exists x. split; [reflexivity|].
        eapply (child_in f); [exact Hnames| | |exact HK].
        * exists M. split; [exact HM|exact Hi].
        * intros E. apply (f_equal (@length text)) in E. rewrite app_length in E. cbn in E. lia.
  Qed.

  Lemma longer_index : (sorted_index (p_package f) (p_name M) order 0 0 < sorted_index (p_package f) (p_name X) order 0 0)%nat.
  Proof.
    assert (Hb : before order0 (dotted (p_package f ++ [p_name M])) (dotted (p_package f ++ [p_name X]))).
    { eapply (flatten_second data order0); [apply (data_keys f Hused Hnames)|exact Htopo| | | | | |].
      - apply (data_top f M); [exact HM|apply own_entry].
      - apply (data_top f X); [exact HX|apply own_entry].
      - exists (dotted (p_package f)). split; [apply own_namespace|exact package_no_key].
      - exists (dotted (p_package f)). split; [apply own_namespace|exact package_no_key].
      - intros d Hd. right. apply longer_deps. exact Hd.
      - rewrite Ename, !dotted_app. cbn [dotted map concat]. rewrite !app_nil_r, !app_assoc. apply text_leb_longer. exact Hr. }
    assert (Hpk : forall a, In a (p_msgs f) -> dotted (p_package f ++ [p_name a]) <> dotted (p_package f)).
    { intros a Ha E. apply package_no_key. rewrite <- E. eapply In_fst. apply (data_top f a); [exact Ha|apply own_entry]. }
    assert (Hord : before order (dotted (p_package f ++ [p_name M])) (dotted (p_package f ++ [p_name X])) /\ NoDup order /\ forall z, In z order -> In z order0).
    { assert (Horder : order = order0 \/ order = remove_first (dotted (p_package f)) order0).
      { unfold order. clear. destruct (p_package f); [left|right]; reflexivity. }
      pose proof (topo_NoDup f order0 Htopo Hused Hnames) as Hnd0. destruct Horder as [->| ->]; [split; [exact Hb|split; [exact Hnd0|auto]]|]. split; [|split].
      - apply remove_first_before; [apply Hpk; exact HM|apply Hpk; exact HX|exact Hb].
      - apply remove_first_NoDup. exact Hnd0.
      - intros z. apply remove_first_In. }
    destruct Hord as (Ho1 & Ho2 & Ho3). eapply sorted_index_before; [exact Ho2|exact Ho1| |];
      intros z Hz; (apply strip_plain; [assumption|apply Ho3; exact Hz]).
  Qed.

  Lemma longer_before s m : inside (p_package f) M s m ->
    before (concat (map (pscript (p_package f)) (sort_pmsgs order (p_package f) (p_msgs f)))) (Uses s) (Declared (p_package f ++ [p_name X])).
  Proof.
    intros Hs. eapply before_concat with (a := pscript (p_package f) (sort_pmsg order (p_package f) M)) (b := pscript (p_package f) (sort_pmsg order (p_package f) X)).
    - apply before_map. unfold sort_pmsgs. apply sort_before.
      + unfold leb_index. intros x y. rewrite !Nat.leb_gt, !Nat.leb_le. lia.
      + unfold leb_index. intros x y z. rewrite !Nat.leb_le. lia.
      + apply in_map. exact HM.
      + apply in_map. exact HX.
      + unfold leb_index. rewrite !sort_pmsg_name. apply Nat.leb_gt. exact longer_index.
    - eapply pscript_uses. exact Hs.
    - eapply pscript_declared; [apply inside_self|left; reflexivity].
  Qed.
End Longer.

Lemma generated_longer limit request hs f M X r s m :
  legal request -> imports_first request -> In f request -> plain_names f -> In M (p_msgs f) -> In X (p_msgs f) ->
  p_name X = p_name M ++ r -> r <> [] -> starts_alike f M -> generate limit request = Some hs -> inside (p_package f) M s m ->
  ~ before (script hs) (Declared (p_package f ++ [p_name X])) (Uses s).
Proof.
  intros Hl Himp Hf Hpl HM HX En Hr Hal Hgen Hs Hb. destruct (generate_written _ _ _ Hgen) as (mss & st & _ & _ & Hw).
  pose proof (script_once _ _ _ Hl Hw) as Hnd.
  assert (Hb' : before (script hs) (Uses s) (Declared (p_package f ++ [p_name X]))); [|exact (before_neq _ _ _ Hnd (before_trans _ _ _ _ Hnd Hb Hb') eq_refl)].
  destruct (Forall2_In_l _ _ _ _ Hw Hf) as (h & Hh & Hwf). apply before_concat_in with (a := header_script h); [apply in_map; exact Hh|].
  destruct (written_script _ _ _ Hwf) as (ms & (order0 & Hto & ->) & ->). apply before_app_r.
  pose proof Hl as (Hlf & Hnn & _). rewrite Forall_forall in Hlf. destruct (Hlf f Hf) as (Hids & _).
  assert (Hsub : forall x, In x (file_type_names f) -> In x (concat (map file_type_names request))).
  { intros x Hx. apply in_concat. exists (file_type_names f). split; [apply in_map; exact Hf|exact Hx]. }
  eapply (longer_before f order0 Hto Hpl Hids) with (M := M) (r := r) (m := m); try assumption.
  - intros T' [H|(s' & m' & g' & Hm' & Hg' & Hr')]; apply (legal_ids _ _ Hl); [apply Hsub; exact H|].
    eapply import_name; [exact Himp|exists f; split; [exact Hf|exact Hm']|exact Hg'|exact Hr'].
  - apply in_split in Hf. destruct Hf as (l1 & l2 & ->). rewrite map_app, concat_app in Hnn. apply NoDup_app_remove_l in Hnn. cbn in Hnn.
    apply NoDup_app_remove_r in Hnn. unfold file_type_names in Hnn. apply NoDup_app_remove_l in Hnn. exact Hnn.
Qed.

Lemma longer_rejected limit request f M X r s m g :
  legal request -> imports_first request -> In f request -> plain_names f -> In M (p_msgs f) -> In X (p_msgs f) ->
  p_name X = p_name M ++ r -> r <> [] -> starts_alike f M -> inside (p_package f) M s m -> In g (m_fields m) ->
  pf_repeated g = false -> pf_type g = PMessage (p_package f ++ [p_name X]) -> generate limit request = None.
Proof.
  intros Hl Himp Hf Hpl HM HX En Hr Hal Hs Hg Hrep Ht. destruct (generate limit request) as [hs|] eqn:Hgen; [exfalso|reflexivity].
  apply (generated_longer limit request hs f M X r s m); try assumption. eapply (generated_single limit request hs s m g); try assumption.
  - exists f. split; [exact Hf|]. exists M. split; assumption.
  - intros Hp. apply inside_prefix in Hs. pose proof (prefix_branch _ _ _ _ Hp Hs) as E. rewrite En in E. apply Hr.
    apply (f_equal (@length Z)) in E. rewrite app_length in E. destruct r; [reflexivity|cbn in E; lia].
Qed.
