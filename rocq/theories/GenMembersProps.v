(** * GenMembersProps: which messages give a class with correct names. *)
From Coq Require Import String.
From Verif Require Import Base Schema Printf Generator SpecGenerator GenMembers SpecMembers GenOrder GenSort GenReg GenRender GenTypes GenOnce GenProps GenMemberKeys GenMembersProofs GenMembersUses.
From Coq Require Import List ZifyBool ZifyNat Lia.

(** ** The names of a definition *)

Lemma define_oneofs_names s fields names : forall index, incl (map fst (define_oneofs s fields index names)) names.
Proof.
  induction names as [|n names IH]; intros index x H; [exact H|]. cbn [define_oneofs] in H. rewrite map_app in H. apply in_app_or in H.
  destruct H as [H|H]; [|right; eapply IH; exact H]. left.
  destruct (oneof_members fields index) as [|h r]; [destruct H|]. destruct (pf_optional h); [destruct H|]. destruct H as [H|[]]. exact H.
Qed.
Lemma define_oneofs_NoDup s fields names : NoDup names -> forall index, NoDup (map fst (define_oneofs s fields index names)).
Proof.
  induction names as [|n names IH]; intros Hn index; [constructor|]. inversion Hn as [|? ? Hx Hl]; subst. cbn [define_oneofs]. rewrite map_app.
  apply NoDup_app; [|apply IH; exact Hl|].
  - destruct (oneof_members fields index) as [|h r]; [constructor|]. destruct (pf_optional h); [constructor|]. constructor; [intros []|constructor].
  - intros x H1 H2. apply define_oneofs_names in H2. destruct (oneof_members fields index) as [|h r]; [destruct H1|].
    destruct (pf_optional h); [destruct H1|]. destruct H1 as [<-|[]]. contradiction.
Qed.

Definition plain_fields (m : pmsg) : list pfield :=
  filter (fun f => match pf_oneof f with None => true | Some _ => pf_optional f end) (m_fields m).
Definition chosen_fields (m : pmsg) : list pfield := let 'PMsg _ _ _ fields oneofs := m in chosen fields 0 oneofs.
Lemma d_plain_define p m : d_plain (define p m) = map pf_name (plain_fields m).
Proof. destruct m as [n nested enums fields oneofs]. cbn [define d_plain plain_fields m_fields]. rewrite map_map. reflexivity. Qed.
Lemma d_chosen_define p m : d_chosen (define p m) = map pf_name (chosen_fields m).
Proof. destruct m as [n nested enums fields oneofs]. cbn [define d_chosen chosen_fields]. rewrite define_oneofs_chosen, map_map. reflexivity. Qed.
Lemma d_nested_define p m : d_nested (define p m) = nested_names m.
Proof.
  destruct m as [n nested enums fields oneofs]. cbn [define d_nested nested_names]. rewrite map_map. f_equal. apply map_ext. intros a. apply d_name_define.
Qed.
Lemma names_define p m : msg_legal m -> NoDup (d_names (define p m)) /\ (forall n, In n (d_names (define p m)) <-> In n (field_names m)).
Proof.
  intros Hl. pose proof (legal_names m Hl) as Hnd. pose proof (legal_oneofs m Hl) as Hok. unfold d_names. rewrite d_plain_define, d_chosen_define, <- map_app. split.
  - rewrite map_app. apply NoDup_app; [apply NoDup_map_filter; exact Hnd|destruct m; apply chosen_NoDup; exact Hnd|].
    intros x H1 H2. apply in_map_iff in H1, H2. destruct H1 as (g1 & <- & H1), H2 as (g2 & E & H2). apply filter_In in H1. destruct H1 as [Hf1 Ho1].
    destruct m as [n nested enums fields oneofs]. cbn [chosen_fields m_fields m_oneofs] in *.
    apply chosen_In in H2. destruct H2 as (i & h & _ & Hf2 & Ho2 & Hh & Hoh & Hopt).
    assert (g2 = g1) by (eapply NoDup_names_eq; eassumption). subst. rewrite Ho2 in Ho1.
    destruct (Hok g1 i Hf1 Ho2) as [_ Ha]. rewrite (Ha Ho1 h Hh Hoh) in Hopt. congruence.
  - intros n. pose proof (fun f => msg_fields_In p m f Hok) as Hmf. unfold msg_fields in Hmf. rewrite removelast_last in Hmf.
    assert (E : map pf_name (plain_fields m ++ chosen_fields m) = map f_name (d_fields (define p m))).
    { rewrite map_app, <- (d_plain_define p m), <- (d_chosen_define p m). destruct (define p m) as [s nested enums fields oneofs]. cbn [d_plain d_chosen d_fields].
      unfold all_fields. rewrite map_app. reflexivity. }
    rewrite E, in_map_iff. unfold field_names. rewrite in_map_iff. split.
    + intros (f & <- & Hf). apply Hmf in Hf. destruct Hf as (g & Hg & ->). exists g. auto.
    + intros (g & <- & Hg). exists (factory (p ++ [p_name m]) g). split; [reflexivity|]. apply Hmf. exists g. auto.
Qed.

Lemma map_upper_sub (l1 l2 : list text) : NoDup l1 -> incl l1 l2 -> NoDup (map upper l2) -> NoDup (map upper l1).
Proof.
  intros Hn Hi Hu. induction Hn as [|x l Hx Hn IH]; [constructor|]. cbn [map]. constructor; [|apply IH; intros y Hy; apply Hi; right; exact Hy].
  intros H. apply in_map_iff in H. destruct H as (y & E & Hy). apply Hx.
  replace x with y; [exact Hy|]. eapply (NoDup_map_eq upper l2); [exact Hu|apply Hi; right; exact Hy|apply Hi; left; reflexivity|exact E].
Qed.

Lemma neat_define params p m : msg_legal m -> clear_members params m -> neat_class params (define p m).
Proof.
  intros Hl (Hnd & Hu & Hns & Ha & Ht & He & Hp & Hc). destruct (names_define p m Hl) as [HnF HF].
  assert (HO : incl (d_oneofs (define p m)) (oneof_names m)) by (destruct m as [n nested enums fields oneofs]; cbn [define d_oneofs oneof_names]; apply define_oneofs_names).
  assert (Hsub : forall a, In a (d_name (define p m) :: d_names (define p m) ++ d_oneofs (define p m) ++ d_nested (define p m)) -> In a (all_names m)).
  { intros a [<-|H]; [rewrite d_name_define; left; reflexivity|]. right. rewrite d_nested_define, !in_app_iff, HF in H. rewrite !in_app_iff.
    destruct H as [H|[H|H]]; auto. }
  assert (Hsub' : forall a, In a (d_name (define p m) :: d_names (define p m) ++ d_oneofs (define p m) ++ d_nested (define p m) ++ params) -> In a (all_names m ++ params)).
  { intros a H. apply in_or_app. destruct H as [H|H]; [left; apply Hsub; left; exact H|]. rewrite !app_assoc, in_app_iff in H. destruct H as [H|H]; [|right; exact H].
    left. apply Hsub. right. rewrite app_assoc. exact H. }
  assert (Hb : forall b, In b (d_names (define p m) ++ d_oneofs (define p m)) -> In b (field_names m ++ oneof_names m)).
  { intros b H. rewrite in_app_iff, HF in *. destruct H as [H|H]; auto. }
  split; [|split; [|split; [|split; [|split; [|split; [|split]]]]]].
  - unfold all_names in Hnd. rewrite d_name_define, d_nested_define. inversion Hnd as [|? ? Hx Hr]; subst.
    apply NoDup_app_inv in Hr. destruct Hr as (_ & HON & Hd). apply NoDup_app_inv in HON. destruct HON as (HOn & HN & HON).
    constructor.
    + intros H. apply Hx. rewrite !in_app_iff, HF in *. destruct H as [H|[H|H]]; auto.
    + apply NoDup_app; [exact HnF|apply NoDup_app; [|exact HN|]|].
      * destruct m as [n nested enums fields oneofs]. apply define_oneofs_NoDup. exact HOn.
      * intros x H1 H2. apply (HON x); auto.
      * intros x H1 H2. apply (Hd x); [apply HF; exact H1|]. rewrite in_app_iff in *. destruct H2; auto.
  - eapply map_upper_sub; [exact HnF| |exact Hu]. intros x. apply HF.
  - intros H. apply Hns. apply in_map_iff in H. destruct H as (x & E & Hx). rewrite <- E. apply in_map. apply HF. exact Hx.
  - intros a H. apply Ha. apply Hsub. exact H.
  - intros a H. apply Ht. apply Hsub'. exact H.
  - intros a H. apply He. apply Hsub'. exact H.
  - intros a b q H1 H2. apply Hp; [apply Hsub'; exact H1|apply Hb; exact H2].
  - intros a b H1 H2. apply Hc; [apply Hsub'; exact H1|apply HF; exact H2].
Qed.

Lemma recursive_refers s g : recursive (factory s g) = true <-> refers g s.
Proof.
  unfold recursive, factory, refers_to, refers. cbn [f_class]. split.
  - destruct (pf_type g) as [sc| | |T|T] eqn:E.
    1,2,3: destruct (pf_repeated g); unfold single_factory; rewrite ?E; discriminate.
    all: unfold path_eqb; destruct (path_dec T s) as [->|]; [auto|]; destruct (pf_repeated g); unfold single_factory; rewrite ?E; discriminate.
  - intros [E|E]; rewrite E; unfold path_eqb; destruct (path_dec s s); congruence.
Qed.

Lemma present_define p m : msg_legal m -> no_recursive_presence p m -> present_ok (define p m).
Proof.
  intros Hl Hr. pose proof (legal_oneofs m Hl) as Hok. destruct m as [n nested enums fields oneofs]. cbn [define present_ok]. unfold no_recursive_presence in Hr. cbn [m_fields p_name m_oneofs] in *.
  assert (Hgen : forall g, In g fields -> pf_optional g = true \/ pf_oneof g <> None ->
    recursive (factory (p ++ [n]) g) = false /\ forall max c, f_class (factory (p ++ [n]) g) <> FieldRepeated max c).
  { intros g Hg Hp. destruct (Hr g Hg Hp) as [Hrep Href]. split.
    - destruct (recursive (factory (p ++ [n]) g)) eqn:E; [|reflexivity]. exfalso. apply Href. apply recursive_refers. exact E.
    - intros max c. unfold factory. cbn [f_class]. rewrite Hrep. destruct (refers_to g (p ++ [n])); [discriminate|].
      unfold single_factory. destruct (pf_type g); discriminate. }
  split.
  - intros f Hf Ho. apply in_map_iff in Hf. destruct Hf as (g & <- & Hg). apply filter_In in Hg. destruct Hg as [Hg _]. apply Hgen; [exact Hg|left; exact Ho].
  - intros o f Ho Hf. assert (Hi : In f (concat (map snd (define_oneofs (p ++ [n]) fields 0 oneofs)))) by (apply in_concat; exists (snd o); split; [apply in_map; exact Ho|exact Hf]).
    apply define_oneofs_In in Hi. destruct Hi as (i & g & _ & Hg & Hgi & -> & h & r & Eh & Hopt).
    destruct (Hgen g Hg) as [H1 H2]; [right; congruence|]. split; [exact H1|]. split; [|exact H2]. cbn [f_optional factory].
    destruct (pf_optional g) eqn:Eo; [|reflexivity]. destruct (Hok g i Hg Hgi) as [_ Ha].
    assert (Hh : In h (oneof_members fields i)) by (rewrite Eh; left; reflexivity). apply oneof_members_In in Hh. destruct Hh as [Hh1 Hh2].
    rewrite (Ha Eo h Hh1 Hh2) in Hopt. congruence.
Qed.

(** ** Correct classes *)

Lemma well_formed_define params p m : msg_legal m -> clear_members params m -> no_recursive_presence p m -> well_formed params (define p m).
Proof.
  intros Hl Hc Hr. pose proof (neat_define params p m Hl Hc) as Hn. pose proof (uses_found params _ Hn (present_define p m Hl Hr)) as Hu.
  pose proof (compatible_pairs _ _ Hn) as Hpairs.
  assert (Hdecl : Forall (may_declare (d_name (define p m)) params) (map fst (class_decls (define p m)))) by (apply Forall_forall; intros n; apply declarable; exact Hn).
  pose proof Hn as (Hnd & Hup & Hns & _ & _ & He & _).
  destruct (define p m) as [scope nested enums fields oneofs] eqn:Ed. unfold well_formed.
  split; [exact Hpairs|]. split; [exact Hdecl|]. split; [|split; [|split]].
  - cbn [field_numbers]. replace (map (fun f => variable_id_name (f_name f)) (fields ++ concat (map snd oneofs))) with (map upper (d_names (MDef scope nested enums fields oneofs))).
    + constructor; [exact Hns|exact Hup].
    + unfold d_names. cbn [d_plain d_chosen]. rewrite <- map_app, map_map. reflexivity.
  - cbn [presence_fields]. rewrite <- (map_map f_name upper). apply map_upper_sub with (l2 := d_names (MDef scope nested enums fields oneofs)); [| |exact Hup].
    + apply NoDup_filter_names. inversion Hnd as [|? ? _ Hr']; subst. apply NoDup_app_inv in Hr'. destruct Hr' as (HF & _). unfold d_names in HF.
      apply NoDup_app_inv in HF. apply HF.
    + intros x Hx. apply in_map_iff in Hx. destruct Hx as (f & <- & Hf). apply filter_In in Hf. unfold d_names. apply in_or_app. left.
      cbn [d_plain]. apply in_map. apply Hf.
  - apply Forall_forall. intros o Ho. split.
    + unfold union_members. inversion Hnd as [|? ? _ Hr']; subst. apply NoDup_app_inv in Hr'. destruct Hr' as (HF & _). unfold d_names in HF.
      apply NoDup_app_inv in HF. destruct HF as (_ & HF & _). cbn [d_chosen] in HF.
      assert (Ho' : NoDup (map f_name (snd o))).
      { rewrite concat_map, map_map in HF. apply (NoDup_concat_in _ _ HF). apply (in_map (fun x => map f_name (snd x))). exact Ho. }
      clear - Ho'. induction (snd o) as [|f l IH]; [constructor|]. cbn [map concat] in *. inversion Ho' as [|? ? Hx Hl]; subst. unfold member_variable at 1.
      destruct (recursive f); [auto|]. cbn [app]. constructor; [|auto]. intros H. apply Hx. apply in_concat in H. destruct H as (l' & Hl' & H).
      apply in_map_iff in Hl'. destruct Hl' as (g & <- & Hg). unfold member_variable in H. destruct (recursive g); [destruct H|]. destruct H as [H|[]].
      unfold variable_name in H. apply app_inv_tail in H. rewrite <- H. apply in_map. exact Hg.
    + intros H. unfold union_members in H. apply in_concat in H. destruct H as (l' & Hl' & H).
      apply in_map_iff in Hl'. destruct Hl' as (g & <- & Hg). unfold member_variable in H. destruct (recursive g); [destruct H|]. destruct H as [H|[]].
      apply (He (fst o)) with (r := f_name g); [|symmetry; exact H]. right. rewrite !in_app_iff. right. left. cbn [d_oneofs]. apply in_map. exact Ho.
  - exact Hu.
Qed.

(** ** Declared by a field *)

Lemma field_key p m g : msg_legal m -> In g (m_fields m) -> exists oneof,
  forall t k, In (t, k) (shapes oneof (factory (p ++ [p_name m]) g)) -> In (t, pf_name g, k) (class_keys (define p m)).
Proof.
  intros Hl Hg. pose proof (legal_oneofs m Hl) as Hok. pose proof (msg_fields_In p m (factory (p ++ [p_name m]) g) Hok) as Hmf.
  unfold msg_fields in Hmf. rewrite removelast_last in Hmf. assert (Hin : In (factory (p ++ [p_name m]) g) (d_fields (define p m))) by (apply Hmf; exists g; auto).
  destruct (define p m) as [scope nested enums fields oneofs]. cbn [d_fields] in Hin. unfold all_fields in Hin. apply in_app_or in Hin. destruct Hin as [Hin|Hin].
  - exists false. intros t k Hs. cbn [class_keys]. rewrite !in_app_iff. do 2 right. left. apply in_concat. exists (field_keys false (factory (p ++ [p_name m]) g)).
    split; [apply in_map; exact Hin|]. unfold field_keys. apply in_map_iff. exists (t, k). auto.
  - exists true. intros t k Hs. cbn [class_keys]. rewrite !in_app_iff. do 3 right. left. apply in_concat in Hin. destruct Hin as (l & Hi & Hf).
    apply in_map_iff in Hi. destruct Hi as (o & <- & Ho). apply in_concat. exists (oneof_accessor_keys o). split; [apply in_map; exact Ho|]. right.
    apply in_concat. exists (field_keys true (factory (p ++ [p_name m]) g)). split; [apply in_map; exact Hf|]. unfold field_keys. apply in_map_iff. exists (t, k). auto.
Qed.
Lemma field_common p m g s : msg_legal m -> In g (m_fields m) -> In s [pre "clear_" [] false; pre "get_" [] true; plain_ []; (TConst, DVar)] ->
  In (fst s, pf_name g, snd s) (class_keys (define p m)).
Proof.
  intros Hl Hg Hs. destruct (field_key p m g Hl Hg) as [oneof H]. destruct s as [t k]. apply H. apply shapes_common. exact Hs.
Qed.

(** A call reads the field. *)
Lemma accessor_called params p m g : msg_legal m -> clear_members params m -> In g (m_fields m) -> calls (class_decls (define p m)) (pf_name g) true.
Proof.
  intros Hl Hc Hg. pose proof (neat_define params p m Hl Hc) as Hn. destruct (names_define p m Hl) as [_ HF]. split.
  - apply class_decl_key. exists TPlain, (pf_name g). split; [|reflexivity]. apply (field_common p m g (plain_ []) Hl Hg). cbn [In]. tauto.
  - intros _ H. apply class_decl_key in H. destruct H as (t & b & H & E). destruct (class_keys_valid _ _ _ _ H) as [Hv _].
    assert (HFg : In (pf_name g) (d_names (define p m))) by (apply HF; unfold field_names; apply in_map; exact Hg).
    assert (Hp : valid (d_names (define p m)) (d_oneofs (define p m)) (d_nested (define p m)) TPlain (pf_name g)).
    { cbn [valid]. apply in_or_app. left. exact HFg. }
    destruct (spell_inj _ _ _ _ _ _ _ _ _ Hn Hv Hp (eq_sym E)) as [-> ->]. clear E Hp Hv.
    pose proof Hn as (Hnd & _ & _ & _ & Ht & _). inversion Hnd as [|? ? _ Hnd']; subst. apply NoDup_app_inv in Hnd'. destruct Hnd' as (_ & _ & Hd).
    apply class_keys_In in H. destruct (define p m) as [scope nested enums fields oneofs]. set (d := MDef scope nested enums fields oneofs) in *. clearbody d.
    destruct H as [(_ & E & _)|[(_ & E & _)|[(_ & _ & H)|[(_ & H)|[(_ & E & _)|[(_ & H & N1 & N2 & _)|[(_ & [(_ & E)|(E & _)] & _)|[(E & _)|(_ & H)]]]]]]]];
      try discriminate; try (cbn in H; congruence).
    + apply (Ht (pf_name g)); [right; apply in_or_app; left; exact HFg|apply taken_declared; exact H].
Qed.

Lemma get_called params p m g : msg_legal m -> clear_members params m -> In g (m_fields m) -> calls (class_decls (define p m)) (chars "get_" ++ pf_name g) true.
Proof.
  intros Hl Hc Hg. pose proof (neat_define params p m Hl Hc) as Hn. destruct (names_define p m Hl) as [_ HF]. split.
  - apply class_decl_key. exists (TPre (chars "get_")), (pf_name g). split; [|reflexivity]. apply (field_common p m g (pre "get_" [] true) Hl Hg). cbn [In]. tauto.
  - intros _ H. apply class_decl_key in H. destruct H as (t & b & H & E). destruct (class_keys_valid _ _ _ _ H) as [Hv _].
    assert (HFg : In (pf_name g) (d_names (define p m))) by (apply HF; unfold field_names; apply in_map; exact Hg).
    assert (Hp : valid (d_names (define p m)) (d_oneofs (define p m)) (d_nested (define p m)) (TPre (chars "get_")) (pf_name g)).
    { cbn [valid]. split; [unfold function_prefixes; cbn [map In]; tauto|apply in_or_app; left; exact HFg]. }
    destruct (spell_inj _ _ _ _ _ _ _ _ _ Hn Hv Hp (eq_sym E)) as [-> ->]. clear E Hp Hv.
    apply class_keys_In in H. destruct (define p m) as [scope nested enums fields oneofs].
    destruct H as [(E & _)|[(E & _)|[(_ & _ & H)|[(_ & H)|[(_ & E & _)|[(E & _)|[(_ & [(E & _)|(E & _)] & _)|[(E & _)|(_ & H)]]]]]]]];
      try discriminate; try (destruct H as (_ & H & _); specialize (H eq_refl); discriminate).
    cbn [of_oneof In] in H. repeat (destruct H as [H|H]; [discriminate H|]). destruct H.
Qed.
Lemma accessors_called params p m g : msg_legal m -> clear_members params m -> In g (m_fields m) ->
  calls (class_decls (define p m)) (pf_name g) true /\ calls (class_decls (define p m)) (chars "get_" ++ pf_name g) true.
Proof. intros. split; [eapply accessor_called|eapply get_called]; eassumption. Qed.

(** ** Collisions *)

Lemma compatible_irreflexive x : ~ compatible x x.
Proof. intros H. unfold compatible in H. specialize (H eq_refl). destruct (snd x); [exact H|destruct H; congruence|exact H]. Qed.
Lemma compatible_NoDup l : ForallOrdPairs compatible l -> NoDup l.
Proof.
  intros H. induction H as [|x l Hx H IH]; [constructor|]. constructor; [|exact IH]. intros Hi. rewrite Forall_forall in Hx.
  exact (compatible_irreflexive x (Hx x Hi)).
Qed.
Lemma pairs_keys d k1 k2 : ForallOrdPairs compatible (class_decls d) -> In k1 (class_keys d) -> In k2 (class_keys d) -> decl_of k1 = decl_of k2 -> k1 = k2.
Proof.
  intros H H1 H2 E. apply compatible_NoDup in H. rewrite class_decls_keys in H. eapply NoDup_map_eq; eassumption.
Qed.

Lemma get_collision params p m f g : msg_legal m -> In f (m_fields m) -> In g (m_fields m) -> pf_name g = chars "get_" ++ pf_name f ->
  ~ well_formed params (define p m).
Proof.
  intros Hl Hf Hg E H. assert (Hpairs : ForallOrdPairs compatible (class_decls (define p m))) by (destruct (define p m); apply H).
  pose proof (field_common p m f (pre "get_" [] true) Hl Hf) as H1. pose proof (field_common p m g (plain_ []) Hl Hg) as H2.
  assert (K : (TPre (chars "get_"), pf_name f, DFun [] true) = (TPlain, pf_name g, DFun [] true)).
  { apply (pairs_keys _ _ _ Hpairs); [apply H1; cbn [In]; tauto|apply H2; cbn [In]; tauto|]. cbn [decl_of spell]. rewrite E. reflexivity. }
  discriminate K.
Qed.
Lemma case_collision params p m f g : msg_legal m -> In f (m_fields m) -> In g (m_fields m) -> pf_name f <> pf_name g -> upper (pf_name f) = upper (pf_name g) ->
  ~ well_formed params (define p m).
Proof.
  intros Hl Hf Hg Hne E H. assert (Hpairs : ForallOrdPairs compatible (class_decls (define p m))) by (destruct (define p m); apply H).
  pose proof (field_common p m f (TConst, DVar) Hl Hf) as H1. pose proof (field_common p m g (TConst, DVar) Hl Hg) as H2.
  assert (K : (TConst, pf_name f, DVar) = (TConst, pf_name g, DVar)).
  { apply (pairs_keys _ _ _ Hpairs); [apply H1; cbn [In]; tauto|apply H2; cbn [In]; tauto|]. cbn [decl_of spell]. rewrite E. reflexivity. }
  injection K as K. contradiction.
Qed.
Lemma named_bad params p m g : msg_legal m -> In g (m_fields m) -> In (pf_name g) keywords \/ pf_name g = p_name m -> ~ well_formed params (define p m).
Proof.
  intros Hl Hg Hb H. assert (Hd : Forall (may_declare (d_name (define p m)) params) (map fst (class_decls (define p m)))) by (destruct (define p m); apply H).
  rewrite Forall_forall in Hd. destruct (Hd (pf_name g)) as (Hk & Hc & _).
  - apply in_map_iff. exists (pf_name g, DFun [] true). split; [reflexivity|]. apply class_decl_key. exists TPlain, (pf_name g). split; [|reflexivity].
    apply (field_common p m g (plain_ []) Hl Hg). cbn [In]. tauto.
  - rewrite d_name_define in Hc. destruct Hb; contradiction.
Qed.

(** A field with the name of something that the class uses from outside. *)
Lemma hidden_name params p m g : msg_legal m -> In g (m_fields m) ->
  In (pf_name g) used_always \/ (exists f, In f (m_fields m) /\ pf_repeated f = false /\ In (pf_name g) (used_for (pf_type f))) ->
  ~ well_formed params (define p m).
Proof.
  intros Hl Hg Hu H.
  assert (Hd : In (pf_name g) (map fst (class_decls (define p m)))).
  { apply in_map_iff. exists (pf_name g, DFun [] true). split; [reflexivity|]. apply class_decl_key. exists TPlain, (pf_name g). split; [|reflexivity].
    apply (field_common p m g (plain_ []) Hl Hg). cbn [In]. tauto. }
  assert (Ho : In (Outside (pf_name g)) (named_uses (define p m))).
  { destruct Hu as [Hu|(f & Hf & Hr & Hu)].
    - destruct (define p m) as [scope nested enums fields oneofs]. cbn [named_uses]. rewrite !in_app_iff. do 3 right. left. unfold used_always in Hu.
      apply in_map_iff in Hu. destruct Hu as (n & <- & Hn). apply (in_map (fun n => Outside (chars n))). exact Hn.
    - pose proof (legal_oneofs m Hl) as Hok. pose proof (msg_fields_In p m (factory (p ++ [p_name m]) f) Hok) as Hmf.
      unfold msg_fields in Hmf. rewrite removelast_last in Hmf. assert (Hin : In (factory (p ++ [p_name m]) f) (d_fields (define p m))) by (apply Hmf; exists f; auto).
      destruct (define p m) as [scope nested enums fields oneofs]. cbn [d_fields] in Hin. unfold all_fields in Hin. cbn [named_uses]. rewrite !in_app_iff. do 4 right. left.
      apply in_concat. exists (outside_uses (factory (p ++ [p_name m]) f)). split; [apply in_map; exact Hin|].
      unfold outside_uses, factory, refers_to, single_factory. cbn [f_class]. rewrite Hr.
      destruct (pf_type f) as [sc| | | |]; try (destruct Hu; fail); [destruct sc|]; cbn [used_for In] in Hu; try (destruct Hu; fail); destruct Hu as [<-|[]]; left; reflexivity. }
  assert (Hall : Forall (found (class_decls (define p m)) (map (fun o => (fst o, union_members o)) (let 'MDef _ _ _ _ oneofs := define p m in oneofs))) (named_uses (define p m)))
    by (destruct (define p m); apply H).
  rewrite Forall_forall in Hall. exact (Hall _ Ho Hd).
Qed.

(** A field of the type of its own message, with presence. *)
Lemma recursive_optional params p m g : msg_legal m -> clear_members params m -> In g (m_fields m) -> refers g (p ++ [p_name m]) -> pf_optional g = true ->
  ~ well_formed params (define p m).
Proof.
  intros Hl Hc Hg Href Hopt H. pose proof (neat_define params p m Hl Hc) as Hn. pose proof (legal_oneofs m Hl) as Hok.
  assert (Hrec : recursive (factory (p ++ [p_name m]) g) = true) by (apply recursive_refers; exact Href).
  assert (Hin : let 'MDef _ _ _ fields _ := define p m in In (factory (p ++ [p_name m]) g) fields).
  { destruct m as [n nested enums fields oneofs]. cbn [define m_fields p_name] in *. apply in_map. apply filter_In. split; [exact Hg|]. rewrite Hopt. destruct (pf_oneof g); reflexivity. }
  assert (Huse : found (class_decls (define p m)) [] (Calls true (chars "has_" ++ pf_name g) 0)).
  { destruct (define p m) as [scope nested enums fields oneofs]. destruct H as (_ & _ & _ & _ & _ & Hu). rewrite Forall_forall in Hu.
    apply (Hu (Calls true (chars "has_" ++ pf_name g) 0)). cbn [named_uses]. rewrite !in_app_iff. do 5 right. left. apply in_concat. eexists. split; [apply in_map; exact Hin|].
    apply in_or_app. left. unfold copy_uses. cbn [f_optional factory]. rewrite Hopt. left. reflexivity. }
  destruct Huse as (ps & c & Hd & _ & _). apply class_decl_key in Hd. destruct Hd as (t & b & Hk & E). destruct (class_keys_valid _ _ _ _ Hk) as [Hv _].
  destruct (names_define p m Hl) as [HndF HF].
  assert (HFg : In (pf_name g) (d_names (define p m))) by (apply HF; unfold field_names; apply in_map; exact Hg).
  assert (Hp : valid (d_names (define p m)) (d_oneofs (define p m)) (d_nested (define p m)) (TPre (chars "has_")) (pf_name g)).
  { cbn [valid]. split; [unfold function_prefixes; cbn [map In]; tauto|apply in_or_app; left; exact HFg]. }
  destruct (spell_inj _ _ _ _ _ _ _ _ _ Hn Hv Hp (eq_sym E)) as [-> ->]. clear E Hp Hv.
  assert (Hplain : In (pf_name g) (d_plain (define p m))).
  { destruct (define p m) as [scope nested enums fields oneofs]. cbn [d_plain]. change (pf_name g) with (f_name (factory (p ++ [p_name m]) g)). apply in_map. exact Hin. }
  unfold d_names in HndF. apply NoDup_app_inv in HndF. destruct HndF as (HndP & _ & Hdis).
  pose proof Hn as (Hnd & _). inversion Hnd as [|? ? _ Hnd']; subst. apply NoDup_app_inv in Hnd'. destruct Hnd' as (_ & _ & Hd).
  apply class_keys_In in Hk. destruct (define p m) as [scope nested enums fields oneofs]. 
  destruct Hk as [(E & _)|[(E & _)|[(Hk & _)|[(Hk & _)|[(_ & E & _)|[(E & _)|[(_ & [(E & _)|(E & _)] & _)|[(E & _)|(Hk & _)]]]]]]]];
    try discriminate.
  - apply in_concat in Hk. destruct Hk as (l & Hi & Hk). apply in_map_iff in Hi. destruct Hi as (f & <- & Hf). unfold field_keys in Hk. apply in_map_iff in Hk.
    destruct Hk as ([t k] & E & Hs). unfold own in E. cbn [fst snd] in E. injection E as -> En ->.
    assert (Ef : f = factory (p ++ [p_name m]) g) by (eapply (NoDup_map_eq f_name fields); [exact HndP|exact Hf|exact Hin|exact En]).
    subst f. unfold shapes, recursive in *. destruct (f_class (factory (p ++ [p_name m]) g)); try discriminate. cbn [app In pre plain_] in Hs.
    repeat (destruct Hs as [Hs|Hs]; [discriminate Hs|]). destruct Hs.
  - exact (Hdis _ Hplain Hk).
  - apply (Hd (pf_name g)); [unfold d_names; apply in_or_app; left; exact Hplain|apply in_or_app; left; exact Hk].
Qed.

Lemma recursive_oneof params p m g i : msg_legal m -> clear_members params m -> In g (m_fields m) -> refers g (p ++ [p_name m]) -> pf_oneof g = Some i -> pf_optional g = false ->
  ~ well_formed params (define p m).
Proof.
  intros Hl Hc Hg Href Ho Hopt H. pose proof (neat_define params p m Hl Hc) as Hn. pose proof (legal_oneofs m Hl) as Hok.
  assert (Hrec : recursive (factory (p ++ [p_name m]) g) = true) by (apply recursive_refers; exact Href).
  assert (Hin : let 'MDef _ _ _ _ oneofs := define p m in exists o, In o oneofs /\ In (factory (p ++ [p_name m]) g) (snd o)).
  { pose proof (msg_fields_In p m (factory (p ++ [p_name m]) g) Hok) as Hmf. unfold msg_fields in Hmf. rewrite removelast_last in Hmf.
    destruct m as [n nested enums fields oneofs]. cbn [define m_fields p_name m_oneofs d_fields] in *.
    assert (Hc' : In (factory (p ++ [n]) g) (concat (map snd (define_oneofs (p ++ [n]) fields 0 oneofs)))).
    { destruct (Hok g i Hg Ho) as [Hi _]. apply define_oneofs_In. exists i, g. split; [lia|]. split; [exact Hg|]. split; [exact Ho|]. split; [reflexivity|].
      destruct (oneof_members fields i) as [|h r] eqn:E.
      - exfalso. assert (Hx : In g (oneof_members fields i)) by (apply oneof_members_In; auto). rewrite E in Hx. exact Hx.
      - exists h, r. split; [reflexivity|]. destruct (pf_optional h) eqn:Eh; [|reflexivity].
        assert (Hh : In h (oneof_members fields i)) by (rewrite E; left; reflexivity). apply oneof_members_In in Hh. destruct Hh as [Hh1 Hh2].
        destruct (Hok h i Hh1 Hh2) as [_ Ha]. rewrite (Ha Eh g Hg Ho) in Hopt. congruence. }
    apply in_concat in Hc'. destruct Hc' as (l & Hi & Hf). apply in_map_iff in Hi. destruct Hi as (o & <- & Ho'). exists o. auto. }
  pose proof Hn as (Hnd & _). inversion Hnd as [|? ? _ Hnd']; subst. apply NoDup_app_inv in Hnd'. destruct Hnd' as (HF & HON & _).
  apply NoDup_app_inv in HON. destruct HON as (HO & _ & _). unfold d_names in HF. apply NoDup_app_inv in HF. destruct HF as (_ & HF & _).
  destruct (define p m) as [scope nested enums fields oneofs]. destruct Hin as (o & Ho' & Hf). destruct H as (_ & _ & _ & _ & _ & Hu). rewrite Forall_forall in Hu.
  specialize (Hu (Selects (fst o) (variable_name (pf_name g)))). destruct Hu as (ms & Hms & Hv).
  - cbn [named_uses]. rewrite !in_app_iff. do 6 right. apply in_concat. exists (oneof_uses o). split; [apply in_map; exact Ho'|].
    unfold oneof_uses. rewrite !in_app_iff. do 9 right. left. apply in_map_iff. exists (factory (p ++ [p_name m]) g). auto.
  - apply in_map_iff in Hms. destruct Hms as (o2 & E & Ho2). injection E as E <-.
    assert (o2 = o) by (eapply (NoDup_map_eq fst oneofs); eassumption). subst o2.
    unfold union_members in Hv. apply in_concat in Hv. destruct Hv as (l & Hi & Hv). apply in_map_iff in Hi. destruct Hi as (f & <- & Hf').
    unfold member_variable in Hv. destruct (recursive f) eqn:Er; [destruct Hv|]. destruct Hv as [Hv|[]]. unfold variable_name in Hv. apply app_inv_tail in Hv.
    assert (f = factory (p ++ [p_name m]) g).
    { eapply (NoDup_map_eq f_name (concat (map snd oneofs))); [exact HF| | |exact Hv]; apply in_concat; exists (snd o); (split; [apply in_map; exact Ho'|assumption]). }
    congruence.
Qed.

(** The accessor of a field that is called clear_x, next to a field x. *)
Lemma clear_called p m f g : msg_legal m -> In f (m_fields m) -> In g (m_fields m) -> pf_name g = chars "clear_" ++ pf_name f ->
  In (pf_name g, DFun [] true) (class_decls (define p m)) /\ calls (class_decls (define p m)) (pf_name g) false.
Proof.
  intros Hl Hf Hg E. split.
  - apply class_decl_key. exists TPlain, (pf_name g). split; [|reflexivity]. apply (field_common p m g (plain_ []) Hl Hg). cbn [In]. tauto.
  - split; [|discriminate]. apply class_decl_key. exists (TPre (chars "clear_")), (pf_name f). split; [|exact E].
    apply (field_common p m f (pre "clear_" [] false) Hl Hf). cbn [In]. tauto.
Qed.
Lemma clear_all_called p m g : msg_legal m -> In g (m_fields m) -> pf_name g = chars "clear" ->
  In (pf_name g, DFun [] true) (class_decls (define p m)) /\ calls (class_decls (define p m)) (pf_name g) false.
Proof.
  intros Hl Hg E. split.
  - apply class_decl_key. exists TPlain, (pf_name g). split; [|reflexivity]. apply (field_common p m g (plain_ []) Hl Hg). cbn [In]. tauto.
  - split; [|discriminate]. rewrite E. destruct (define p m) as [scope nested enums fields oneofs]. cbn [class_decls]. rewrite !in_app_iff. do 5 right. left.
    unfold fixed_functions. do 2 right. left. reflexivity.
Qed.
(** The variable of a field and the accessor of another. *)
Lemma underscore_collision params p m f g : msg_legal m -> In f (m_fields m) -> In g (m_fields m) -> pf_name g = pf_name f ++ chars "_" ->
  pf_oneof f = None -> ~ refers f (p ++ [p_name m]) -> ~ well_formed params (define p m).
Proof.
  intros Hl Hf Hg E Ho Href H. assert (Hpairs : ForallOrdPairs compatible (class_decls (define p m))) by (destruct (define p m); apply H).
  assert (H1 : In (TVar, pf_name f, DVar) (class_keys (define p m))).
  { destruct m as [n nested enums fields oneofs]. cbn [define class_keys m_fields p_name] in *. rewrite !in_app_iff. do 6 right. left.
    unfold variable_keys. apply in_map_iff. exists (factory (p ++ [n]) f). split; [reflexivity|]. apply filter_In. split.
    - apply in_map. apply filter_In. split; [exact Hf|]. rewrite Ho. reflexivity.
    - destruct (recursive (factory (p ++ [n]) f)) eqn:Er; [|reflexivity]. exfalso. apply Href. apply recursive_refers. exact Er. }
  assert (H2 : In (TPlain, pf_name g, DFun [] true) (class_keys (define p m))) by (apply (field_common p m g (plain_ []) Hl Hg); cbn [In]; tauto).
  rewrite class_decls_keys in Hpairs. apply (in_map decl_of) in H1. apply (in_map decl_of) in H2.
  destruct (ForallOrdPairs_In Hpairs _ _ H1 H2) as [K|[K|K]]; cbn [decl_of spell] in K.
  - discriminate K.
  - apply (K (eq_sym E)).
  - apply (K E).
Qed.
