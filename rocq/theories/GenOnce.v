(** * GenOnce: no name twice among the member variables and the template parameters of a class. *)
From Coq Require Import String.
From Verif Require Import Base Schema Printf Generator SpecGenerator GenOrder GenSort GenReg GenRender GenTypes.
From Coq Require Import List Permutation ZifyBool ZifyNat Lia.

(** The fields of the oneofs. *)
Fixpoint chosen (fields : list pfield) (index : nat) (names : list text) : list pfield :=
  match names with
  | [] => []
  | _ :: names' =>
      match oneof_members fields index with
      | f :: _ => if pf_optional f then [] else oneof_members fields index
      | [] => []
      end ++ chosen fields (S index) names'
  end.
Lemma define_oneofs_chosen s fields names : forall index,
  concat (map snd (define_oneofs s fields index names)) = map (factory s) (chosen fields index names).
Proof.
  induction names as [|n names IH]; intros index; [reflexivity|]. cbn [define_oneofs chosen]. rewrite map_app, concat_app, map_app, IH. f_equal.
  destruct (oneof_members fields index) as [|h r]; [reflexivity|]. destruct (pf_optional h); [reflexivity|]. cbn [map snd concat]. apply app_nil_r.
Qed.
Lemma oneof_members_In fields i g : In g (oneof_members fields i) <-> In g fields /\ pf_oneof g = Some i.
Proof.
  unfold oneof_members. rewrite filter_In. destruct (pf_oneof g) as [j|]; [|intuition discriminate]. rewrite Nat.eqb_eq. intuition congruence.
Qed.
Lemma chosen_In fields names g : forall index, In g (chosen fields index names) ->
  exists i h, (index <= i)%nat /\ In g fields /\ pf_oneof g = Some i /\ In h fields /\ pf_oneof h = Some i /\ pf_optional h = false.
Proof.
  induction names as [|n names IH]; intros index H; [destruct H|]. cbn [chosen] in H. apply in_app_or in H. destruct H as [H|H].
  - destruct (oneof_members fields index) as [|h r] eqn:E; [destruct H|]. destruct (pf_optional h) eqn:Eo; [destruct H|].
    rewrite <- E in H. apply oneof_members_In in H. assert (Hh : In h (oneof_members fields index)) by (rewrite E; left; reflexivity).
    apply oneof_members_In in Hh. exists index, h. intuition.
  - destruct (IH _ H) as (i & h & Hi & H'). exists i, h. split; [lia|exact H'].
Qed.

Lemma NoDup_names_eq (l : list pfield) g g' : NoDup (map pf_name l) -> In g l -> In g' l -> pf_name g = pf_name g' -> g = g'.
Proof.
  intros Hnd Hg Hg' En. induction l as [|x l IH]; [destruct Hg|].
  cbn in Hnd. inversion Hnd as [|? ? Hx Hl]; subst. destruct Hg as [->|Hg], Hg' as [->|Hg']; [reflexivity| | |auto].
  - exfalso. apply Hx. rewrite En. apply in_map. exact Hg'.
  - exfalso. apply Hx. rewrite <- En. apply in_map. exact Hg.
Qed.
Lemma chosen_NoDup fields names : NoDup (map pf_name fields) -> forall index, NoDup (map pf_name (chosen fields index names)).
Proof.
  intros Hnd. induction names as [|n names IH]; intros index; [constructor|]. cbn [chosen]. rewrite map_app. apply NoDup_app.
  - assert (H : NoDup (map pf_name (oneof_members fields index))) by (apply NoDup_map_filter; exact Hnd).
    destruct (oneof_members fields index) as [|h r]; [constructor|]. destruct (pf_optional h); [constructor|exact H].
  - apply IH.
  - intros x H1 H2. apply in_map_iff in H1, H2. destruct H1 as (g1 & <- & H1), H2 as (g2 & E & H2).
    assert (H1' : In g1 (oneof_members fields index)).
    { destruct (oneof_members fields index) as [|h r]; [destruct H1|]. destruct (pf_optional h); [destruct H1|exact H1]. }
    apply oneof_members_In in H1'. destruct H1' as [Hf1 Ho1]. apply chosen_In in H2. destruct H2 as (i & _ & Hi & Hf2 & Ho2 & _).
    assert (g2 = g1) by (eapply NoDup_names_eq; eassumption). subst. rewrite Ho1 in Ho2. injection Ho2 as ->. lia.
Qed.
Lemma msg_fields_names request s m : legal request -> message request s m -> NoDup (map f_name (msg_fields s m)).
Proof.
  intros Hl Hm. pose proof (legal_message _ _ _ Hl Hm) as Hlm. pose proof (legal_names m Hlm) as Hnd. pose proof (legal_oneofs m Hlm) as Hok.
  unfold msg_fields. destruct m as [n nested enums fields oneofs]. cbn [m_fields m_oneofs define d_fields] in *. unfold all_fields.
  rewrite define_oneofs_chosen. rewrite <- map_app, map_map. cbn [f_name factory].
  change (NoDup (map pf_name (filter (fun f => match pf_oneof f with None => true | Some _ => pf_optional f end) fields ++ chosen fields 0 oneofs))).
  rewrite map_app. apply NoDup_app; [apply NoDup_map_filter; exact Hnd|apply chosen_NoDup; exact Hnd|].
  intros x H1 H2. apply in_map_iff in H1, H2. destruct H1 as (g1 & <- & H1), H2 as (g2 & E & H2). apply filter_In in H1. destruct H1 as [Hf1 Ho1].
  apply chosen_In in H2. destruct H2 as (i & h & _ & Hf2 & Ho2 & Hh & Hoh & Hopt).
  assert (g2 = g1) by (eapply NoDup_names_eq; eassumption). subst. rewrite Ho2 in Ho1.
  destruct (Hok g1 i Hf1 Ho2) as [_ Ha]. rewrite (Ha Ho1 h Hh Hoh) in Hopt. congruence.
Qed.

(** ** Member variables *)

Lemma members_names t s fs : forall mss, sequence (map (member t s) fs) = Some mss ->
  map fst (concat mss) = map f_name (filter (fun f => match f_class f with FieldErrorRecursive => false | _ => true end) fs).
Proof.
  intros mss H. apply sequence_map in H. induction H as [|f ms fs mss Hf H IH]; [reflexivity|]. cbn [concat filter]. rewrite map_app, IH.
  unfold member in Hf. destruct (f_class f) eqn:Ec;
    try (destruct (class_type t s f _); [|discriminate]; cbn in Hf; injection Hf as <-; reflexivity).
  injection Hf as <-. reflexivity.
Qed.
Lemma members_once request t s m c : legal request -> message request s m -> class_of t s m c ->
  NoDup (map fst (c_members c))
  /\ forall n, In n (map fst (c_members c)) <-> exists g, In g (m_fields m) /\ pf_name g = n /\ ~ refers g s.
Proof.
  intros Hl Hm (_ & _ & mss & Hs & ->). rewrite (members_names _ _ _ _ Hs). split.
  - apply NoDup_map_filter. eapply msg_fields_names; eassumption.
  - intros n. rewrite in_map_iff. split.
    + intros (f & <- & Hf). apply filter_In in Hf. destruct Hf as [Hf Hc]. destruct (in_field _ _ _ _ Hm Hf) as (g & Hg & ->).
      exists g. split; [exact Hg|]. split; [reflexivity|]. intros Hr. rewrite (factory_recursive _ _ Hr) in Hc. discriminate.
    + intros (g & Hg & <- & Hr). exists (factory s g). split; [reflexivity|]. apply filter_In. split; [eapply field_in; eassumption|].
      rewrite (factory_plain _ _ Hr). unfold single_factory. destruct (pf_repeated g), (pf_type g); reflexivity.
Qed.

(** ** Template parameters *)

Definition underscores (x : text) : nat := count_occ Z.eq_dec x 95.
Lemma underscores_app x y : underscores (x ++ y) = (underscores x + underscores y)%nat.
Proof. apply count_occ_app. Qed.
Lemma prefix_underscores f : (2 <= underscores (param_prefix f))%nat.
Proof. unfold param_prefix. rewrite !underscores_app. change (underscores (chars "_")) with 1%nat. lia. Qed.

Lemma NoDup_map_app (p : text) l : NoDup l -> NoDup (map (app p) l).
Proof.
  induction 1 as [|x l Hx Hl IH]; cbn; constructor; [|exact IH]. intros H. apply in_map_iff in H. destruct H as (y & E & Hy).
  apply app_inv_head in E. subst. contradiction.
Qed.
Lemma param_inv f x y : param_prefix f ++ x = param_prefix f ++ y -> x = y.
Proof. apply app_inv_head. Qed.

Lemma class_params_once t s g : (forall ref ps, t ref = Some ps -> NoDup ps /\ Forall (fun x => (2 <= underscores x)%nat) ps) ->
  forall ps, class_params t (factory s g) (f_class (factory s g)) = Some ps -> NoDup ps.
Proof.
  intros Ht ps. set (f := factory s g). assert (Hs : forall qs, class_params t f (single_factory g) = Some qs ->
    NoDup qs /\ ~ In (param_prefix f ++ chars "REP_LENGTH") qs).
  { intros qs. unfold single_factory. destruct (pf_type g) as [sc| | |ref|ref]; cbn [class_params].
    - intros H. injection H as <-. split; [constructor|intros []].
    - intros H. injection H as <-. destruct (pf_max g =? 0); [|split; [constructor|intros []]]. split; [constructor; [intros []|constructor]|].
      intros [H|[]]. apply param_inv in H. discriminate.
    - intros H. injection H as <-. destruct (pf_max g =? 0); [|split; [constructor|intros []]]. split; [constructor; [intros []|constructor]|].
      intros [H|[]]. apply param_inv in H. discriminate.
    - intros H. injection H as <-. split; [constructor|intros []].
    - destruct (t ref) as [rs|] eqn:E; [|discriminate]. cbn [option_map]. intros H. injection H as <-. destruct (Ht _ _ E) as [H1 H2]. split; [apply NoDup_map_app; exact H1|].
      intros H. apply in_map_iff in H. destruct H as (x & Ex & Hx). apply param_inv in Ex. subst x. rewrite Forall_forall in H2. apply H2 in Hx.
      vm_compute in Hx. lia. }
  assert (Hf : f_class f = FieldErrorRecursive \/ f_class f = (if pf_repeated g then FieldRepeated (pf_max g) (single_factory g) else single_factory g)).
  { unfold f, factory. cbn [f_class]. destruct (refers_to g s); [left|right]; reflexivity. }
  destruct Hf as [->| ->]; [cbn; intros H; injection H as <-; constructor|]. destruct (pf_repeated g); [|apply Hs].
  cbn [class_params]. destruct (class_params t f (single_factory g)) as [qs|]; [|discriminate]. cbn [option_map]. intros H. injection H as <-.
  destruct (Hs qs eq_refl) as [H1 H2]. destruct (pf_max g =? 0); [|exact H1]. cbn. constructor; assumption.
Qed.

Lemma pss_once (fs : list field) pss : (forall f f' r, In f fs -> In f' fs -> f_name f' ++ chars "_" = f_name f ++ chars "_" ++ r -> f_name f = f_name f') ->
  (forall f f', In f fs -> In f' fs -> f_parent f = f_parent f') -> NoDup (map f_name fs) ->
  Forall2 (fun f ps => NoDup ps /\ Forall (fun x => exists r, x = param_prefix f ++ r) ps) fs pss -> NoDup (concat pss).
Proof.
  intros Hcl Hpar Hnd H. induction H as [|f ps fs pss [Hn Hp] H IH]; [constructor|]. cbn [concat]. cbn in Hnd. inversion Hnd as [|? ? Hx Hnd']; subst. apply NoDup_app.
  - exact Hn.
  - apply IH; [|intros a b Ha Hb; apply Hpar; right; assumption|exact Hnd']. intros a b r Ha Hb. apply Hcl; right; assumption.
  - intros x H1 H2. apply in_concat in H2. destruct H2 as (qs & Hq & H2). destruct (Forall2_In_r _ _ _ _ H Hq) as (f' & Hf' & _ & Hp').
    rewrite Forall_forall in Hp, Hp'. destruct (Hp _ H1) as [r ->]. destruct (Hp' _ H2) as [r' E].
    unfold param_prefix in E. rewrite (Hpar f f' (or_introl eq_refl) (or_intror Hf')) in E. rewrite <- !app_assoc in E. apply app_inv_head in E. apply app_inv_head in E.
    apply Hx. assert (En : f_name f = f_name f'); [|rewrite En; apply in_map; exact Hf'].
    rewrite !app_assoc in E. apply app_eq_app in E. destruct E as (w & [[E1 _]|[E1 _]]).
    + symmetry. apply (Hcl f' f w); [right; exact Hf'|left; reflexivity|]. rewrite E1, <- app_assoc. reflexivity.
    + apply (Hcl f f' w); [left; reflexivity|right; exact Hf'|]. rewrite E1, <- app_assoc. reflexivity.
Qed.

Lemma NoDup_filter_names fs (p : field -> bool) : NoDup (map f_name fs) -> NoDup (map f_name (filter p fs)).
Proof. apply NoDup_map_filter. Qed.

Lemma templates_once request st :
  legal request -> (forall s m, message request s m -> no_clash m) ->
  (forall s m, message request s m -> registered (st s) = filter (needs_in s st) (msg_fields s m)) ->
  (forall s, (exists m, message request s m) \/ registered (st s) = []) ->
  forall l s ps, templates l st s = Some ps -> NoDup ps /\ Forall (fun x => (2 <= underscores x)%nat) ps.
Proof.
  intros Hl Hcl Hreg Hdec. induction l as [|l IH]; intros s ps H; [discriminate|]. cbn [templates] in H.
  destruct (sequence _) as [pss|] eqn:E; [|discriminate]. cbn in H. injection H as <-. apply sequence_map in E.
  destruct (Hdec s) as [[m Hm]|Hnil]; [|rewrite Hnil in E; inversion E; split; constructor].
  rewrite (Hreg s m Hm) in E. split.
  - apply (pss_once (filter (needs_in s st) (msg_fields s m))).
    + intros f f' r Hf Hf'. apply filter_In in Hf, Hf'. destruct (in_field _ _ _ _ Hm (proj1 Hf)) as (g & Hg & ->).
      destruct (in_field _ _ _ _ Hm (proj1 Hf')) as (g' & Hg' & ->). cbn [f_name factory]. apply (Hcl s m Hm g g' r Hg Hg').
    + intros f f' Hf Hf'. apply filter_In in Hf, Hf'. destruct (in_field _ _ _ _ Hm (proj1 Hf)) as (g & Hg & ->).
      destruct (in_field _ _ _ _ Hm (proj1 Hf')) as (g' & Hg' & ->). reflexivity.
    + apply NoDup_filter_names. eapply msg_fields_names; eassumption.
    + assert (Hin : forall f, In f (filter (needs_in s st) (msg_fields s m)) -> exists g, f = factory s g).
      { intros f Hf. apply filter_In in Hf. destruct (in_field _ _ _ _ Hm (proj1 Hf)) as (g & _ & ->). exists g. reflexivity. }
      induction E as [|f qs fs qss Hq E IHE]; constructor.
      * split; [|eapply class_params_prefix; exact Hq]. destruct (Hin f (or_introl eq_refl)) as [g ->]. eapply class_params_once; [exact IH|exact Hq].
      * apply IHE. intros f' Hf'. apply Hin. right. exact Hf'.
  - apply Forall_forall. intros x Hx. apply in_concat in Hx. destruct Hx as (qs & Hq & Hx). destruct (Forall2_In_r _ _ _ _ E Hq) as (f & _ & Ef).
    apply class_params_prefix in Ef. rewrite Forall_forall in Ef. destruct (Ef _ Hx) as [r ->]. rewrite underscores_app. pose proof (prefix_underscores f). lia.
Qed.
