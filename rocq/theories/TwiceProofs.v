(** Decoding the same bytes twice: proofs for C85. *)
From Verif Require Import Base Buffers Wire Schema Fields Message Spec SpecFieldOrder Contracts BitLemmas
  ReadProofs ScalarProofs BufferProofs Struct SerProofs Tables DecodeProofs RoundTrip DecodeProps FieldOrderProofs SpecTwice.
From Coq Require Import ZifyBool ZifyNat ZifyN.
Ltac Zify.zify_post_hook ::= Z.div_mod_to_equations.

(** ** Values of the right shape *)
Definition shape_oneof (ms : list (Z * (sval -> Prop))) (o : Z * sval) : Prop :=
  match lookup ms (fst o) with
  | Some P => match snd o with SvSome x => P x | _ => False end
  | None => True
  end.

Fixpoint shape (t : ety) (v : sval) : Prop :=
  match t with
  | EScalar _ | EBytes _ _ => True
  | EMsg fs os =>
      match v with
      | SvM vs ovs =>
          all2 (fun '(_, k, t) x => match k with
                                    | KPlain => shape t x
                                    | KOpt => match x with SvNone => True | SvSome y => shape t y | _ => False end
                                    | _ => True
                                    end) fs vs
          /\ all2 (fun ms => shape_oneof (map (fun '(num, t) => (num, shape t)) ms)) os ovs
      | _ => False
      end
  end.

Lemma lookup_shape ms n : lookup (map (fun '(num, t) => (num, shape t)) ms) n = option_map shape (lookup ms n).
Proof. induction ms as [|[m t] ms IH]; cbn; [reflexivity|]. destruct (m =? n); [reflexivity|exact IH]. Qed.

Lemma shape_default t : desc_ok t -> shape t (sdefault t).
Proof.
  induction t as [sc|st max|fs os Hf Ho] using ety_ind'; intros Hd; try exact I. cbn [sdefault shape]. split.
  - assert (Hall : forall num k t, In (num, k, t) fs -> desc_ok t).
    { intros num k t Hin. apply In_nth_error in Hin. destruct Hin as [i Hi]. exact (proj1 (desc_field fs os i num k t Hd Hi)). }
    clear Hd. induction Hf as [|[[num k] t] fs H Hf IH]; cbn [map all2]; [exact I|]. split.
    + destruct k; cbn [sdefault_field]; auto. apply H. apply (Hall num KPlain). left. reflexivity.
    + apply IH. intros n k' t' Hin. apply (Hall n k'). right. exact Hin.
  - assert (H0 : forall ms, In ms os -> lookup ms 0 = None).
    { intros ms Hin. destruct (lookup ms 0) as [t|] eqn:E; [|reflexivity]. apply In_nth_error in Hin. destruct Hin as [j Hj].
      destruct (desc_member fs os j ms 0 t Hd Hj E) as [_ Hn]. lia. }
    clear Ho Hd Hf. induction os as [|ms os IH]; cbn [map all2]; [exact I|]. split.
    + unfold shape_oneof. cbn [fst]. rewrite lookup_shape, H0 by (left; reflexivity). exact I.
    + apply IH. intros ms' Hin. apply H0. right. exact Hin.
Qed.

Lemma shape_view t : forall v, wt t v -> shape t (view t v).
Proof.
  induction t as [sc|st max|fs os Hf Ho] using ety_ind'; intros v Hw; try exact I.
  destruct v as [| | | |pres vs ovs]; try contradiction. cbn [wt] in Hw. destruct Hw as (_ & _ & Hw1 & Hw2). cbn [view shape]. split.
  - generalize 0 at 1 as i. revert vs Hw1. induction Hf as [|[[num k] t] fs H Hf IH]; intros [|x vs] Hw1 i; cbn [all2] in Hw1; try contradiction; [exact I|].
    cbn [map view_fields all2]. destruct Hw1 as [Hx Hw1]. split; [|apply IH; exact Hw1].
    destruct k; cbn [wt_field view_field] in *; auto. destruct (present pres i); auto.
  - clear Hf Hw1. revert ovs Hw2. induction Ho as [|ms os H Ho IH]; intros [|o ovs] Hw2; cbn [all2] in Hw2; try contradiction; [exact I|].
    cbn [map view_oneofs all2]. destruct Hw2 as [Hx Hw2]. split; [|apply IH; exact Hw2].
    unfold shape_oneof, view_oneof, wt_oneof in *. rewrite (lookup_map wt) in Hx. rewrite (lookup_map view).
    destruct (lookup ms (fst o)) as [t|] eqn:E; cbn [fst snd].
    + rewrite lookup_shape, E. cbn [option_map]. eapply Forall_forall in H; [|eapply SerProofs.lookup_In; exact E]. apply H. exact Hx.
    + rewrite lookup_shape. rewrite Hx in E. rewrite E. exact I.
Qed.

(** ** Elements without lists are decoded the same way whatever was there before *)
Lemma list_free_field fs os i num k t : list_free (EMsg fs os) -> nth_error fs i = Some (num, k, t) -> list_free t /\ match k with KRep _ => False | _ => True end.
Proof.
  intros [H _] Hi. apply all_Forall in H. eapply Forall_forall in H; [|eapply nth_error_In; exact Hi]. cbn in H. destruct k; tauto.
Qed.
Lemma list_free_member fs os j ms num t : list_free (EMsg fs os) -> nth_error os j = Some ms -> lookup ms num = Some t -> list_free t.
Proof.
  intros [_ H] Hj Hl. apply all_Forall in H. eapply Forall_forall in H; [|eapply nth_error_In; exact Hj]. apply all_Forall in H.
  eapply Forall_forall in H; [|eapply SerProofs.lookup_In; exact Hl]. exact H.
Qed.

Lemma decodes_anyway :
  (forall t old p new, edec t old p new -> desc_ok t -> list_free t ->
     (shape t old -> shape t new) /\ forall old', shape t old' -> exists new', edec t old' p new' /\ shape t new')
  /\ (forall fs os old bs new, mdec fs os old bs new -> desc_ok (EMsg fs os) -> list_free (EMsg fs os) ->
     (shape (EMsg fs os) old -> shape (EMsg fs os) new) /\ forall old', shape (EMsg fs os) old' -> exists new', mdec fs os old' bs new' /\ shape (EMsg fs os) new')
  /\ (forall fs os old r new, rdec fs os old r new -> desc_ok (EMsg fs os) -> list_free (EMsg fs os) ->
     (shape (EMsg fs os) old -> shape (EMsg fs os) new) /\ forall old', shape (EMsg fs os) old' -> exists new', rdec fs os old' r new' /\ shape (EMsg fs os) new').
Proof.
  assert (Hf : forall fs os i num k t tg p bs (old : sval) new, desc_ok (EMsg fs os) -> list_free (EMsg fs os) -> nth_error fs i = Some (num, k, t) -> (k = KPlain \/ k = KOpt) ->
     varint32 tg (num * 8 + wt_code (elem_wiretype t)) -> body t p bs ->
     (desc_ok t -> list_free t -> (shape t old -> shape t new) /\ forall old', shape t old' -> exists new', edec t old' p new' /\ shape t new') ->
     forall old', shape (EMsg fs os) old' -> exists new', rdec fs os old' (tg ++ bs) new' /\ shape (EMsg fs os) new').
  { intros fs os i num k t tg p bs old new Hd Hl Hi Hk Ht Hb IH [| | | | |vs ovs] Hs; try contradiction. pose proof Hs as [H1 H2].
    destruct (IH (proj1 (desc_field _ _ _ _ _ _ Hd Hi)) (proj1 (list_free_field _ _ _ _ _ _ Hl Hi))) as [_ IH'].
    destruct (all2_nth _ _ _ _ _ H1 Hi) as (x & Ex & Hx). destruct Hk as [-> | ->].
    - destruct (IH' x Hx) as (y & Hy & Hsy). exists (SvM (upd i y vs) ovs). split; [eapply rdec_plain; eauto|].
      split; [|exact H2]. eapply all2_upd; [exact H1|exact Hi|exact Hsy].
    - destruct x as [| | | |x|]; try contradiction.
      + destruct (IH' (sdefault t)) as (y & Hy & Hsy); [apply shape_default; exact (proj1 (desc_field _ _ _ _ _ _ Hd Hi))|].
        exists (SvM (upd i (SvSome y) vs) ovs). split; [eapply rdec_opt_absent; eauto|].
        split; [|exact H2]. eapply all2_upd; [exact H1|exact Hi|exact Hsy].
      + destruct (IH' x Hx) as (y & Hy & Hsy). exists (SvM (upd i (SvSome y) vs) ovs). split; [eapply rdec_opt_present; eauto|].
        split; [|exact H2]. eapply all2_upd; [exact H1|exact Hi|exact Hsy]. }
  assert (Ho : forall fs os j ms num t tg p bs (old : sval) new, desc_ok (EMsg fs os) -> list_free (EMsg fs os) -> nth_error os j = Some ms -> lookup ms num = Some t ->
     varint32 tg (num * 8 + wt_code (elem_wiretype t)) -> body t p bs ->
     (desc_ok t -> list_free t -> (shape t old -> shape t new) /\ forall old', shape t old' -> exists new', edec t old' p new' /\ shape t new') ->
     forall old', shape (EMsg fs os) old' -> exists new', rdec fs os old' (tg ++ bs) new' /\ shape (EMsg fs os) new').
  { intros fs os j ms num t tg p bs old new Hd Hl Hj Hm Ht Hb IH [| | | | |vs ovs] Hs; try contradiction. pose proof Hs as [H1 H2].
    destruct (IH (proj1 (desc_member _ _ _ _ _ _ Hd Hj Hm)) (list_free_member _ _ _ _ _ _ Hl Hj Hm)) as [_ IH'].
    destruct (all2_nth _ _ _ _ _ H2 Hj) as ([w x] & Ex & Hx). unfold shape_oneof in Hx. cbn [fst snd] in Hx.
    destruct (Z.eq_dec w num) as [->|Hne].
    - rewrite lookup_shape, Hm in Hx. cbn [option_map] in Hx. destruct x as [| | | |x|]; try contradiction.
      destruct (IH' x Hx) as (y & Hy & Hsy). exists (SvM vs (upd j (num, SvSome y) ovs)). split; [eapply rdec_oneof_same; eauto|].
      split; [exact H1|]. eapply all2_upd; [exact H2|exact Hj|]. unfold shape_oneof. cbn [fst snd]. rewrite lookup_shape, Hm. exact Hsy.
    - destruct (IH' (sdefault t)) as (y & Hy & Hsy); [apply shape_default; exact (proj1 (desc_member _ _ _ _ _ _ Hd Hj Hm))|].
      exists (SvM vs (upd j (num, SvSome y) ovs)). split; [eapply rdec_oneof_other; eauto|].
      split; [exact H1|]. eapply all2_upd; [exact H2|exact Hj|]. unfold shape_oneof. cbn [fst snd]. rewrite lookup_shape, Hm. exact Hsy. }
  apply dec_ind; intros.
  - split; [auto|]. intros old' _. exists (SvZ z). split; [now constructor|exact I].
  - split; [auto|]. intros old' _. exists (SvB p). split; [now constructor|exact I].
  - destruct (H H0 H1) as [H2 H3]. split; [exact H2|]. intros old' Hs. destruct (H3 old' Hs) as (new' & Hn & Hs'). exists new'. split; [now constructor|exact Hs'].
  - split; [auto|]. intros [| | | | |vs' ovs'] Hs; try contradiction. eexists. split; [constructor|exact Hs].
  - destruct (H H1 H2) as [H3 H4], (H0 H1 H2) as [H5 H6]. split; [auto|]. intros old' Hs. destruct (H4 old' Hs) as (n1 & Hn1 & Hs1).
    destruct (H6 n1 Hs1) as (n2 & Hn2 & Hs2). exists n2. split; [econstructor; eassumption|exact Hs2].
  - split; [|eapply Hf; eauto]. intros [S1 S2]. split; [|exact S2]. destruct (all2_nth _ _ _ _ _ S1 e) as (x & Ex & Hx).
    rewrite e0 in Ex. injection Ex as <-. eapply all2_upd; [exact S1|exact e|].
    apply H; [exact (proj1 (desc_field _ _ _ _ _ _ H0 e))|exact (proj1 (list_free_field _ _ _ _ _ _ H1 e))|exact Hx].
  - split; [|eapply Hf; eauto]. intros [S1 S2]. split; [|exact S2]. eapply all2_upd; [exact S1|exact e|].
    apply H; [exact (proj1 (desc_field _ _ _ _ _ _ H0 e))|exact (proj1 (list_free_field _ _ _ _ _ _ H1 e))|apply shape_default; exact (proj1 (desc_field _ _ _ _ _ _ H0 e))].
  - split; [|eapply Hf; eauto]. intros [S1 S2]. split; [|exact S2]. destruct (all2_nth _ _ _ _ _ S1 e) as (x & Ex & Hx).
    rewrite e0 in Ex. injection Ex as <-. eapply all2_upd; [exact S1|exact e|].
    apply H; [exact (proj1 (desc_field _ _ _ _ _ _ H0 e))|exact (proj1 (list_free_field _ _ _ _ _ _ H1 e))|exact Hx].
  - exfalso. exact (proj2 (list_free_field _ _ _ _ _ _ H0 e)).
  - exfalso. exact (proj2 (list_free_field _ _ _ _ _ _ H1 e)).
  - split; [|eapply Ho; eauto]. intros [S1 S2]. split; [exact S1|]. destruct (all2_nth _ _ _ _ _ S2 e) as (x & Ex & Hx).
    rewrite e1 in Ex. injection Ex as <-. eapply all2_upd; [exact S2|exact e|]. unfold shape_oneof in *. cbn [fst snd] in *.
    rewrite lookup_shape, e0 in *. cbn [option_map] in *.
    apply H; [exact (proj1 (desc_member _ _ _ _ _ _ H0 e e0))|exact (list_free_member _ _ _ _ _ _ H1 e e0)|exact Hx].
  - split; [|eapply Ho; eauto]. intros [S1 S2]. split; [exact S1|]. eapply all2_upd; [exact S2|exact e|]. unfold shape_oneof in *. cbn [fst snd] in *.
    rewrite lookup_shape, e0. cbn [option_map].
    apply H; [exact (proj1 (desc_member _ _ _ _ _ _ H0 e e0))|exact (list_free_member _ _ _ _ _ _ H1 e e0)|apply shape_default; exact (proj1 (desc_member _ _ _ _ _ _ H0 e e0))].
  - split; [auto|]. intros [| | | | |vs' ovs'] Hs; try contradiction. eexists. split; [eapply rdec_unknown; eauto|exact Hs].
Qed.

(** ** One record, one place *)
Inductive fstep (n : Z) (k : fkind) (t : ety) (r : list Z) : sval -> sval -> Prop :=
| fstep_plain tg p bs old new : k = KPlain -> r = tg ++ bs -> varint32 tg (n * 8 + wt_code (elem_wiretype t)) -> body t p bs ->
    edec t old p new -> fstep n k t r old new
| fstep_absent tg p bs new : k = KOpt -> r = tg ++ bs -> varint32 tg (n * 8 + wt_code (elem_wiretype t)) -> body t p bs ->
    edec t (sdefault t) p new -> fstep n k t r SvNone (SvSome new)
| fstep_present tg p bs old new : k = KOpt -> r = tg ++ bs -> varint32 tg (n * 8 + wt_code (elem_wiretype t)) -> body t p bs ->
    edec t old p new -> fstep n k t r (SvSome old) (SvSome new)
| fstep_list max old d : k = KRep max ->
    (forall fs os i vs ovs l, nth_error fs i = Some (n, k, t) -> nth_error vs i = Some (SvR l) -> zlen l + zlen d <= max ->
       rdec fs os (SvM vs ovs) r (SvM (upd i (SvR (l ++ d)) vs) ovs)) ->
    zlen old + zlen d <= max -> fstep n k t r (SvR old) (SvR (old ++ d)).

Inductive ostep (n : Z) (t : ety) (r : list Z) : Z * sval -> Z * sval -> Prop :=
| ostep_same tg p bs old new : r = tg ++ bs -> varint32 tg (n * 8 + wt_code (elem_wiretype t)) -> body t p bs ->
    edec t old p new -> ostep n t r (n, SvSome old) (n, SvSome new)
| ostep_other tg p bs which old new : which <> n -> r = tg ++ bs -> varint32 tg (n * 8 + wt_code (elem_wiretype t)) -> body t p bs ->
    edec t (sdefault t) p new -> ostep n t r (which, old) (n, SvSome new).

Lemma fstep_rdec fs os i n k t r vs ovs a b : nth_error fs i = Some (n, k, t) -> nth_error vs i = Some a -> fstep n k t r a b ->
  rdec fs os (SvM vs ovs) r (SvM (upd i b vs) ovs).
Proof.
  intros Hi Hv H. destruct H as [tg p bs old new -> -> Ht Hb He|tg p bs new -> -> Ht Hb He|tg p bs old new -> -> Ht Hb He|max old d -> H Hz].
  - eapply rdec_plain; eauto.
  - eapply rdec_opt_absent; eauto.
  - eapply rdec_opt_present; eauto.
  - apply H; assumption.
Qed.

Lemma ostep_rdec fs os j ms n t r vs ovs a b : nth_error os j = Some ms -> lookup ms n = Some t -> nth_error ovs j = Some a -> ostep n t r a b ->
  rdec fs os (SvM vs ovs) r (SvM vs (upd j b ovs)).
Proof.
  intros Hj Hl Hv H. destruct H as [tg p bs old new -> Ht Hb He|tg p bs which old new Hne -> Ht Hb He].
  - eapply rdec_oneof_same; eauto.
  - eapply rdec_oneof_other; eauto.
Qed.

(** What a record of the number [n] does. *)
Inductive place (fs : list fdesc) (os : list odesc) (n : Z) (r : list Z) (vs : list sval) (ovs : list (Z * sval)) : sval -> Prop :=
| place_field i k t a b : nth_error fs i = Some (n, k, t) -> nth_error vs i = Some a -> fstep n k t r a b -> place fs os n r vs ovs (SvM (upd i b vs) ovs)
| place_oneof j ms t a b : nth_error os j = Some ms -> lookup ms n = Some t -> nth_error ovs j = Some a -> ostep n t r a b ->
    place fs os n r vs ovs (SvM vs (upd j b ovs))
| place_none : ~ In n (field_numbers fs os) -> (forall vs' ovs', rdec fs os (SvM vs' ovs') r (SvM vs' ovs')) -> place fs os n r vs ovs (SvM vs ovs).

Lemma rdec_place fs os n r vs ovs v' : numbered (n, r) -> rdec fs os (SvM vs ovs) r v' -> place fs os n r vs ovs v'.
Proof.
  intros (tg0 & w0 & rest & E0 & Ht0) H. inversion H; subst;
    match goal with Ht : varint32 ?tg (?num * 8 + _), E : _ = _ ++ rest |- _ => assert (num = n) by (eapply tag_unique; [exact Ht|exact Ht0|exact E]); subst num end.
  - eapply place_field; [eassumption..|]. eapply fstep_plain; [reflexivity|reflexivity|eassumption..].
  - eapply place_field; [eassumption..|]. eapply fstep_absent; [reflexivity|reflexivity|eassumption..].
  - eapply place_field; [eassumption..|]. eapply fstep_present; [reflexivity|reflexivity|eassumption..].
  - eapply place_field; [eassumption..|]. eapply fstep_list; [reflexivity| |unfold zlen in *; rewrite map_length; lia].
    intros. eapply rdec_packed; eauto. unfold zlen in *. rewrite map_length in *. lia.
  - eapply place_field; [eassumption..|]. eapply fstep_list; [reflexivity| |unfold zlen in *; cbn [length]; lia].
    intros. eapply rdec_repeated; eauto.
  - eapply place_oneof; [eassumption..|]. eapply ostep_same; [reflexivity|eassumption..].
  - eapply place_oneof; [eassumption..|]. eapply ostep_other; [assumption|reflexivity|eassumption..].
  - apply place_none; [assumption|]. intros. eapply rdec_unknown; eauto.
Qed.

(** ** All records, one place *)
Fixpoint fchain (n : Z) (k : fkind) (t : ety) (rs : list (Z * list Z)) (a b : sval) : Prop :=
  match rs with
  | [] => a = b
  | (m, r) :: rs' => if m =? n then exists c, fstep n k t r a c /\ fchain n k t rs' c b else fchain n k t rs' a b
  end.
Fixpoint ochain (ms : odesc) (rs : list (Z * list Z)) (a b : Z * sval) : Prop :=
  match rs with
  | [] => a = b
  | (m, r) :: rs' => match lookup ms m with
                     | Some t => exists c, ostep m t r a c /\ ochain ms rs' c b
                     | None => ochain ms rs' a b
                     end
  end.

(** The record does what it does to some message. *)
Definition runs (fs : list fdesc) (os : list odesc) '((n, r) : Z * list Z) : Prop :=
  In n (field_numbers fs os) \/ (~ In n (field_numbers fs os) /\ forall vs ovs, rdec fs os (SvM vs ovs) r (SvM vs ovs)).

Lemma field_In fs os i n k t : nth_error fs i = Some (n, k, t) -> In n (field_numbers fs os).
Proof. intros H. unfold field_numbers. apply in_or_app. left. apply nth_error_In in H. apply in_map_iff. eexists. split; [|exact H]. reflexivity. Qed.
Lemma member_In fs os j ms n t : nth_error os j = Some ms -> lookup ms n = Some t -> In n (field_numbers fs os).
Proof.
  intros H Hl. unfold field_numbers. apply in_or_app. right. apply in_flat_map. exists ms. split; [eapply nth_error_In; exact H|].
  apply SerProofs.lookup_In in Hl. change n with (fst (n, t)). apply in_map. exact Hl.
Qed.

Section Places.
Context (fs : list fdesc) (os : list odesc) (Hok : desc_ok (EMsg fs os)).

Lemma field_once i i' n k t k' t' : nth_error fs i = Some (n, k, t) -> nth_error fs i' = Some (n, k', t') -> i = i'.
Proof.
  intros H H'. destruct Hok as (Hd & _). apply NoDup_app_inv in Hd. destruct Hd as (Hd & _ & _).
  apply (map_nth_error (fun '(n, _, _) => n)) in H, H'. rewrite NoDup_nth_error in Hd. apply Hd; [|congruence].
  apply nth_error_Some. congruence.
Qed.
Lemma field_not_member i n k t j ms t' : nth_error fs i = Some (n, k, t) -> nth_error os j = Some ms -> lookup ms n = Some t' -> False.
Proof.
  intros H Hj Hl. destruct Hok as (Hd & _). apply NoDup_app_inv in Hd. destruct Hd as (_ & _ & Hd). apply (Hd n).
  - apply in_map_iff. eexists. split; [|eapply nth_error_In; exact H]. reflexivity.
  - apply in_flat_map. exists ms. split; [eapply nth_error_In; exact Hj|]. apply SerProofs.lookup_In in Hl. change n with (fst (n, t')). apply in_map. exact Hl.
Qed.
Lemma member_once j j' ms ms' n t t' : nth_error os j = Some ms -> lookup ms n = Some t -> nth_error os j' = Some ms' -> lookup ms' n = Some t' -> j = j'.
Proof.
  intros Hj Hl Hj' Hl'. destruct Hok as (Hd & _). apply NoDup_app_inv in Hd. destruct Hd as (_ & Hd & _). clear Hok.
  apply SerProofs.lookup_In in Hl, Hl'. apply (in_map fst) in Hl, Hl'. cbn [fst] in *. clear t t'.
  revert j j' Hj Hj'. induction os as [|m os' IH]; intros [|j] [|j'] Hj Hj'; try discriminate; auto; cbn [nth_error flat_map] in *.
  - exfalso. injection Hj as ->. apply NoDup_app_inv in Hd. destruct Hd as (_ & _ & Hd). apply (Hd n Hl). apply in_flat_map.
    exists ms'. split; [eapply nth_error_In; exact Hj'|exact Hl'].
  - exfalso. injection Hj' as ->. apply NoDup_app_inv in Hd. destruct Hd as (_ & _ & Hd). apply (Hd n Hl'). apply in_flat_map.
    exists ms. split; [eapply nth_error_In; exact Hj|exact Hl].
  - f_equal. apply NoDup_app_inv in Hd. destruct Hd as (_ & Hd & _). exact (IH Hd j j' Hj Hj').
Qed.

Lemma project rs : forall vs ovs vs' ovs', Forall numbered rs -> records fs os (SvM vs ovs) (map snd rs) (SvM vs' ovs') ->
  Forall (runs fs os) rs /\ length vs' = length vs /\ length ovs' = length ovs
  /\ (forall i n k t a, nth_error fs i = Some (n, k, t) -> nth_error vs i = Some a -> exists b, nth_error vs' i = Some b /\ fchain n k t rs a b)
  /\ (forall j ms a, nth_error os j = Some ms -> nth_error ovs j = Some a -> exists b, nth_error ovs' j = Some b /\ ochain ms rs a b).
Proof.
  induction rs as [|[m r] rs IH]; intros vs ovs vs' ovs' Hn H; cbn [map snd] in H.
  - inversion H; subst. split; [constructor|]. do 2 (split; [reflexivity|]). cbn [fchain ochain]. split; intros; eexists; split; [eassumption|reflexivity|eassumption|reflexivity].
  - inversion Hn as [|? ? Hm Hn']; subst. inversion H as [|? ? v1 ? ? Hr Hrs]; subst.
    apply (rdec_place _ _ m) in Hr; [|exact Hm].
    destruct Hr as [i k t a b Hi Ha Hs|j ms t a b Hj Hl Ha Hs|Hout Hr]; destruct (IH _ _ _ _ Hn' Hrs) as (H1 & H2 & H3 & H4 & H5); rewrite ?length_upd in *.
    + split; [constructor; [left; eapply field_In; exact Hi|exact H1]|]. do 2 (split; [assumption|]). split.
      * intros i' n k' t' a' Hi' Ha'. cbn [fchain]. destruct (Z.eqb_spec m n) as [<-|Hne].
        -- assert (i' = i) by (eapply field_once; eassumption). subst i'. rewrite Hi in Hi'. injection Hi' as <- <-. rewrite Ha in Ha'. injection Ha' as <-.
           destruct (H4 i m k t b Hi) as (c & Hc & Hch); [apply nth_error_upd_same; eapply nth_error_lt; exact Ha|]. eauto.
        -- apply H4; [exact Hi'|]. rewrite nth_error_upd_other; [exact Ha'|]. intros ->. congruence.
      * intros j ms a' Hj Ha'. cbn [ochain]. destruct (lookup ms m) as [t'|] eqn:E; [exfalso; eapply field_not_member; eassumption|]. eauto.
    + split; [constructor; [left; eapply member_In; eassumption|exact H1]|]. do 2 (split; [assumption|]). split.
      * intros i' n k' t' a' Hi' Ha'. cbn [fchain]. destruct (Z.eqb_spec m n) as [<-|Hne]; [exfalso; eapply field_not_member; eassumption|]. eauto.
      * intros j' ms' a' Hj' Ha'. cbn [ochain]. destruct (lookup ms' m) as [t'|] eqn:E.
        -- assert (j' = j) by (eapply member_once; eassumption). subst j'. rewrite Hj in Hj'. injection Hj' as <-. rewrite Hl in E. injection E as <-.
           rewrite Ha in Ha'. injection Ha' as <-.
           destruct (H5 j ms b Hj) as (c & Hc & Hch); [apply nth_error_upd_same; eapply nth_error_lt; exact Ha|]. eauto.
        -- apply H5; [exact Hj'|]. rewrite nth_error_upd_other; [exact Ha'|]. intros ->. congruence.
    + split; [constructor; [right; split; [exact Hout|exact Hr]|exact H1]|]. do 2 (split; [assumption|]). split.
      * intros i' n k' t' a' Hi' Ha'. cbn [fchain]. destruct (Z.eqb_spec m n) as [<-|Hne]; [exfalso; apply Hout; eapply field_In; eassumption|]. eauto.
      * intros j' ms' a' Hj' Ha'. cbn [ochain]. destruct (lookup ms' m) as [t'|] eqn:E; [exfalso; apply Hout; eapply member_In; eassumption|]. eauto.
Qed.

Lemma numbers_cases n : In n (field_numbers fs os) -> (exists i k t, nth_error fs i = Some (n, k, t)) \/ (exists j ms t, nth_error os j = Some ms /\ lookup ms n = Some t).
Proof.
  unfold field_numbers. intros H. apply in_app_or in H. destruct H as [H|H].
  - left. apply in_map_iff in H. destruct H as ([[n' k] t] & <- & Hin). apply In_nth_error in Hin. destruct Hin as [i Hi]. exists i, k, t. exact Hi.
  - right. apply in_flat_map in H. destruct H as (ms & Hin & H). apply In_nth_error in Hin. destruct Hin as [j Hj]. exists j, ms.
    assert (exists t, lookup ms n = Some t) as [t Ht]; [|eauto]. clear - H. induction ms as [|[m t] ms IH]; [contradiction|]. cbn [map fst lookup] in *.
    destruct (Z.eqb_spec m n) as [->|Hne]; [eauto|]. destruct H as [H|H]; [congruence|]. exact (IH H).
Qed.

Lemma nth_ext' {A} (l l' : list A) : length l' = length l -> (forall i x, nth_error l i = Some x -> nth_error l' i = Some x) -> l = l'.
Proof.
  revert l'. induction l as [|x l IH]; intros [|y l'] Hlen H; try discriminate; auto. f_equal.
  - specialize (H 0%nat x eq_refl). cbn in H. congruence.
  - apply IH; [cbn in Hlen; congruence|]. intros i z Hz. exact (H (S i) z Hz).
Qed.

Lemma assemble rs : forall vs ovs vs' ovs', Forall (runs fs os) rs -> length vs = length fs -> length ovs = length os ->
  length vs' = length vs -> length ovs' = length ovs ->
  (forall i n k t a, nth_error fs i = Some (n, k, t) -> nth_error vs i = Some a -> exists b, nth_error vs' i = Some b /\ fchain n k t rs a b) ->
  (forall j ms a, nth_error os j = Some ms -> nth_error ovs j = Some a -> exists b, nth_error ovs' j = Some b /\ ochain ms rs a b) ->
  records fs os (SvM vs ovs) (map snd rs) (SvM vs' ovs').
Proof.
  induction rs as [|[m r] rs IH]; intros vs ovs vs' ovs' Hr L1 L2 L3 L4 Hf Ho; cbn [map snd].
  - assert (Ev : vs = vs').
    { apply nth_ext'; [exact L3|]. intros i x Hx. destruct (nth_error fs i) as [[[n k] t]|] eqn:E.
      - destruct (Hf i n k t x E Hx) as (b & Hb & ->). exact Hb.
      - exfalso. apply nth_error_None in E. apply nth_error_lt in Hx. lia. }
    assert (Eo : ovs = ovs').
    { apply nth_ext'; [exact L4|]. intros j x Hx. destruct (nth_error os j) as [ms|] eqn:E.
      - destruct (Ho j ms x E Hx) as (b & Hb & ->). exact Hb.
      - exfalso. apply nth_error_None in E. apply nth_error_lt in Hx. lia. }
    subst. constructor.
  - inversion Hr as [|? ? Hm Hr']; subst. destruct Hm as [Hin|[Hout Hun]]; [destruct (numbers_cases m Hin) as [(i & k & t & Hi)|(j & ms & t & Hj & Hl)]|].
    + destruct (nth_error vs i) as [a|] eqn:Ea; [|exfalso; apply nth_error_None in Ea; apply nth_error_lt in Hi; lia].
      destruct (Hf i m k t a Hi Ea) as (b & Hb & Hc). cbn [fchain] in Hc. rewrite Z.eqb_refl in Hc. destruct Hc as (c & Hs & Hc).
      econstructor; [eapply fstep_rdec; eassumption|]. apply IH; rewrite ?length_upd; auto.
      * intros i' n k' t' a' Hi' Ha'. destruct (Nat.eq_dec i i') as [<-|Hne].
        -- rewrite nth_error_upd_same in Ha' by (eapply nth_error_lt; exact Ea). injection Ha' as <-. rewrite Hi in Hi'. injection Hi' as <- <- <-. eauto.
        -- rewrite nth_error_upd_other in Ha' by exact Hne. destruct (Hf i' n k' t' a' Hi' Ha') as (b' & Hb' & Hc').
           cbn [fchain] in Hc'. destruct (Z.eqb_spec m n) as [<-|_]; [exfalso; apply Hne; eapply field_once; eassumption|]. eauto.
      * intros j ms a' Hj Ha'. destruct (Ho j ms a' Hj Ha') as (b' & Hb' & Hc'). cbn [ochain] in Hc'.
        destruct (lookup ms m) as [t'|] eqn:E; [exfalso; eapply field_not_member; eassumption|]. eauto.
    + destruct (nth_error ovs j) as [a|] eqn:Ea; [|exfalso; apply nth_error_None in Ea; apply nth_error_lt in Hj; lia].
      destruct (Ho j ms a Hj Ea) as (b & Hb & Hc). cbn [ochain] in Hc. rewrite Hl in Hc. destruct Hc as (c & Hs & Hc).
      econstructor; [eapply ostep_rdec; eassumption|]. apply IH; rewrite ?length_upd; auto.
      * intros i' n k' t' a' Hi' Ha'. destruct (Hf i' n k' t' a' Hi' Ha') as (b' & Hb' & Hc').
        cbn [fchain] in Hc'. destruct (Z.eqb_spec m n) as [<-|_]; [exfalso; eapply field_not_member; eassumption|]. eauto.
      * intros j' ms' a' Hj' Ha'. destruct (Nat.eq_dec j j') as [<-|Hne].
        -- rewrite nth_error_upd_same in Ha' by (eapply nth_error_lt; exact Ea). injection Ha' as <-. rewrite Hj in Hj'. injection Hj' as <-. eauto.
        -- rewrite nth_error_upd_other in Ha' by exact Hne. destruct (Ho j' ms' a' Hj' Ha') as (b' & Hb' & Hc').
           cbn [ochain] in Hc'. destruct (lookup ms' m) as [t'|] eqn:E; [exfalso; apply Hne; eapply member_once; eassumption|]. eauto.
    + econstructor; [apply Hun|]. apply IH; auto.
      * intros i n k t a Hi Ha. destruct (Hf i n k t a Hi Ha) as (b & Hb & Hc). cbn [fchain] in Hc.
        destruct (Z.eqb_spec m n) as [<-|_]; [exfalso; apply Hout; eapply field_In; eassumption|]. eauto.
      * intros j ms a Hj Ha. destruct (Ho j ms a Hj Ha) as (b & Hb & Hc). cbn [ochain] in Hc.
        destruct (lookup ms m) as [t'|] eqn:E; [exfalso; apply Hout; eapply member_In; eassumption|]. eauto.
Qed.
End Places.

(** ** The same records again *)
Fixpoint echain (t : ety) (ps : list (list Z)) (a b : sval) : Prop :=
  match ps with
  | [] => a = b
  | p :: ps' => exists c, edec t a p c /\ echain t ps' c b
  end.
Definition idem (t : ety) : Prop := forall ps a b, shape t a -> echain t ps a b -> echain t ps b b.

Lemma leaf_idem t : (forall a p c a', edec t a p c -> edec t a' p c) -> idem t.
Proof.
  intros Hany ps a b _ H. destruct ps as [|p ps]; [reflexivity|]. cbn [echain] in *. destruct H as (c & Hc & H). exists c. split; [exact (Hany _ _ _ _ Hc)|exact H].
Qed.

Lemma plain_chain n t rs : forall a b, fchain n KPlain t rs a b ->
  exists ps, echain t ps a b /\ forall a' b', echain t ps a' b' -> fchain n KPlain t rs a' b'.
Proof.
  induction rs as [|[m r] rs IH]; intros a b H; cbn [fchain] in H.
  - exists []. split; [exact H|]. intros a' b' H'. exact H'.
  - destruct (m =? n) eqn:E.
    + destruct H as (c & Hs & H). destruct (IH c b H) as (ps & H1 & H2).
      inversion Hs as [tg p bs old new _ Er Ht Hb He| | |]; subst; try discriminate.
      exists (p :: ps). split; [exists c; auto|]. intros a' b' (c' & He' & H'). cbn [fchain]. rewrite E. exists c'. split; [|exact (H2 _ _ H')].
      eapply fstep_plain; [reflexivity|reflexivity|eassumption..].
    + destruct (IH a b H) as (ps & H1 & H2). exists ps. split; [exact H1|]. intros a' b' H'. cbn [fchain]. rewrite E. exact (H2 _ _ H').
Qed.

(** An optional field: no record at all, or it is present in the end. *)
Lemma opt_chain n t rs : forall a b, fchain n KOpt t rs a b ->
  (a = b /\ forall c, fchain n KOpt t rs c c)
  \/ exists ps y, b = SvSome y
       /\ echain t ps (match a with SvSome x => x | _ => sdefault t end) y
       /\ forall a' b', echain t ps a' b' -> fchain n KOpt t rs (SvSome a') (SvSome b').
Proof.
  induction rs as [|[m r] rs IH]; intros a b H; cbn [fchain] in H.
  - left. split; [exact H|]. intros c. reflexivity.
  - destruct (m =? n) eqn:E.
    + destruct H as (c & Hs & H). right.
      assert (Hc : exists p z, c = SvSome z /\ edec t (match a with SvSome x => x | _ => sdefault t end) p z
                   /\ forall a' c', edec t a' p c' -> fstep n KOpt t r (SvSome a') (SvSome c')).
      { inversion Hs as [|tg p bs new _ Er Ht Hb He|tg p bs old new _ Er Ht Hb He|]; subst; try discriminate;
          (exists p, new; split; [reflexivity|]; split; [exact He|]; intros; eapply fstep_present; [reflexivity|reflexivity|eassumption..]). }
      destruct Hc as (p & z & -> & Hp & Hstep). destruct (IH _ _ H) as [[<- Hall]|(ps & y & -> & H1 & H2)].
      * exists [p], z. split; [reflexivity|]. split; [exists z; split; [exact Hp|reflexivity]|]. intros a' b' (c' & He' & <-). cbn [fchain]. rewrite E.
        exists (SvSome c'). split; [exact (Hstep _ _ He')|apply Hall].
      * exists (p :: ps), y. split; [reflexivity|]. split; [exists z; auto|]. intros a' b' (c' & He' & H'). cbn [fchain]. rewrite E.
        exists (SvSome c'). split; [exact (Hstep _ _ He')|exact (H2 _ _ H')].
    + destruct (IH a b H) as [[H1 H2]|(ps & y & H0 & H1 & H2)].
      * left. split; [exact H1|]. intros c. cbn [fchain]. rewrite E. apply H2.
      * right. exists ps, y. split; [exact H0|]. split; [exact H1|]. intros a' b' H'. cbn [fchain]. rewrite E. exact (H2 _ _ H').
Qed.

Lemma recursive_chain n t rs : forall a b, fchain n KRecursive t rs a b -> a = b.
Proof.
  induction rs as [|[m r] rs IH]; intros a b H; cbn [fchain] in H; [exact H|]. destruct (m =? n); [|exact (IH _ _ H)].
  destruct H as (c & Hs & _). inversion Hs; discriminate.
Qed.

(** A oneof: no record at all; or only records of one member; or what was there before does not matter. *)
Definition start (n : Z) (t : ety) (a : Z * sval) : sval :=
  if fst a =? n then match snd a with SvSome x => x | _ => sdefault t end else sdefault t.

Lemma oneof_chain ms rs : (forall n t, lookup ms n = Some t -> desc_ok t /\ list_free t) ->
  let sh := shape_oneof (map (fun '(num, t) => (num, shape t)) ms) in
  forall a b, sh a -> ochain ms rs a b ->
  (a = b /\ forall c, ochain ms rs c c)
  \/ (exists n t ps y, lookup ms n = Some t /\ b = (n, SvSome y) /\ echain t ps (start n t a) y
        /\ forall c y', sh c -> echain t ps (start n t c) y' -> ochain ms rs c (n, SvSome y'))
  \/ (forall c, sh c -> ochain ms rs c b).
Proof.
  intros Hms sh. induction rs as [|[m r] rs IH]; intros a b Ha H; cbn [ochain] in H.
  - left. split; [exact H|]. intros c. reflexivity.
  - destruct (lookup ms m) as [t|] eqn:E.
    + destruct H as (c & Hs & H). destruct (Hms m t E) as [Hdt Hlt].
      assert (Hstart : forall c, sh c -> shape t (start m t c)).
      { intros [w x] Hsh. unfold start, sh, shape_oneof in *. cbn [fst snd] in *. destruct (Z.eqb_spec w m) as [->|_]; [|now apply shape_default].
        rewrite lookup_shape, E in Hsh. cbn [option_map] in Hsh. destruct x; try contradiction. exact Hsh. }
      assert (Hc : exists p z, c = (m, SvSome z) /\ edec t (start m t a) p z
                   /\ forall a' z', sh a' -> edec t (start m t a') p z' -> ostep m t r a' (m, SvSome z')).
      { assert (Hb' : exists tg p bs z, c = (m, SvSome z) /\ edec t (start m t a) p z /\ r = tg ++ bs /\ varint32 tg (m * 8 + wt_code (elem_wiretype t)) /\ body t p bs).
        { inversion Hs as [tg p bs old new Er Ht Hb He|tg p bs which old new Hne Er Ht Hb He]; subst; exists tg, p, bs, new; unfold start; cbn [fst snd].
          - rewrite Z.eqb_refl. auto.
          - destruct (Z.eqb_spec which m); [contradiction|]. auto. }
        destruct Hb' as (tg & p & bs & z & -> & He & Er & Ht & Hb). exists p, z. split; [reflexivity|]. split; [exact He|].
        intros [w x] z' Hsh He'. unfold start, sh, shape_oneof in He', Hsh. cbn [fst snd] in *. destruct (Z.eqb_spec w m) as [->|Hne].
        - rewrite lookup_shape, E in Hsh. cbn [option_map] in Hsh. destruct x; try contradiction. eapply ostep_same; eassumption.
        - eapply ostep_other; eassumption. }
      destruct Hc as (p & z & -> & Hp & Hstep).
      assert (Hshz : forall z', shape t z' -> sh (m, SvSome z')).
      { intros z' Hz. unfold sh, shape_oneof. cbn [fst snd]. rewrite lookup_shape, E. exact Hz. }
      destruct (proj1 decodes_anyway _ _ _ _ Hp Hdt Hlt) as [Hkeep Hany].
      assert (Hsz : shape t z) by (apply Hkeep, Hstart, Ha).
      destruct (IH _ _ (Hshz z Hsz) H) as [[<- Hall]|[(n & t' & ps & y & El & -> & H1 & H2)|Hall]].
      * right. left. exists m, t, [p], z. split; [exact E|]. split; [reflexivity|]. split; [exists z; split; [exact Hp|reflexivity]|].
        intros c y' Hc (z' & He & <-). cbn [ochain]. rewrite E. exists (m, SvSome z'). split; [apply Hstep; assumption|apply Hall].
      * destruct (Z.eq_dec m n) as [<-|Hne].
        -- rewrite E in El. injection El as <-. right. left. exists m, t, (p :: ps), y. split; [exact E|]. split; [reflexivity|].
           assert (Hst : forall x, start m t (m, SvSome x) = x) by (intros x; unfold start; cbn [fst snd]; now rewrite Z.eqb_refl).
           rewrite Hst in H1. split; [exists z; auto|].
           intros c y' Hc (z' & He & Hch). cbn [ochain]. rewrite E. exists (m, SvSome z'). split; [apply Hstep; assumption|].
           apply H2; [|rewrite Hst; exact Hch]. apply Hshz. apply (proj1 decodes_anyway _ _ _ _ He Hdt Hlt). apply Hstart. exact Hc.
        -- right. right. intros c Hc. destruct (Hany (start m t c) (Hstart c Hc)) as (z' & He & Hsz'). cbn [ochain]. rewrite E.
           exists (m, SvSome z'). split; [apply Hstep; assumption|]. apply H2; [apply Hshz; exact Hsz'|].
           replace (start n t' (m, SvSome z')) with (start n t' (m, SvSome z)); [exact H1|]. unfold start. cbn [fst]. destruct (Z.eqb_spec m n); [contradiction|reflexivity].
      * right. right. intros c Hc. destruct (Hany (start m t c) (Hstart c Hc)) as (z' & He & Hsz'). cbn [ochain]. rewrite E.
        exists (m, SvSome z'). split; [apply Hstep; assumption|]. apply Hall, Hshz, Hsz'.
    + destruct (IH a b Ha H) as [[H1 H2]|[(n & t & ps & y & El & H0 & H1 & H2)|H1]].
      * left. split; [exact H1|]. intros c. cbn [ochain]. rewrite E. apply H2.
      * right. left. exists n, t, ps, y. split; [exact El|]. split; [exact H0|]. split; [exact H1|]. intros c y' Hc He. cbn [ochain]. rewrite E. exact (H2 _ _ Hc He).
      * right. right. intros c Hc. cbn [ochain]. rewrite E. exact (H1 c Hc).
Qed.

(** Places without lists. *)
Lemma field_again n k t rs a b : idem t -> desc_ok t -> list_free t -> (forall max, k <> KRep max) ->
  match k with KPlain => shape t a | KOpt => match a with SvNone => True | SvSome y => shape t y | _ => False end | _ => True end ->
  fchain n k t rs a b -> fchain n k t rs b b.
Proof.
  intros Hid Hd Hl Hk Hs H. destruct k as [| |max|].
  - destruct (plain_chain _ _ _ _ _ H) as (ps & H1 & H2). apply H2. exact (Hid ps a b Hs H1).
  - destruct (opt_chain _ _ _ _ _ H) as [[<- H1]|(ps & y & -> & H1 & H2)]; [apply H1|]. apply H2. eapply Hid; [|exact H1].
    destruct a; try contradiction; [now apply shape_default|exact Hs].
  - now destruct (Hk max).
  - pose proof (recursive_chain _ _ _ _ _ H) as ->. exact H.
Qed.

Lemma oneof_again ms rs a b : (forall n t, lookup ms n = Some t -> desc_ok t /\ list_free t /\ idem t) ->
  shape_oneof (map (fun '(num, t) => (num, shape t)) ms) a -> ochain ms rs a b -> ochain ms rs b b.
Proof.
  intros Hms Ha H. assert (Hms' : forall n t, lookup ms n = Some t -> desc_ok t /\ list_free t) by (intros n t E; destruct (Hms n t E) as (? & ? & _); auto).
  assert (Hsh : shape_oneof (map (fun '(num, t) => (num, shape t)) ms) b).
  { revert a Ha H. induction rs as [|[m r] rs IH]; intros a Ha H; cbn [ochain] in H; [now subst|].
    destruct (lookup ms m) as [t|] eqn:E; [|exact (IH a Ha H)]. destruct H as (c & Hs & H). apply (IH c); [|exact H]. clear IH H. destruct (Hms' m t E) as [Hd Hl].
    inversion Hs as [tg p bs old new Er Ht Hb He|tg p bs which old new Hne Er Ht Hb He]; subst; unfold shape_oneof in *; cbn [fst snd] in *; rewrite lookup_shape, E in *; cbn [option_map] in *;
      apply (proj1 decodes_anyway _ _ _ _ He Hd Hl); [exact Ha|now apply shape_default]. }
  destruct (oneof_chain ms rs Hms' a b Ha H) as [[<- H1]|[(n & t & ps & y & El & -> & H1 & H2)|H1]]; [apply H1| |exact (H1 b Hsh)].
  destruct (Hms n t El) as (Hd & _ & Hid). apply H2; [exact Hsh|].
  assert (Hst : start n t (n, SvSome y) = y) by (unfold start; cbn [fst snd]; now rewrite Z.eqb_refl). rewrite Hst. eapply Hid; [|exact H1].
  destruct a as [w x]. unfold start, shape_oneof in *. cbn [fst snd] in *. destruct (Z.eqb_spec w n) as [->|_]; [|now apply shape_default].
  rewrite lookup_shape, El in Ha. cbn [option_map] in Ha. destruct x; try contradiction. exact Ha.
Qed.

Lemma mdec_split fs os a p b : mdec fs os a p b ->
  exists rs, concat (map snd rs) = p /\ Forall numbered rs /\ records fs os a (map snd rs) b.
Proof.
  induction 1 as [fs os vs ovs|fs os v0 r v1 bs v2 Hr Hm (rs & <- & Hn & H)].
  - exists []. split; [reflexivity|]. split; constructor.
  - destruct (rdec_shaped _ _ _ _ _ Hr) as (tg & n & w & rest & E & Ht & _). exists ((n, r) :: rs). split; [reflexivity|]. split.
    + constructor; [|exact Hn]. exists tg, w, rest. auto.
    + cbn [map snd]. econstructor; eassumption.
Qed.

Lemma echain_records fs os : forall ps vs ovs b, echain (EMsg fs os) ps (SvM vs ovs) b ->
  exists rs, Forall numbered rs /\ records fs os (SvM vs ovs) (map snd rs) b
  /\ forall vs' ovs' b', records fs os (SvM vs' ovs') (map snd rs) b' -> echain (EMsg fs os) ps (SvM vs' ovs') b'.
Proof.
  induction ps as [|p ps IH]; intros vs ovs b H; cbn [echain] in H.
  - subst b. exists []. split; [constructor|]. split; [constructor|]. intros vs' ovs' b' H. inversion H; subst. reflexivity.
  - destruct H as (c & He & H). inversion He as [| |? ? ? ? ? Hm]; subst.
    assert (exists vs1 ovs1, c = SvM vs1 ovs1) as (vs1 & ovs1 & ->).
    { clear - Hm. remember (SvM vs ovs) as a eqn:E. revert vs ovs E. induction Hm as [|fs os v0 r v1 bs v2 Hr Hm IH]; intros ws ows E; subst; [eauto|]. inversion Hr; subst; eauto. }
    destruct (mdec_split _ _ _ _ _ Hm) as (rs1 & Ep & Hn1 & H1). destruct (IH _ _ _ H) as (rs2 & Hn2 & H2 & Hback).
    exists (rs1 ++ rs2). rewrite map_app. split; [apply Forall_app; auto|]. split; [apply records_app; eauto|].
    intros vs' ovs' b' H'. apply records_app in H'. destruct H' as (c' & Hc & H'). cbn [echain]. exists c'.
    assert (Hm' : mdec fs os (SvM vs' ovs') p c') by (rewrite <- Ep; apply records_mdec; [exact Hc|eauto]).
    split; [constructor; exact Hm'|].
    assert (exists ws ows, c' = SvM ws ows) as (ws & ows & ->).
    { clear - Hm'. remember (SvM vs' ovs') as a eqn:E. revert vs' ovs' E. induction Hm' as [|fs os v0 r v1 bs v2 Hr Hm IH]; intros ws ows E; subst; [eauto|]. inversion Hr; subst; eauto. }
    apply Hback. exact H'.
Qed.

Lemma all2_nth {A B} (P : A -> B -> Prop) : forall l l', all2 P l l' -> length l = length l' /\ forall i x y, nth_error l i = Some x -> nth_error l' i = Some y -> P x y.
Proof.
  induction l as [|x l IH]; intros [|y l'] H; cbn [all2] in H; try contradiction.
  - split; [reflexivity|]. intros [|i]; discriminate.
  - destruct H as [H H']. destruct (IH _ H') as [E Hn]. split; [cbn; congruence|]. intros [|i] a b Ha Hb; cbn in *; [congruence|eauto].
Qed.

Lemma shape_msg fs os vs ovs : shape (EMsg fs os) (SvM vs ovs) ->
  length vs = length fs /\ length ovs = length os
  /\ (forall i n k t a, nth_error fs i = Some (n, k, t) -> nth_error vs i = Some a ->
        match k with KPlain => shape t a | KOpt => match a with SvNone => True | SvSome y => shape t y | _ => False end | _ => True end)
  /\ (forall j ms a, nth_error os j = Some ms -> nth_error ovs j = Some a -> shape_oneof (map (fun '(num, t) => (num, shape t)) ms) a).
Proof.
  intros [H1 H2]. apply all2_nth in H1, H2. destruct H1 as [L1 H1], H2 as [L2 H2]. do 2 (split; [congruence|]). split.
  - intros i n k t a Hi Ha. exact (H1 _ _ _ Hi Ha).
  - intros j ms a Hj Ha. exact (H2 _ _ _ Hj Ha).
Qed.

Theorem received_again t : desc_ok t -> list_free t -> idem t.
Proof.
  induction t as [sc|st max|fs os Hf Ho] using ety_ind'; intros Hd Hl.
  - apply leaf_idem. intros a p c a' H. inversion H; subst. constructor; assumption.
  - apply leaf_idem. intros a p c a' H. inversion H; subst. constructor; assumption.
  - intros ps a b Hs H. destruct a as [| | | | |vs ovs]; try contradiction.
    destruct (echain_records _ _ _ _ _ _ H) as (rs & Hn & Hr & Hback).
    assert (exists vs' ovs', b = SvM vs' ovs') as (vs' & ovs' & ->).
    { clear - Hr. remember (SvM vs ovs) as a eqn:E. revert vs ovs E. induction Hr as [|v r v' rs' v'' H Hr IH]; intros ws ows E; subst; [eauto|]. inversion H; subst; eapply IH; reflexivity. }
    apply Hback. destruct (project fs os Hd rs _ _ _ _ Hn Hr) as (Hruns & L1 & L2 & Hfs & Hos).
    destruct (shape_msg _ _ _ _ Hs) as (L3 & L4 & Sf & So).
    rewrite Forall_forall in Hf, Ho.
    apply assemble; [exact Hd|exact Hruns|congruence|congruence|reflexivity|reflexivity| |].
    + intros i n k t b Hi Hb. exists b. split; [exact Hb|]. destruct (nth_error vs i) as [a|] eqn:Ea.
      2: { apply nth_error_None in Ea. assert (nth_error vs' i <> None) by congruence. apply nth_error_Some in H0. lia. }
      destruct (Hfs i n k t a Hi Ea) as (b' & Hb' & Hch). rewrite Hb in Hb'. injection Hb' as <-.
      destruct (desc_field _ _ _ _ _ _ Hd Hi) as (Hdt & _). destruct (list_free_field _ _ _ _ _ _ Hl Hi) as [Hlt Hk].
      eapply field_again; [|exact Hdt|exact Hlt| |exact (Sf _ _ _ _ _ Hi Ea)|exact Hch].
      * pose proof (Hf _ (nth_error_In _ _ Hi)) as IH. apply IH; assumption.
      * intros max ->. exact Hk.
    + intros j ms b Hj Hb. exists b. split; [exact Hb|]. destruct (nth_error ovs j) as [a|] eqn:Ea.
      2: { apply nth_error_None in Ea. assert (nth_error ovs' j <> None) by congruence. apply nth_error_Some in H0. lia. }
      destruct (Hos j ms a Hj Ea) as (b' & Hb' & Hch). rewrite Hb in Hb'. injection Hb' as <-.
      eapply oneof_again; [|exact (So _ _ _ Hj Ea)|exact Hch]. intros n t El. destruct (desc_member _ _ _ _ _ _ Hd Hj El) as [Hdt _].
      pose proof (list_free_member _ _ _ _ _ _ Hl Hj El) as Hlt. split; [exact Hdt|]. split; [exact Hlt|].
      pose proof (Ho _ (nth_error_In _ _ Hj)) as IH. rewrite Forall_forall in IH. pose proof (IH _ (SerProofs.lookup_In _ _ _ El)) as IH'. cbn in IH'. auto.
Qed.

(** ** Lists *)
Lemma list_chain n max t rs : forall l b, zlen l <= max -> fchain n (KRep max) t rs (SvR l) b ->
  exists d, b = SvR (l ++ d) /\ zlen l + zlen d <= max /\ forall l', zlen l' + zlen d <= max -> fchain n (KRep max) t rs (SvR l') (SvR (l' ++ d)).
Proof.
  induction rs as [|[m r] rs IH]; intros l b Hz H; cbn [fchain] in H.
  - subst b. exists []. rewrite app_nil_r. split; [reflexivity|]. split; [change (zlen (@nil sval)) with 0; lia|]. intros l' _. cbn [fchain]. now rewrite app_nil_r.
  - destruct (m =? n) eqn:E.
    + destruct H as (c & Hs & H). inversion Hs as [| | |max' old d Ek Hr Hz']; subst; try discriminate. injection Ek as <-.
      destruct (IH (l ++ d) b) as (d' & -> & Hz2 & Hall); [unfold zlen in *; rewrite app_length; lia|exact H|].
      exists (d ++ d'). rewrite app_assoc. unfold zlen in *. rewrite app_length in *. split; [reflexivity|]. split; [lia|].
      intros l' Hl'. cbn [fchain]. rewrite E. exists (SvR (l' ++ d)). split.
      * eapply fstep_list; [reflexivity|exact Hr|unfold zlen; lia].
      * rewrite app_assoc. apply Hall. rewrite app_length. lia.
    + destruct (IH l b Hz H) as (d & -> & Hz2 & Hall). exists d. split; [reflexivity|]. split; [exact Hz2|]. intros l' Hl'. cbn [fchain]. rewrite E. apply Hall, Hl'.
Qed.

Lemma fields_twice_nth fs : forall xs ys zs, length xs = length fs -> length ys = length fs -> length zs = length fs ->
  (forall i n k t x y z, nth_error fs i = Some (n, k, t) -> nth_error xs i = Some x -> nth_error ys i = Some y -> nth_error zs i = Some z -> field_twice k x y z) ->
  fields_twice fs xs ys zs.
Proof.
  induction fs as [|[[n k] t] fs IH]; intros [|x xs] [|y ys] [|z zs] L1 L2 L3 H; try discriminate; cbn [fields_twice]; [exact I|].
  split; [exact (H 0%nat n k t x y z eq_refl eq_refl eq_refl eq_refl)|]. apply IH; cbn in *; try lia. intros i. exact (H (S i)).
Qed.

(** The fields of a message that has been received: the elements of a list once more. *)
Definition again (k : fkind) (x y : sval) : sval :=
  match k, x, y with KRep _, SvR l, SvR l' => SvR (l' ++ skipn (length l) l') | _, _, _ => y end.
Fixpoint agains (fs : list fdesc) (xs ys : list sval) : list sval :=
  match fs, xs, ys with (_, k, _) :: fs', x :: xs', y :: ys' => again k x y :: agains fs' xs' ys' | _, _, _ => [] end.
Lemma agains_length fs : forall xs ys, length xs = length fs -> length ys = length fs -> length (agains fs xs ys) = length fs.
Proof. induction fs as [|[[n k] t] fs IH]; intros [|x xs] [|y ys] L1 L2; try discriminate; cbn in *; auto. Qed.
Lemma agains_nth fs : forall xs ys i n k t x y, nth_error fs i = Some (n, k, t) -> nth_error xs i = Some x -> nth_error ys i = Some y ->
  nth_error (agains fs xs ys) i = Some (again k x y).
Proof.
  induction fs as [|[[n' k'] t'] fs IH]; intros xs ys i n k t x y Hi Hx Hy; [destruct i; discriminate|].
  destruct xs as [|x' xs], ys as [|y' ys]; try (destruct i; discriminate). destruct i as [|i]; cbn in *; [congruence|]. eapply IH; eassumption.
Qed.

Definition lists_fit (fs : list fdesc) (xs : list sval) : Prop :=
  forall i n max t x, nth_error fs i = Some (n, KRep max, t) -> nth_error xs i = Some x -> exists l, x = SvR l /\ zlen l <= max.

Lemma lists_again fs os vs ovs bs new : desc_ok (EMsg fs os) -> lists_on_top fs os -> shape (EMsg fs os) (SvM vs ovs) -> lists_fit fs vs ->
  mdec fs os (SvM vs ovs) bs new -> room_again fs (SvM vs ovs) new ->
  exists new', mdec fs os new bs new' /\ message_twice fs (SvM vs ovs) new new'.
Proof.
  intros Hd [Hl1 Hl2] Hs Hfit Hm Hroom. destruct (mdec_split _ _ _ _ _ Hm) as (rs & <- & Hn & Hr).
  assert (exists vs' ovs', new = SvM vs' ovs') as (vs' & ovs' & ->).
  { clear - Hr. remember (SvM vs ovs) as a eqn:E. revert vs ovs E. induction Hr as [|v r v' rs' v'' H Hr IH]; intros ws ows E; subst; [eauto|]. inversion H; subst; eapply IH; reflexivity. }
  destruct (project fs os Hd rs _ _ _ _ Hn Hr) as (Hruns & L1 & L2 & Hfs & Hos).
  destruct (shape_msg _ _ _ _ Hs) as (L3 & L4 & Sf & So).
  apply all_Forall in Hl1, Hl2. rewrite Forall_forall in Hl1, Hl2.
  assert (Hsome : forall i y, nth_error vs' i = Some y -> exists x, nth_error vs i = Some x).
  { intros i y Hy. destruct (nth_error vs i) as [x|] eqn:E; [eauto|]. apply nth_error_None in E. assert (Hne : nth_error vs' i <> None) by congruence. apply nth_error_Some in Hne. lia. }
  assert (Hlist : forall i n max t x y, nth_error fs i = Some (n, KRep max, t) -> nth_error vs i = Some x -> nth_error vs' i = Some y ->
    exists l d, x = SvR l /\ y = SvR (l ++ d) /\ again (KRep max) x y = SvR (l ++ d ++ d) /\ fchain n (KRep max) t rs y (again (KRep max) x y)).
  { intros i n max t x y Hi Hx Hy. destruct (Hfit _ _ _ _ _ Hi Hx) as (l & -> & Hz). destruct (Hfs _ _ _ _ _ Hi Hx) as (b & Hb & Hch). rewrite Hy in Hb. injection Hb as <-.
    destruct (list_chain _ _ _ _ _ _ Hz Hch) as (d & -> & Hz2 & Hall). exists l, d. split; [reflexivity|]. split; [reflexivity|].
    unfold again. rewrite skipn_app, skipn_all, Nat.sub_diag. cbn [skipn app]. rewrite <- app_assoc. split; [reflexivity|].
    rewrite app_assoc. apply Hall. pose proof (Hroom i n max t vs ovs vs' ovs' l (l ++ d) eq_refl eq_refl Hi Hx Hy) as Hq. unfold zlen in *. rewrite app_length in *. lia. }
  exists (SvM (agains fs vs vs') ovs'). split.
  - apply records_mdec; [|eauto]. apply assemble; [exact Hd|exact Hruns|congruence|congruence|rewrite agains_length; congruence|reflexivity| |].
    + intros i n k t y Hi Hy. destruct (Hsome i y Hy) as (x & Hx). exists (again k x y). split; [eapply agains_nth; eassumption|].
      destruct (Hfs i n k t x Hi Hx) as (y' & Hy' & Hch). rewrite Hy in Hy'. injection Hy' as <-.
      pose proof (Hl1 _ (nth_error_In _ _ Hi)) as Hlt. cbn in Hlt. destruct (desc_field _ _ _ _ _ _ Hd Hi) as (Hdt & _).
      pose proof (Sf _ _ _ _ _ Hi Hx) as Hsx.
      destruct k as [| |max|]; cbn [again].
      * apply (field_again n KPlain t rs x y); auto; [now apply received_again|discriminate].
      * apply (field_again n KOpt t rs x y); auto; [now apply received_again|discriminate].
      * destruct (Hlist i n max t x y Hi Hx Hy) as (_ & _ & _ & _ & _ & Hc). exact Hc.
      * apply (field_again n KRecursive t rs x y); auto; [now apply received_again|discriminate].
    + intros j ms b Hj Hb. exists b. split; [exact Hb|]. destruct (nth_error ovs j) as [a|] eqn:Ea.
      2: { apply nth_error_None in Ea. assert (Hne : nth_error ovs' j <> None) by congruence. apply nth_error_Some in Hne. lia. }
      destruct (Hos j ms a Hj Ea) as (b' & Hb' & Hch). rewrite Hb in Hb'. injection Hb' as <-.
      eapply oneof_again; [|exact (So _ _ _ Hj Ea)|exact Hch]. intros n t El. destruct (desc_member _ _ _ _ _ _ Hd Hj El) as [Hdt _].
      pose proof (Hl2 _ (nth_error_In _ _ Hj)) as Hlm. apply all_Forall in Hlm. rewrite Forall_forall in Hlm.
      pose proof (Hlm _ (SerProofs.lookup_In _ _ _ El)) as Hlt. cbn in Hlt. split; [exact Hdt|]. split; [exact Hlt|]. now apply received_again.
  - exists vs, vs', (agains fs vs vs'), ovs, ovs'. do 3 (split; [reflexivity|]). apply fields_twice_nth; [congruence|congruence|apply agains_length; congruence|].
    intros i n k t x y z Hi Hx Hy Hz. rewrite (agains_nth _ _ _ _ _ _ _ _ _ Hi Hx Hy) in Hz. injection Hz as <-. destruct k as [| |max|]; cbn [again field_twice]; auto.
    destruct (Hlist i n max t x y Hi Hx Hy) as (l & d & H1 & H2 & H3 & _). exists l, d. auto.
Qed.

(** ** Objects *)
Lemma view_lists_fit fs os v vs ovs : wt (EMsg fs os) v -> view (EMsg fs os) v = SvM vs ovs -> lists_fit fs vs.
Proof.
  intros Hw. destruct v as [| | | |pres ws ows]; try contradiction. cbn [wt] in Hw. destruct Hw as (_ & _ & Hw & _). cbn [view]. intros E. injection E as <- _.
  generalize 0 at 1 as c. unfold lists_fit. revert ws Hw. induction fs as [|[[n k] t] fs IH]; intros [|w ws] Hw c i n' max t' x Hi Hx; cbn [all2] in Hw; try contradiction; try (destruct i; discriminate).
  destruct Hw as [Hw Hws]. cbn [map view_fields] in Hx. destruct i as [|i]; cbn [nth_error] in *.
  - injection Hi as -> -> ->. injection Hx as <-. cbn [wt_field view_field] in *. destruct w as [| |len data| |]; try contradiction. destruct Hw as (Hl & Hz & _).
    eexists. split; [reflexivity|]. unfold zlen in *. rewrite map_length, firstn_length. lia.
  - eapply IH; eassumption.
Qed.

Lemma view_msg fs os v : wt (EMsg fs os) v -> exists vs ovs, view (EMsg fs os) v = SvM vs ovs.
Proof. intros Hw. destruct v; try contradiction. cbn [view]. eauto. Qed.

Theorem twice fs os v bs new : let m := EMsg fs os in
  desc_ok m -> list_free m -> wt m v -> clean m v -> mdec fs os (view m v) bs new ->
  forall S (R : rops S) rel, reader_ok R rel -> forall s, rel s bs ->
  forall S' (R' : rops S') rel', reader_ok R' rel' -> forall s', rel' s' bs ->
  forall fuel, (length bs < fuel)%nat ->
  exists v1 s1 v2 s2, deserialize fuel m S R v s = Done (NoErrors, v1, s1) /\ view m v1 = new
  /\ deserialize fuel m S' R' v1 s' = Done (NoErrors, v2, s2) /\ view m v2 = new.
Proof.
  intros m Hd Hl Hw Hc Hm S R rel ok s Hr S' R' rel' ok' s' Hr' fuel Hf.
  destruct (decode_merge fs os v bs new Hd Hw Hc Hm S R rel ok s Hr fuel Hf) as (v1 & s1 & E1 & _ & V1 & W1 & C1).
  assert (Hm2 : mdec fs os new bs new).
  { pose proof (received_again m Hd Hl [bs] (view m v) new (shape_view m v Hw)) as H. cbn [echain] in H.
    destruct H as (c & He & <-); [exists new; split; [constructor; exact Hm|reflexivity]|]. inversion He; subst. assumption. }
  subst new. fold m in Hm2, W1, C1. destruct (decode_merge fs os v1 bs _ Hd W1 C1 Hm2 S' R' rel' ok' s' Hr' fuel Hf) as (v2 & s2 & E2 & _ & V2 & _).
  exists v1, s1, v2, s2. auto.
Qed.

Theorem twice_lists fs os v bs new : let m := EMsg fs os in
  desc_ok m -> lists_on_top fs os -> wt m v -> clean m v -> mdec fs os (view m v) bs new -> room_again fs (view m v) new ->
  forall S (R : rops S) rel, reader_ok R rel -> forall s, rel s bs ->
  forall S' (R' : rops S') rel', reader_ok R' rel' -> forall s', rel' s' bs ->
  forall fuel, (length bs < fuel)%nat ->
  exists v1 s1 v2 s2, deserialize fuel m S R v s = Done (NoErrors, v1, s1) /\ view m v1 = new
  /\ deserialize fuel m S' R' v1 s' = Done (NoErrors, v2, s2) /\ message_twice fs (view m v) (view m v1) (view m v2).
Proof.
  intros m Hd Hl Hw Hc Hm Hroom S R rel ok s Hr S' R' rel' ok' s' Hr' fuel Hf.
  destruct (decode_merge fs os v bs new Hd Hw Hc Hm S R rel ok s Hr fuel Hf) as (v1 & s1 & E1 & _ & V1 & W1 & C1).
  destruct (view_msg fs os v Hw) as (vs & ovs & Ev). pose proof (shape_view m v Hw) as Hs. unfold m in Hroom, Hs, Hm. rewrite Ev in *.
  destruct (lists_again fs os vs ovs bs new Hd Hl Hs (view_lists_fit _ _ _ _ _ Hw Ev) Hm Hroom) as (new' & Hm2 & Ht).
  subst new. fold m in Hm2, W1, C1. destruct (decode_merge fs os v1 bs _ Hd W1 C1 Hm2 S' R' rel' ok' s' Hr' fuel Hf) as (v2 & s2 & E2 & _ & V2 & _).
  exists v1, s1, v2, s2. split; [exact E1|]. split; [reflexivity|]. split; [exact E2|]. unfold m in *. rewrite Ev, V2. exact Ht.
Qed.
