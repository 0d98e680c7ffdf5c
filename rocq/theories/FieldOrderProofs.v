(** * FieldOrderProofs: the order of records of different fields does not matter (C79). *)
From Verif Require Import Base Buffers Wire Schema Fields Message Spec SpecFieldOrder Contracts BitLemmas
  ReadProofs ScalarProofs BufferProofs Struct SerProofs Tables DecodeProofs RoundTrip DecodeProps.
From Coq Require Import Permutation ZifyBool ZifyNat ZifyN.
Ltac Zify.zify_post_hook ::= Z.div_mod_to_equations.

Inductive records (fs : list fdesc) (os : list odesc) : sval -> list (list Z) -> sval -> Prop :=
| records_none v : records fs os v [] v
| records_more v r v' rs v'' : rdec fs os v r v' -> records fs os v' rs v'' -> records fs os v (r :: rs) v''.

Definition numbered '((n, r) : Z * list Z) : Prop :=
  exists tg w rest, r = tg ++ rest /\ varint32 tg (n * 8 + wt_code w).

Lemma varint_wf_unique k k' a b x y : varint_wf k a -> varint_wf k' b -> a ++ x = b ++ y -> a = b.
Proof.
  intros (i & l & -> & _ & Hi & Hl) (i' & l' & -> & _ & Hi' & Hl'). revert i' Hi'. induction Hi as [|c i Hc Hi IH]; intros i' Hi' E.
  - destruct Hi' as [|c' i' Hc' Hi']; cbn in E; injection E as E _; [now subst|lia].
  - destruct Hi' as [|c' i' Hc' Hi']; cbn in E; injection E as E E'; [lia|]. subst c'. cbn. f_equal. now apply IH.
Qed.

Lemma wt_code_range w : 0 <= wt_code w < 8.
Proof. destruct w; cbn; lia. Qed.

Lemma tag_unique tg tg' n n' w w' x y : varint32 tg (n * 8 + wt_code w) -> varint32 tg' (n' * 8 + wt_code w') -> tg ++ x = tg' ++ y -> n = n'.
Proof.
  intros [H1 H2] [H3 H4] E. pose proof (varint_wf_unique _ _ _ _ _ _ H1 H3 E) as ->. pose proof (wt_code_range w). pose proof (wt_code_range w'). lia.
Qed.

Lemma upd_comm {A} : forall i j (x y : A) l, i <> j -> upd i x (upd j y l) = upd j y (upd i x l).
Proof.
  induction i as [|i IH]; intros [|j] x y [|a l] H; cbn; try reflexivity; [contradiction|]. f_equal. apply IH. congruence.
Qed.

(** What one record does. *)
Inductive local (fs : list fdesc) (os : list odesc) (n : Z) (r : list Z) (vs : list sval) (ovs : list (Z * sval)) : sval -> Prop :=
| local_field i k t old new : nth_error fs i = Some (n, k, t) -> nth_error vs i = Some old ->
    (forall vs' ovs', nth_error vs' i = Some old -> rdec fs os (SvM vs' ovs') r (SvM (upd i new vs') ovs')) ->
    local fs os n r vs ovs (SvM (upd i new vs) ovs)
| local_oneof j ms t old new : nth_error os j = Some ms -> lookup ms n = Some t -> nth_error ovs j = Some old ->
    (forall vs' ovs', nth_error ovs' j = Some old -> rdec fs os (SvM vs' ovs') r (SvM vs' (upd j new ovs'))) ->
    local fs os n r vs ovs (SvM vs (upd j new ovs))
| local_none : (forall vs' ovs', rdec fs os (SvM vs' ovs') r (SvM vs' ovs')) -> local fs os n r vs ovs (SvM vs ovs).

Lemma rdec_local fs os n r vs ovs v' : numbered (n, r) -> rdec fs os (SvM vs ovs) r v' -> local fs os n r vs ovs v'.
Proof.
  intros (tg0 & w0 & rest & E0 & Ht0) H. inversion H; subst;
    match goal with Ht : varint32 ?tg (?num * 8 + _), E : _ = _ ++ rest |- _ => assert (num = n) by (eapply tag_unique; [exact Ht|exact Ht0|exact E]); subst num end.
  - eapply local_field; eauto. intros. eapply rdec_plain; eauto.
  - eapply local_field; eauto. intros. eapply rdec_opt_absent; eauto.
  - eapply local_field; eauto. intros. eapply rdec_opt_present; eauto.
  - eapply local_field; eauto. intros. eapply rdec_packed; eauto.
  - eapply local_field; eauto. intros. eapply rdec_repeated; eauto.
  - eapply local_oneof; eauto. intros. eapply rdec_oneof_same; eauto.
  - eapply local_oneof; eauto. intros. eapply rdec_oneof_other; eauto.
  - apply local_none. intros. eapply rdec_unknown; eauto.
Qed.

Lemma local_rdec fs os n r vs ovs v' : local fs os n r vs ovs v' -> rdec fs os (SvM vs ovs) r v'.
Proof. intros H. destruct H; auto. Qed.

Lemma lookup_existsb {X} (ms : list (Z * X)) n t : lookup ms n = Some t -> existsb (fun m => fst m =? n) ms = true.
Proof. induction ms as [|[m x] ms IH]; cbn; [discriminate|]. destruct (m =? n); auto. Qed.

Lemma not_concerns os a b : concerns os a b = false -> a <> b /\ forall j ms t t', nth_error os j = Some ms -> lookup ms a = Some t -> lookup ms b = Some t' -> False.
Proof.
  unfold concerns. intros H. apply Bool.orb_false_iff in H as [H1 H2]. split; [lia|]. intros j ms t t' Hj Ha Hb.
  apply nth_error_In in Hj. assert (existsb (fun ms => existsb (fun m => fst m =? a) ms && existsb (fun m => fst m =? b) ms) os = true).
  { apply existsb_exists. exists ms. split; [exact Hj|]. now rewrite (lookup_existsb _ _ _ Ha), (lookup_existsb _ _ _ Hb). }
  congruence.
Qed.

Lemma rdec_message fs os v r v' : rdec fs os v r v' -> exists vs ovs, v = SvM vs ovs.
Proof. intros H. inversion H; eauto. Qed.

(** Two records of different fields can be swapped. *)
Lemma swap fs os a ra b rb v0 v1 v2 : numbered (a, ra) -> numbered (b, rb) -> concerns os a b = false ->
  rdec fs os v0 ra v1 -> rdec fs os v1 rb v2 -> exists v1', rdec fs os v0 rb v1' /\ rdec fs os v1' ra v2.
Proof.
  intros Na Nb Hc Ha Hb. destruct (rdec_message _ _ _ _ _ Ha) as (vs & ovs & ->). destruct (not_concerns _ _ _ Hc) as [Hne Hone].
  apply (rdec_local _ _ _ _ _ _ _ Na) in Ha. destruct Ha as [i k t old new Hi Ho Hr|j ms t old new Hj Hl Ho Hr|Hr];
    apply (rdec_local _ _ _ _ _ _ _ Nb) in Hb; destruct Hb as [i' k' t' old' new' Hi' Ho' Hr'|j' ms' t' old' new' Hj' Hl' Ho' Hr'|Hr'].
  - assert (i <> i') by (intros ->; congruence). rewrite nth_error_upd_other in Ho' by assumption. exists (SvM (upd i' new' vs) ovs). split; [auto|].
    rewrite upd_comm by auto. apply Hr. rewrite nth_error_upd_other by auto. exact Ho.
  - exists (SvM vs (upd j' new' ovs)). split; [auto|]. apply Hr. exact Ho.
  - exists (SvM vs ovs). split; [auto|]. now apply Hr.
  - exists (SvM (upd i' new' vs) ovs). split; [auto|]. now apply Hr.
  - assert (j <> j') by (intros ->; rewrite Hj in Hj'; injection Hj' as <-; eapply Hone; eassumption).
    rewrite nth_error_upd_other in Ho' by assumption. exists (SvM vs (upd j' new' ovs)). split; [auto|].
    rewrite upd_comm by auto. apply Hr. rewrite nth_error_upd_other by auto. exact Ho.
  - exists (SvM vs ovs). split; [auto|]. now apply Hr.
  - exists (SvM (upd i' new' vs) ovs). split; [auto|]. apply Hr.
  - exists (SvM vs (upd j' new' ovs)). split; [auto|]. apply Hr.
  - exists (SvM vs ovs). split; [auto|]. apply Hr.
Qed.

Lemma records_app fs os v a b v2 : records fs os v (a ++ b) v2 <-> exists v1, records fs os v a v1 /\ records fs os v1 b v2.
Proof.
  revert v. induction a as [|r a IH]; intros v; cbn [app].
  - split; [intros H; exists v; split; [constructor|exact H]|]. intros (v1 & H & H'). inversion H; subst. exact H'.
  - split.
    + intros H. inversion H as [|? ? v' ? ? Hr Hrs]; subst. apply IH in Hrs. destruct Hrs as (v1 & H1 & H2). exists v1. split; [econstructor; eassumption|exact H2].
    + intros (v1 & H & H'). inversion H as [|? ? v' ? ? Hr Hrs]; subst. econstructor; [exact Hr|]. apply IH. eauto.
Qed.

(** A record can be moved in front of others that do not concern it. *)
Lemma to_front fs os n r l : forall v v' v2, numbered (n, r) -> Forall numbered l -> Forall (fun x => concerns os n (fst x) = false) l ->
  records fs os v (map snd l) v' -> rdec fs os v' r v2 -> exists v1, rdec fs os v r v1 /\ records fs os v1 (map snd l) v2.
Proof.
  induction l as [|[m x] l IH]; intros v v' v2 Hn Hl Hc Hrs Hr; cbn [map snd] in Hrs; inversion Hrs; subst.
  - exists v2. split; [exact Hr|constructor].
  - inversion Hl; subst. inversion Hc as [|? ? Hcm Hc']; subst. cbn [fst] in Hcm.
    destruct (IH _ _ _ Hn H3 Hc' H4 Hr) as (v1 & H5 & H6).
    assert (Hcm' : concerns os m n = false).
    { clear - Hcm. unfold concerns in *. rewrite Z.eqb_sym. apply Bool.orb_false_iff in Hcm as [-> H]. cbn. rewrite <- H. clear.
      induction os as [|ms os IH]; [reflexivity|]. cbn. now rewrite IH, Bool.andb_comm. }
    destruct (swap _ _ _ _ _ _ _ _ _ H1 Hn Hcm' H2 H5) as (v1' & H7 & H8). exists v1'. split; [exact H7|]. cbn [map snd]. econstructor; eassumption.
Qed.

Definition rec_dec (x y : Z * list Z) : {x = y} + {x <> y}.
Proof. decide equality; [apply (list_eq_dec Z.eq_dec)|apply Z.eq_dec]. Defined.

Lemma concerns_self os n : concerns os n n = true.
Proof. unfold concerns. now rewrite Z.eqb_refl. Qed.

(** The first occurrence. *)
Lemma first_split (p : Z * list Z -> bool) x l f : p x = true -> filter p l = x :: f ->
  exists l1 l2, l = l1 ++ x :: l2 /\ Forall (fun y => p y = false) l1 /\ filter p l2 = f.
Proof.
  intros Hp. induction l as [|y l IH]; cbn [filter]; [discriminate|]. destruct (p y) eqn:E.
  - intros H. injection H as -> E'. exists [], l. split; [reflexivity|]. split; [constructor|exact E'].
  - intros H. destruct (IH H) as (l1 & l2 & -> & H1 & H2). exists (y :: l1), l2. split; [reflexivity|]. split; [constructor; assumption|exact H2].
Qed.

Lemma reorder fs os rs' : forall rs v new, Permutation rs rs' -> Forall numbered rs ->
  (forall n, filter (fun x => concerns os n (fst x)) rs = filter (fun x => concerns os n (fst x)) rs') ->
  records fs os v (map snd rs) new -> records fs os v (map snd rs') new.
Proof.
  induction rs' as [|[n r] rs' IH]; intros rs v new Hp Hn Hf H.
  - apply Permutation_sym, Permutation_nil in Hp. subst rs. exact H.
  - pose proof (Hf n) as Hfn. cbn [filter fst] in Hfn. rewrite concerns_self in Hfn.
    destruct (first_split (fun x => concerns os n (fst x)) (n, r) rs _ (concerns_self os n) Hfn) as (l1 & l2 & -> & Hl1 & _).
    apply Forall_app in Hn as [Hn1 Hn2]. inversion Hn2 as [|? ? Hnr Hn2']; subst.
    rewrite map_app in H. apply records_app in H. destruct H as (v1 & H1 & H2). cbn [map snd] in H2. inversion H2 as [|? ? v2 ? ? Hr H3]; subst.
    destruct (to_front _ _ _ _ _ _ _ _ Hnr Hn1 Hl1 H1 Hr) as (v1' & H4 & H5).
    cbn [map snd]. econstructor; [exact H4|]. apply (IH (l1 ++ l2)).
    + eapply Permutation_cons_inv with (a := (n, r)). etransitivity; [apply Permutation_middle|exact Hp].
    + apply Forall_app. split; assumption.
    + intros m. specialize (Hf m). rewrite filter_app in Hf |- *. cbn [filter] in Hf. destruct (concerns os m (fst (n, r))) eqn:E; [|exact Hf].
      assert (E1 : filter (fun x => concerns os m (fst x)) l1 = []) .
      { destruct (filter (fun x => concerns os m (fst x)) l1) as [|y ys] eqn:E1; [reflexivity|].
        exfalso. cbn [app] in Hf. injection Hf as -> _.
        assert (Hy : In (n, r) l1) by (eapply (proj1 (filter_In _ _ _)); rewrite E1; left; reflexivity).
        rewrite Forall_forall in Hl1. specialize (Hl1 _ Hy). cbn [fst] in Hl1. now rewrite concerns_self in Hl1. }
      rewrite E1 in *. cbn in *. now injection Hf.
    + rewrite map_app. apply records_app. eauto.
Qed.

Lemma records_mdec fs os v rs new : records fs os v rs new -> (exists vs ovs, v = SvM vs ovs) -> mdec fs os v (concat rs) new.
Proof.
  induction 1 as [v|v r v' rs v'' Hr H IH]; intros (vs & ovs & E); cbn [concat].
  - subst v. constructor.
  - econstructor; [exact Hr|]. apply IH. subst v. inversion Hr; subst; eauto.
Qed.

(** Records can be told apart: a record is not the beginning of another one. *)
Definition shaped (w : wiretype) (bs : list Z) : Prop :=
  match w with
  | VARINT => exists k, varint_wf k bs
  | FIXED32 => length bs = 4%nat
  | FIXED64 => length bs = 8%nat
  | LENDEL => exists l p, varint32 l (zlen p) /\ bs = l ++ p
  | _ => False
  end.

Lemma scalar_shaped sc p z : scalar_dec sc p z -> shaped (scalar_wiretype sc) p.
Proof. destruct sc; cbn; intuition eauto. Qed.
Lemma body_shaped t p bs : (forall sc, t = EScalar sc -> exists z, scalar_dec sc p z) -> body t p bs -> shaped (elem_wiretype t) bs.
Proof.
  intros H Hb. destruct t as [sc|st mx|fs os]; cbn [body elem_wiretype] in *.
  - subst bs. destruct (H sc eq_refl) as [z Hz]. eapply scalar_shaped; exact Hz.
  - destruct Hb as (l & Hl & ->). cbn. eauto.
  - destruct Hb as (l & Hl & ->). cbn. eauto.
Qed.
Lemma edec_scalar_inv t old p new sc : edec t old p new -> t = EScalar sc -> exists z, scalar_dec sc p z.
Proof. intros H E. destruct H; try discriminate. injection E as ->. eauto. Qed.

Lemma rdec_shaped fs os v r v' : rdec fs os v r v' -> exists tg n w bs, r = tg ++ bs /\ varint32 tg (n * 8 + wt_code w) /\ shaped w bs.
Proof.
  intros H. inversion H; subst; do 4 eexists; (split; [reflexivity|]); (split; [eassumption|]).
  all: try (eapply body_shaped; [|eassumption]; intros sc' E; eapply edec_scalar_inv; eassumption).
  - cbn. eauto.
  - cbn. eauto.
  - match goal with Hs : skippable _ _ |- _ => destruct Hs; cbn; eauto end.
Qed.

Lemma wt_code_inj w w' n n' : n * 8 + wt_code w = n' * 8 + wt_code w' -> w = w'.
Proof. destruct w, w'; cbn; intros; try reflexivity; lia. Qed.

Lemma app_length_eq {A} (a b x y : list A) : length a = length b -> a ++ x = b ++ y -> a = b.
Proof.
  revert b. induction a as [|c a IH]; intros [|d b] H E; try discriminate; [reflexivity|]. cbn in *. injection E as -> E. f_equal. apply IH; [lia|exact E].
Qed.

Lemma delimited_unique l p l' p' x y : varint32 l (zlen p) -> varint32 l' (zlen p') -> (l ++ p) ++ x = (l' ++ p') ++ y -> l = l' /\ p = p'.
Proof.
  intros [Hl Hn] [Hl' Hn'] E. rewrite <- !app_assoc in E. pose proof (varint_wf_unique _ _ _ _ _ _ Hl Hl' E) as ->. split; [reflexivity|].
  apply app_inv_head in E. eapply app_length_eq; [|exact E]. unfold zlen in *. lia.
Qed.

Lemma shaped_unique w a b x y : shaped w a -> shaped w b -> a ++ x = b ++ y -> a = b.
Proof.
  destruct w; cbn; try contradiction.
  - intros [k Ha] [k' Hb]. now apply (varint_wf_unique k k').
  - intros Ha Hb. apply app_length_eq. lia.
  - intros (l & p & Hl & ->) (l' & p' & Hl' & ->) E. destruct (delimited_unique _ _ _ _ _ _ Hl Hl' E) as [-> ->]. reflexivity.
  - intros Ha Hb. apply app_length_eq. lia.
Qed.

Lemma rdec_unique fs os v r v' fs' os' w r2 w' x y : rdec fs os v r v' -> rdec fs' os' w r2 w' -> r ++ x = r2 ++ y -> r = r2.
Proof.
  intros H H' E. apply rdec_shaped in H, H'. destruct H as (tg & n & u & bs & -> & Ht & Hs), H' as (tg' & n' & u' & bs' & -> & Ht' & Hs').
  rewrite <- !app_assoc in E. destruct Ht as [Ht En], Ht' as [Ht' En']. pose proof (varint_wf_unique _ _ _ _ _ _ Ht Ht' E) as ->.
  apply app_inv_head in E. f_equal. rewrite En in En'. apply wt_code_inj in En'. subst u'. eapply shaped_unique; eassumption.
Qed.

(** So the records of an input are the ones that are decoded. *)
Lemma rdec_nonempty fs os v r v' : rdec fs os v r v' -> r <> [].
Proof.
  intros H E. apply rdec_shaped in H. destruct H as (tg & n & u & bs & -> & [(i & l & -> & _) _] & _). destruct i; discriminate.
Qed.

Lemma mdec_records fs os rs : Forall (one_record fs os) rs -> forall old new, mdec fs os old (concat (map snd rs)) new -> records fs os old (map snd rs) new.
Proof.
  induction 1 as [|[n r] rs (Hn & v & v' & Hr) Hrs IH]; intros old new H; cbn [map concat snd] in *.
  - inversion H as [|? ? ? r v1 bs ? Hr Hm]; subst; [constructor|]. apply rdec_nonempty in Hr. now destruct r.
  - inversion H as [? ? vs ovs E|? ? ? r' v1 bs ? Hr' Hm E]; subst.
    + match goal with E : _ = _ ++ _ |- _ => symmetry in E; apply app_eq_nil in E; destruct E as [-> _] | E : _ ++ _ = [] |- _ => apply app_eq_nil in E; destruct E as [-> _] end.
      apply rdec_nonempty in Hr. congruence.
    + match goal with E : _ ++ _ = _ ++ _ |- _ => pose proof (rdec_unique _ _ _ _ _ _ _ _ _ _ _ _ Hr' Hr E); subst r'; apply app_inv_head in E; subst bs end.
      econstructor; [exact Hr'|]. now apply IH.
Qed.

Lemma flat_length (a b : list (Z * list Z)) : Permutation a b -> length (flat_map snd a) = length (flat_map snd b).
Proof. induction 1; cbn [flat_map]; rewrite ?app_length in *; lia. Qed.

Scheme reordered_min := Minimality for reordered Sort Prop
  with inside_min := Minimality for inside Sort Prop.
Combined Scheme reordered_mut from reordered_min, inside_min.

Lemma reordered_length : (forall fs os bs bs', reordered fs os bs bs' -> length bs = length bs')
  /\ (forall fs os rs rs', inside fs os rs rs' -> length (concat (map snd rs)) = length (concat (map snd rs'))).
Proof.
  apply reordered_mut.
  - intros fs os rs rs1 rs' _ _ E [Hp _]. rewrite E, <- !flat_map_concat_map. now apply flat_length.
  - reflexivity.
  - intros fs os r rs rs' _ E. cbn [map concat]. rewrite !app_length. lia.
  - intros fs os n fs' os' tg len p p' rs rs' _ _ _ _ E1 _ E2. cbn [map concat snd]. rewrite !app_length. lia.
Qed.

Lemma mdec_message fs os old bs new : mdec fs os old bs new -> exists vs ovs, old = SvM vs ovs.
Proof. intros H. inversion H as [|? ? ? ? ? ? ? Hr]; subst; [eauto|]. eapply rdec_message; exact Hr. Qed.

Definition typed (fs : list fdesc) (os : list odesc) : list (Z * ety) := map (fun '(num, _, t) => (num, t)) fs ++ concat os.
Lemma typed_numbers fs os : map fst (typed fs os) = field_numbers fs os.
Proof.
  unfold typed, field_numbers. rewrite map_app, map_map. f_equal; [apply map_ext; intros [[num k] t]; reflexivity|].
  now rewrite concat_map, flat_map_concat_map.
Qed.
Lemma typed_unique fs os n t t' : NoDup (field_numbers fs os) -> In (n, t) (typed fs os) -> In (n, t') (typed fs os) -> t = t'.
Proof.
  rewrite <- typed_numbers. generalize (typed fs os) as l. induction l as [|[m u] l IH]; [intros _ []|]. cbn [map]. intros H. inversion H as [|? ? Hx Hl]; subst.
  intros [E|H1] [E'|H2]; [congruence| | |auto].
  - exfalso. injection E as -> ->. apply Hx. now apply (in_map fst) in H2.
  - exfalso. injection E' as -> ->. apply Hx. now apply (in_map fst) in H1.
Qed.
Lemma typed_message fs os n fs' os' : message_field fs os n fs' os' -> In (n, EMsg fs' os') (typed fs os).
Proof.
  intros [[k H]|(ms & H & H')]; apply in_app_iff; [left|right].
  - apply (in_map (fun '(num, _, t) => (num, t))) in H. exact H.
  - apply in_concat. eauto.
Qed.
Lemma field_type fs os n fs' os' i k t : NoDup (field_numbers fs os) -> message_field fs os n fs' os' -> nth_error fs i = Some (n, k, t) -> t = EMsg fs' os'.
Proof.
  intros Hn Hm Hi. apply (typed_unique fs os n _ _ Hn); [|now apply typed_message]. apply nth_error_In in Hi.
  apply in_app_iff. left. apply (in_map (fun '(num, _, t) => (num, t))) in Hi. exact Hi.
Qed.
Lemma lookup_In {X} (ms : list (Z * X)) n t : lookup ms n = Some t -> In (n, t) ms.
Proof. induction ms as [|[m x] ms IH]; cbn; [discriminate|]. destruct (Z.eqb_spec m n); [intros E; injection E as ->; subst; auto|auto]. Qed.
Lemma oneof_type fs os n fs' os' j ms t : NoDup (field_numbers fs os) -> message_field fs os n fs' os' -> nth_error os j = Some ms -> lookup ms n = Some t -> t = EMsg fs' os'.
Proof.
  intros Hn Hm Hj Hl. apply (typed_unique fs os n _ _ Hn); [|now apply typed_message]. apply nth_error_In in Hj. apply lookup_In in Hl.
  apply in_app_iff. right. apply in_concat. eauto.
Qed.

Lemma inside_record fs os v tg len p p' n fs' os' v' : NoDup (field_numbers fs os) -> message_field fs os n fs' os' ->
  varint32 tg (n * 8 + wt_code LENDEL) -> varint32 len (zlen p) -> length p = length p' ->
  (forall old new, mdec fs' os' old p new -> mdec fs' os' old p' new) ->
  rdec fs os v (tg ++ len ++ p) v' -> rdec fs os v (tg ++ len ++ p') v'.
Proof.
  intros Hnd Hm Ht Hl Hlen IH H. assert (Hl' : varint32 len (zlen p')) by (unfold zlen in *; now rewrite <- Hlen).
  assert (Hf : forall i k t, nth_error fs i = Some (n, k, t) -> t = EMsg fs' os') by (intros i k t Hi; eapply field_type; eassumption).
  assert (Ho : forall j ms t, nth_error os j = Some ms -> lookup ms n = Some t -> t = EMsg fs' os') by (intros j ms t Hj Hlk; eapply oneof_type; eassumption).
  assert (Hb : forall tg' bs, tg ++ len ++ p = tg' ++ bs -> forall num w, varint32 tg' (num * 8 + wt_code w) -> tg' = tg /\ num = n /\ bs = len ++ p).
  { intros tg' bs E num w Ht'. pose proof (tag_unique _ _ _ _ _ _ _ _ Ht Ht' E) as ->. destruct Ht as [Ht _], Ht' as [Ht' _].
    pose proof (varint_wf_unique _ _ _ _ _ _ Ht Ht' E) as ->. apply app_inv_head in E. auto. }
  assert (Hd : forall l q, l ++ q = len ++ p -> varint32 l (zlen q) -> l = len /\ q = p).
  { intros l q E Hlq. apply (delimited_unique l q len p [] []); [assumption|assumption|]. now rewrite !app_nil_r. }
  assert (He : forall old q new bs, bs = len ++ p -> body (EMsg fs' os') q bs -> edec (EMsg fs' os') old q new ->
    body (EMsg fs' os') p' (len ++ p') /\ edec (EMsg fs' os') old p' new).
  { intros old q new bs -> (l & Hlq & E) Hq. symmetry in E. destruct (Hd _ _ E Hlq) as [-> ->]. split; [exists len; auto|].
    inversion Hq; subst. apply edec_msg. now apply IH. }
  inversion H; subst;
    match goal with E : _ ++ _ = tg ++ len ++ p |- _ => symmetry in E end;
    match goal with E : tg ++ len ++ p = _, Hn : varint32 _ (_ * 8 + _) |- _ => destruct (Hb _ _ E _ _ Hn) as (-> & -> & Eb) end.
  - pose proof (Hf _ _ _ H1) as ->. destruct (He _ _ _ _ Eb H4 H8) as [H4' H8']. eapply rdec_plain; eauto.
  - pose proof (Hf _ _ _ H1) as ->. destruct (He _ _ _ _ Eb H4 H8) as [H4' H8']. eapply rdec_opt_absent; eauto.
  - pose proof (Hf _ _ _ H1) as ->. destruct (He _ _ _ _ Eb H4 H8) as [H4' H8']. eapply rdec_opt_present; eauto.
  - match goal with Hi : nth_error fs _ = Some _ |- _ => apply Hf in Hi; discriminate end.
  - match goal with Hi : nth_error fs _ = Some _ |- _ => pose proof (Hf _ _ _ Hi) as -> end.
    match goal with Hq : varint32 ?l (zlen ?q) |- _ => destruct (Hd _ _ Eb Hq) as [-> ->] end.
    eapply rdec_repeated; eauto. match goal with Hq : edec _ _ p _ |- _ => inversion Hq; subst end. apply edec_msg. now apply IH.
  - match goal with Hi : lookup _ n = Some ?t, Hj : nth_error os _ = Some _ |- _ => pose proof (Ho _ _ _ Hj Hi) as -> end.
    match goal with Hx : body _ _ _, Hy : edec _ _ _ _ |- _ => destruct (He _ _ _ _ Eb Hx Hy) as [H4' H8'] end. eapply rdec_oneof_same; eauto.
  - match goal with Hi : lookup _ n = Some ?t, Hj : nth_error os _ = Some _ |- _ => pose proof (Ho _ _ _ Hj Hi) as -> end.
    match goal with Hx : body _ _ _, Hy : edec _ _ _ _ |- _ => destruct (He _ _ _ _ Eb Hx Hy) as [H4' H8'] end. eapply rdec_oneof_other; eauto.
  - exfalso. match goal with Hi : ~ In n _ |- _ => apply Hi end. rewrite <- typed_numbers. apply typed_message in Hm. now apply (in_map fst) in Hm.
Qed.

Lemma reordered_mdec : (forall fs os bs bs', reordered fs os bs bs' -> desc_ok (EMsg fs os) -> forall old new, mdec fs os old bs new -> mdec fs os old bs' new)
  /\ (forall fs os rs rs', inside fs os rs rs' -> desc_ok (EMsg fs os) -> Forall numbered rs ->
        Forall numbered rs' /\ forall old new, records fs os old (map snd rs) new -> records fs os old (map snd rs') new).
Proof.
  apply reordered_mut.
  - intros fs os rs rs1 rs' Hone _ IH [Hp Hf] Hd old new H. assert (Hn : Forall numbered rs) by (eapply Forall_impl; [|exact Hone]; intros [n r] [H0 _]; exact H0).
    destruct (IH Hd Hn) as [Hn1 H1]. apply records_mdec; [|eapply mdec_message; exact H].
    apply (reorder _ _ _ _ _ _ Hp Hn1 Hf). apply H1. now apply mdec_records.
  - intros fs os _ _. split; [constructor|auto].
  - intros fs os r rs rs' _ IH Hd Hn. inversion Hn; subst. destruct (IH Hd H2) as [H3 H4]. split; [constructor; assumption|].
    intros old new H. cbn [map] in *. inversion H; subst. econstructor; [eassumption|]. now apply H4.
  - intros fs os n fs' os' tg len p p' rs rs' Hm Ht Hl Hre IHre _ IH Hd Hn. inversion Hn as [|? ? Hn1 Hn2]; subst. destruct (IH Hd Hn2) as [H3 H4]. split.
    + constructor; [|exact H3]. exists tg, LENDEL, (len ++ p'). auto.
    + intros old new H. cbn [map snd] in *. inversion H; subst. econstructor; [|apply H4; eassumption].
      eapply inside_record; [exact (proj1 Hd)|exact Hm|exact Ht|exact Hl|eapply (proj1 reordered_length); exact Hre| |eassumption].
      apply IHre. apply typed_message in Hm. apply in_app_iff in Hm. destruct Hd as (_ & _ & Hd1 & Hd2). apply all_Forall in Hd1. apply all_Forall in Hd2. destruct Hm as [Hm|Hm].
      * apply in_map_iff in Hm. destruct Hm as ([[num k] t] & E & Hin). injection E as -> ->. rewrite Forall_forall in Hd1. apply (Hd1 _ Hin).
      * apply in_concat in Hm. destruct Hm as (ms & Hms & Hin). rewrite Forall_forall in Hd2. specialize (Hd2 _ Hms). apply all_Forall in Hd2. rewrite Forall_forall in Hd2. apply (Hd2 _ Hin).
Qed.

Lemma decode_reordered fs os v bs bs' new : let t := EMsg fs os in
  desc_ok t -> wt t v -> clean t v -> mdec fs os (view t v) bs new -> reordered fs os bs bs' ->
  forall S (R : rops S) rel, reader_ok R rel -> forall s s', rel s bs -> rel s' bs' ->
  forall fuel, (length bs < fuel)%nat ->
  exists v1 v2 s1 s2, deserialize fuel t S R v s = Done (NoErrors, v1, s1) /\ deserialize fuel t S R v s' = Done (NoErrors, v2, s2)
    /\ view t v1 = new /\ view t v2 = new.
Proof.
  intros t Hd Hw Hc H Hre S R rel ok s s' Hs Hs' fuel Hfu.
  pose proof (proj1 reordered_mdec _ _ _ _ Hre Hd _ _ H) as H'.
  destruct (decode_merge fs os v _ new Hd Hw Hc H S R rel ok s Hs fuel Hfu) as (v1 & s1 & E1 & _ & V1 & _).
  assert (Hfu' : (length bs' < fuel)%nat) by (rewrite <- (proj1 reordered_length _ _ _ _ Hre); exact Hfu).
  destruct (decode_merge fs os v _ new Hd Hw Hc H' S R rel ok s' Hs' fuel Hfu') as (v2 & s2 & E2 & _ & V2 & _).
  exists v1, v2, s1, s2. auto.
Qed.
