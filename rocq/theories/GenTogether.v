(** * GenTogether: the registrations, and so the classes, of a file do not depend on the other files of the request. *)
From Coq Require Import String.
From Verif Require Import Base Schema Printf Generator SpecGenerator SpecTogether GenOrder GenSort GenReg GenRender GenTypes GenNames GenAccept GenProps.
From Coq Require Import List Permutation ZifyBool ZifyNat Lia.

(** ** Registering a definition uses only what its fields refer to *)

Definition agree (Q : path -> Prop) (st st' : regs) : Prop := forall p, Q p -> st p = st' p.
Definition same (Q : path -> Prop) (r r' : bool * regs) : Prop := fst r = fst r' /\ agree Q (snd r) (snd r').

Lemma set_reg_agree Q p r r' st st' : agree Q st st' -> (Q p -> r = r') -> agree Q (set_reg p r st) (set_reg p r' st').
Proof.
  intros H Hr q Hq. unfold set_reg. destruct (path_dec q p) as [->|]; [apply Hr; exact Hq|apply H; exact Hq].
Qed.
Lemma register_child_agree Q scope f st st' : agree Q st st' -> agree Q (register_child scope f st) (register_child scope f st').
Proof. intros H. apply set_reg_agree; [exact H|]. intros Hq. rewrite (H _ Hq). reflexivity. Qed.
Lemma set_all_agree Q scope b st st' : agree Q st st' -> agree Q (set_all_registered scope b st) (set_all_registered scope b st').
Proof. intros H. apply set_reg_agree; [exact H|]. intros Hq. rewrite (H _ Hq). reflexivity. Qed.
Lemma and_registered_agree (Q : path -> Prop) scope r r' : Q scope -> same Q r r' -> agree Q (and_registered scope r) (and_registered scope r').
Proof.
  intros Hs [H1 H2]. unfold and_registered. rewrite H1, (H2 scope Hs). apply set_all_agree. exact H2.
Qed.

Definition fields_in (Q : path -> Prop) (fs : list field) : Prop := forall f ref, In f fs -> f_class f = FieldMessage ref -> Q ref.

Lemma register_field_same Q scope f st st' : fields_in Q [f] -> agree Q st st' -> same Q (register_field scope f st) (register_field scope f st').
Proof.
  intros Hf H. unfold register_field.
  destruct (f_class f) as [sc|max|max|ref|ref|max c|] eqn:E; try (split; [reflexivity|]; cbn [snd]; try destruct (max =? 0); first [exact H|apply register_child_agree; exact H]).
  rewrite (H ref (Hf f ref (or_introl eq_refl) E)). destruct (all_registered (st' ref)); [|split; [reflexivity|exact H]].
  split; [reflexivity|]. cbn [snd]. destruct (contains_templates (st' ref)); [apply register_child_agree|]; exact H.
Qed.
Lemma fields_in_cons Q f fs : fields_in Q (f :: fs) -> fields_in Q [f] /\ fields_in Q fs.
Proof.
  intros H. split; intros g ref Hg; apply (H g ref); [destruct Hg as [->|[]]; left; reflexivity|right; exact Hg].
Qed.
Lemma register_oneof_same Q scope fs : forall all st st', fields_in Q fs -> agree Q st st' ->
  same Q (register_oneof scope fs all st) (register_oneof scope fs all st').
Proof.
  induction fs as [|f fs IH]; cbn [register_oneof]; intros all st st' Hf H; [split; [reflexivity|exact H]|].
  apply fields_in_cons in Hf. destruct Hf as [Hf Hfs]. pose proof (register_field_same Q scope f st st' Hf H) as [E1 E2].
  destruct (register_field scope f st) as [b s1], (register_field scope f st') as [b' s1']. cbn [fst snd] in E1, E2. subst b'.
  apply IH; assumption.
Qed.
Lemma fold_agree {A} (Q : path -> Prop) scope (step : A -> regs -> bool * regs) l : Q scope ->
  (forall a, In a l -> forall st st', agree Q st st' -> same Q (step a st) (step a st')) ->
  forall st st', agree Q st st' ->
  agree Q (fold_left (fun st a => and_registered scope (step a st)) l st) (fold_left (fun st a => and_registered scope (step a st)) l st').
Proof.
  intros Hs. induction l as [|a l IH]; intros Hl st st' H; cbn [fold_left]; [exact H|].
  apply IH; [intros b Hb; apply Hl; right; exact Hb|]. apply and_registered_agree; [exact Hs|]. apply Hl; [left; reflexivity|exact H].
Qed.

Lemma register_same Q d : (forall e, In e (all_defs d) -> Q (d_scope e) /\ fields_in Q (d_fields e)) ->
  forall st st', agree Q st st' -> same Q (register d st) (register d st').
Proof.
  induction d as [scope nested enums fields oneofs IH] using mdef_induction. intros Hd st st' H. rewrite !register_eq. cbv zeta.
  destruct (Hd (MDef scope nested enums fields oneofs)) as [Hs Hf]; [apply all_defs_self|]. cbn [d_scope d_fields] in Hs, Hf.
  rewrite Forall_forall in IH.
  assert (Ha : agree Q (start_nested scope nested st) (start_nested scope nested st')).
  { unfold start_nested. apply (fold_agree Q scope register nested Hs); [|apply set_all_agree; exact H].
    intros a Ha s s' Hss. apply (IH a Ha); [|exact Hss]. intros e He. apply Hd. cbn [all_defs]. apply in_or_app. left.
    apply in_concat. eexists. split; [apply in_map; exact Ha|exact He]. }
  assert (Ha2 : agree Q (then_fields scope fields oneofs (start_nested scope nested st)) (then_fields scope fields oneofs (start_nested scope nested st'))).
  { unfold then_fields. unfold all_fields in Hf.
    apply (fold_agree Q scope (fun o => register_oneof scope (snd o) true) oneofs Hs).
    - intros o Ho s s' Hss. apply register_oneof_same; [|exact Hss]. intros f ref Hif. apply Hf. apply in_or_app. right.
      apply in_concat. eexists. split; [apply in_map; exact Ho|exact Hif].
    - apply (fold_agree Q scope (register_field scope) fields Hs); [|exact Ha].
      intros f Hif s s' Hss. apply register_field_same; [|exact Hss]. intros f' ref Hf'. destruct Hf' as [<-|[]]. apply Hf.
      apply in_or_app. left. exact Hif. }
  split; [cbn [fst]; rewrite (Ha2 scope Hs); reflexivity|exact Ha2].
Qed.

(** ** What the fields refer to is registered before *)

Lemma register_ready d : forall st st', register d st = (true, st') -> NoDup (all_messages d) ->
  (forall e, In e (all_defs d) -> proper (d_scope e) (d_fields e)) ->
  forall e f ref, In e (all_defs d) -> In f (d_fields e) -> f_class f = FieldMessage ref -> ~ In ref (all_messages d) ->
  all_registered (st ref) = true.
Proof.
  induction d as [scope nested enums fields oneofs IH] using mdef_induction. intros st st' H Hn Hp e f ref He Hf Hc Hr.
  rewrite register_eq in H. set (st1 := start_nested scope nested st) in *. cbv zeta in H.
  assert (Ha : all_registered (then_fields scope fields oneofs st1 scope) = true) by congruence. clear H.
  cbn [all_messages] in Hn, Hr. rewrite in_app_iff in Hr.
  assert (Hscope : ~ In scope (concat (map all_messages nested))).
  { intros Hi. apply NoDup_remove_2 in Hn. rewrite app_nil_r in Hn. contradiction. }
  assert (Hprop : proper scope (all_fields fields oneofs)).
  { apply (Hp (MDef scope nested enums fields oneofs)). apply all_defs_self. }
  assert (Hdone : fields_done scope (all_fields fields oneofs) st1 (then_fields scope fields oneofs st1)).
  { unfold then_fields in *. unfold all_fields in *.
    assert (Hp2 : proper scope (concat (map snd oneofs))) by (intros g Hif; apply Hprop; apply in_or_app; right; exact Hif).
    assert (Hp1 : proper scope fields) by (intros g Hif; apply Hprop; apply in_or_app; left; exact Hif).
    pose proof (fold_done scope snd (fun (o : text * list field) => register_oneof scope (snd o) true)
                  (fun a s s' Hp Hr => proj2 (register_oneof_done scope (snd a) true s s' Hp Hr)) oneofs _ Hp2 Ha) as D2.
    rewrite (fd_all _ _ _ _ D2) in Ha.
    assert (Eq : concat (map (fun f : field => [f]) fields) = fields) by (clear; induction fields as [|x l IHl]; cbn; [reflexivity|f_equal; exact IHl]).
    pose proof (fold_done scope (fun f => [f]) (register_field scope)
                  (fun a s s' _ Hr => register_field_done scope a s s' Hr) fields st1) as D1. rewrite Eq in D1.
    eapply fields_done_app; [exact Hprop|apply D1; [exact Hp1|exact Ha]|exact D2]. }
  assert (Ha1 : all_registered (st1 scope) = true) by (rewrite <- (fd_all _ _ _ _ Hdone); exact Ha).
  pose proof (nested_runs scope nested Hscope _ _ eq_refl Ha1) as Hruns. fold (start_nested scope nested st) in Hruns. fold st1 in Hruns.
  assert (Hne : ref <> scope) by (intros ->; apply Hr; right; left; reflexivity).
  assert (E0 : set_all_registered scope true st ref = st ref) by (apply set_reg_other; exact Hne).
  rewrite <- E0. cbn [all_defs] in He. apply in_app_or in He. destruct He as [He|[<-|[]]].
  - assert (Hr' : ~ In ref (concat (map all_messages nested))) by (intros Hi; apply Hr; left; exact Hi).
    assert (Hp' : forall a e0, In a nested -> In e0 (all_defs a) -> proper (d_scope e0) (d_fields e0)).
    { intros a e0 Ha0 He0. apply Hp. cbn [all_defs]. apply in_or_app. left. apply in_concat. eexists. split; [apply in_map; exact Ha0|exact He0]. }
    pose proof (NoDup_app_remove_r _ _ Hn) as Hn'. clear - IH Hruns Hr' Hp' Hn' He Hf Hc.
    remember (set_all_registered scope true st) as st0. clear Heqst0. clearbody st1.
    induction Hruns as [sa|d ds sa st2 st2' sb H1 E H2 IH2]; [destruct He|]. cbn [map concat] in *.
    rewrite in_app_iff in Hr'. inversion IH as [|? ? IHd IHds]; subst. apply in_app_or in He. destruct He as [He|He].
    + eapply IHd; [exact H1|apply NoDup_app_remove_r in Hn'; exact Hn'| |exact He|exact Hf|exact Hc|tauto].
      intros e0. apply Hp'. left. reflexivity.
    + assert (Ef : st2' ref = sa ref).
      { rewrite E. change st2 with (snd (true, st2)). rewrite <- H1. apply register_frame. tauto. }
      rewrite <- Ef. apply IH2; [exact IHds|exact He|tauto| |apply NoDup_app_remove_l in Hn'; exact Hn'].
      intros a e0 Ha0. apply Hp'. right. exact Ha0.
  - cbn [d_fields] in Hf. pose proof (fd_refs _ _ _ _ Hdone f ref Hf Hc) as Hreg.
    rewrite (runs_frame _ _ _ Hruns ref) in Hreg by tauto. exact Hreg.
Qed.

(** ** Only fields of the message are registered for it *)

Lemma set_all_registered_same scope b st p : registered (set_all_registered scope b st p) = registered (st p).
Proof. unfold set_all_registered, set_reg. destruct (path_dec p scope) as [->|]; reflexivity. Qed.
Lemma register_field_only scope f st p g : In g (registered (snd (register_field scope f st) p)) ->
  In g (registered (st p)) \/ (p = scope /\ g = f).
Proof.
  assert (Hc : In g (registered (register_child scope f st p)) -> In g (registered (st p)) \/ (p = scope /\ g = f)).
  { unfold register_child, set_reg. destruct (path_dec p scope) as [->|]; [|auto]. cbn [registered]. intros H. apply in_app_or in H.
    destruct H as [H|[<-|[]]]; auto. }
  unfold register_field. destruct (f_class f) as [sc|max|max|ref|ref|max c|]; cbn [snd]; try (destruct (max =? 0)); auto.
  destruct (all_registered (st ref)); [|auto]. cbn [snd]. destruct (contains_templates (st ref)); auto.
Qed.
Lemma register_oneof_only scope fs : forall all st p g, In g (registered (snd (register_oneof scope fs all st) p)) ->
  In g (registered (st p)) \/ (p = scope /\ In g fs).
Proof.
  induction fs as [|f fs IH]; cbn [register_oneof]; intros all st p g H; [left; exact H|].
  pose proof (register_field_only scope f st p g) as H1. destruct (register_field scope f st) as [b st1]. cbn [snd] in H1.
  apply IH in H. destruct H as [H|[-> H]]; [|right; split; [reflexivity|right; exact H]].
  destruct (H1 H) as [H'|[-> ->]]; [left; exact H'|right; split; [reflexivity|left; reflexivity]].
Qed.
Lemma fold_only {A} scope (step : A -> regs -> bool * regs) (R : path -> field -> Prop) l :
  (forall a, In a l -> forall st p g, In g (registered (snd (step a st) p)) -> In g (registered (st p)) \/ R p g) ->
  forall st p g, In g (registered (fold_left (fun st a => and_registered scope (step a st)) l st p)) -> In g (registered (st p)) \/ R p g.
Proof.
  induction l as [|a l IH]; intros Hl st p g H; cbn [fold_left] in H; [left; exact H|].
  apply IH in H; [|intros b Hb; apply Hl; right; exact Hb]. destruct H as [H|H]; [|right; exact H].
  unfold and_registered in H. rewrite set_all_registered_same in H. eapply Hl; [left; reflexivity|exact H].
Qed.
Lemma register_only d : forall st p f, In f (registered (snd (register d st) p)) ->
  In f (registered (st p)) \/ exists e, In e (all_defs d) /\ d_scope e = p /\ In f (d_fields e).
Proof.
  induction d as [scope nested enums fields oneofs IH] using mdef_induction. intros st p f H. rewrite register_eq in H. cbn [snd] in H.
  rewrite Forall_forall in IH.
  assert (Hself : forall q g, q = scope -> In g (all_fields fields oneofs) ->
    exists e, In e (all_defs (MDef scope nested enums fields oneofs)) /\ d_scope e = q /\ In g (d_fields e)).
  { intros q g -> Hg. exists (MDef scope nested enums fields oneofs). split; [apply all_defs_self|]. split; [reflexivity|exact Hg]. }
  unfold then_fields in H.
  apply (fold_only scope (fun o => register_oneof scope (snd o) true)
    (fun q g => exists e, In e (all_defs (MDef scope nested enums fields oneofs)) /\ d_scope e = q /\ In g (d_fields e)) oneofs) in H.
  - destruct H as [H|H]; [|right; exact H].
    apply (fold_only scope (register_field scope)
      (fun q g => exists e, In e (all_defs (MDef scope nested enums fields oneofs)) /\ d_scope e = q /\ In g (d_fields e)) fields) in H.
    + destruct H as [H|H]; [|right; exact H]. unfold start_nested in H.
      apply (fold_only scope register
        (fun q g => exists e, In e (all_defs (MDef scope nested enums fields oneofs)) /\ d_scope e = q /\ In g (d_fields e)) nested) in H.
      * destruct H as [H|H]; [|right; exact H]. rewrite set_all_registered_same in H. left. exact H.
      * intros a Ha st0 q g Hg. apply (IH a Ha) in Hg. destruct Hg as [Hg|(e & He & Hq)]; [left; exact Hg|right]. exists e.
        split; [|exact Hq]. cbn [all_defs]. apply in_or_app. left. apply in_concat. eexists. split; [apply in_map; exact Ha|exact He].
    + intros g0 Hg0 st0 q g Hg. apply register_field_only in Hg. destruct Hg as [Hg|[Eq ->]]; [left; exact Hg|right].
      apply Hself; [exact Eq|]. apply in_or_app. left. exact Hg0.
  - intros o Ho st0 q g Hg. apply register_oneof_only in Hg. destruct Hg as [Hg|[Eq Hg]]; [left; exact Hg|right].
    apply Hself; [exact Eq|]. apply in_or_app. right. apply in_concat. eexists. split; [apply in_map; exact Ho|exact Hg].
Qed.
Lemma runs_only ds st st' : runs ds st st' -> forall p f, In f (registered (st' p)) ->
  In f (registered (st p)) \/ exists d e, In d ds /\ In e (all_defs d) /\ d_scope e = p /\ In f (d_fields e).
Proof.
  induction 1 as [st|d ds st st1 st1' st' H1 E H IH]; intros p f Hf; [left; exact Hf|].
  destruct (IH p f Hf) as [Hf'|(d' & e & Hd' & He)]; [|right; exists d', e; split; [right; exact Hd'|exact He]].
  rewrite E in Hf'. change st1 with (snd (true, st1)) in Hf'. rewrite <- H1 in Hf'. apply register_only in Hf'.
  destruct Hf' as [Hf'|(e & He)]; [left; exact Hf'|right]. exists d, e. split; [left; reflexivity|exact He].
Qed.

(** ** Two requests *)

Lemma runs_split ds1 d ds2 st st' : runs (ds1 ++ d :: ds2) st st' -> exists s s1 s1',
  runs ds1 st s /\ register d s = (true, s1) /\ (forall p, s1' p = s1 p) /\ runs ds2 s1' st'.
Proof.
  revert st. induction ds1 as [|a ds1 IH]; cbn [app]; intros st H.
  - inversion H as [|? ? ? s1 s1' ? H1 E H2]; subst. exists st, s1, s1'. split; [constructor|]. auto.
  - inversion H as [|? ? ? s1 s1' ? H1 E H2]; subst. destruct (IH _ H2) as (s & t1 & t1' & A & B).
    exists s, t1, t1'. split; [econstructor; eassumption|exact B].
Qed.
Lemma registered_member ds st : runs ds no_regs st -> forall p, all_registered (st p) = true -> In p (concat (map all_messages ds)).
Proof.
  intros H p Hp. destruct (in_dec path_dec p (concat (map all_messages ds))) as [Hi|Hi]; [exact Hi|].
  rewrite (runs_frame _ _ _ H p Hi) in Hp. discriminate.
Qed.
Lemma NoDup_disjoint {A} (l l' : list A) x : NoDup (l ++ l') -> In x l -> ~ In x l'.
Proof.
  intros Hn Hx Hx'. induction l as [|y l IH]; [destruct Hx|]. cbn in Hn. inversion Hn; subst.
  destruct Hx as [->|Hx]; [apply H1; apply in_or_app; right; exact Hx'|auto].
Qed.

(** What is known around the point where a definition is registered. *)
Lemma runs_around ds st d : runs ds no_regs st -> In d ds -> NoDup (concat (map all_messages ds)) ->
  exists s s1 ds1 ds2, ds = ds1 ++ d :: ds2 /\ runs ds1 no_regs s /\ register d s = (true, s1)
    /\ (forall p, In p (all_messages d) -> s p = no_regs p /\ st p = s1 p)
    /\ (forall p, all_registered (s p) = true -> In p (concat (map all_messages ds1)) /\ (~ In p (all_messages d) -> st p = s p)).
Proof.
  intros H Hd Hn. apply in_split in Hd. destruct Hd as (ds1 & ds2 & ->). apply runs_split in H. destruct H as (s & s1 & s1' & H1 & H2 & E & H3).
  exists s, s1, ds1, ds2. split; [reflexivity|]. split; [exact H1|]. split; [exact H2|].
  rewrite map_app, concat_app in Hn. cbn [map concat] in Hn. split.
  - intros p Hp. split.
    + apply (runs_frame _ _ _ H1). intros Hi. eapply (NoDup_disjoint _ _ p Hn); [exact Hi|]. apply in_or_app. left. exact Hp.
    + rewrite <- E. apply (runs_frame _ _ _ H3). apply NoDup_app_remove_l in Hn. eapply NoDup_disjoint; [exact Hn|exact Hp].
  - intros p Hp. pose proof (registered_member _ _ H1 p Hp) as Hi. split; [exact Hi|]. intros Hnd.
    rewrite (runs_frame _ _ _ H3); [|intros Hi2; eapply (NoDup_disjoint _ _ p Hn); [exact Hi|apply in_or_app; right; exact Hi2]].
    rewrite E. change s1 with (snd (true, s1)). rewrite <- H2. apply register_frame. exact Hnd.
Qed.

Lemma NoDup_concat_pos {A B} (g : A -> list B) l1 a l2 b x : NoDup (concat (map g (l1 ++ a :: l2))) ->
  In b (l1 ++ a :: l2) -> In x (concat (map g l1)) -> In x (g b) -> In b l1.
Proof.
  intros Hn Hb Hx Hxb. rewrite map_app, concat_app in Hn. apply in_app_or in Hb. destruct Hb as [Hb|Hb]; [exact Hb|].
  exfalso. eapply (NoDup_disjoint _ _ x Hn Hx). apply in_concat. eexists. split; [apply in_map; exact Hb|exact Hxb].
Qed.

Lemma runs_agree ds ds' st st' (D : mdef -> Prop) :
  runs ds no_regs st -> runs ds' no_regs st' -> NoDup (concat (map all_messages ds)) -> NoDup (concat (map all_messages ds')) ->
  (forall d, D d -> In d ds /\ In d ds') ->
  (forall d e, D d -> In e (all_defs d) -> proper (d_scope e) (d_fields e)) ->
  (forall d e f ref, D d -> In e (all_defs d) -> In f (d_fields e) -> f_class f = FieldMessage ref ->
     In ref (concat (map all_messages ds)) -> exists d', D d' /\ In ref (all_messages d')) ->
  forall d, D d -> agree (fun p => In p (all_messages d)) st st'.
Proof.
  intros Hr Hr' Hn Hn' HD Hprop Hclosed.
  assert (Main : forall n d ds1 ds2, D d -> ds = ds1 ++ d :: ds2 -> (length ds1 < n)%nat -> agree (fun p => In p (all_messages d)) st st').
  { induction n as [|n IH]; [lia|]. intros d ds1' ds2' Hd E0 Hlen p Hp. destruct (HD d Hd) as [Hin Hin'].
    destruct (runs_around ds st d Hr Hin Hn) as (s & s1 & ds1 & ds2 & E & R1 & R2 & R3 & R4).
    destruct (runs_around ds' st' d Hr' Hin' Hn') as (t & t1 & es1 & es2 & E' & T1 & T2 & T3 & T4).
    assert (Hlen1 : (length ds1 <= n)%nat).
    { assert (ds1 = ds1'); [|subst; lia].
      assert (Hne : forall a, all_messages a <> []) by (intros [sc ? ? ? ?] H; cbn [all_messages] in H; apply app_eq_nil in H; destruct H; discriminate).
      clear - E E0 Hn Hne. rewrite E in E0, Hn. clear E.
      assert (Hx : exists x, In x (all_messages d)) by (destruct (all_messages d) as [|x l] eqn:Ed; [destruct (Hne d Ed)|exists x; left; reflexivity]).
      destruct Hx as [x Hx]. revert ds1' E0 Hn. induction ds1 as [|a ds1 IHl]; intros [|a' ds1'] E0 Hn; [reflexivity| | |].
      - exfalso. cbn in E0. injection E0 as <- E0. cbn [app map concat] in Hn. eapply (NoDup_disjoint _ _ x Hn Hx).
        rewrite E0, map_app, concat_app. apply in_or_app. right. cbn. apply in_or_app. left. exact Hx.
      - exfalso. cbn in E0. injection E0 as -> E0. cbn [app map concat] in Hn. eapply (NoDup_disjoint _ _ x Hn Hx).
        rewrite map_app, concat_app. apply in_or_app. right. cbn. apply in_or_app. left. exact Hx.
      - cbn in E0. injection E0 as <- E0. f_equal. apply IHl; [exact E0|]. cbn [app map concat] in Hn. eapply NoDup_app_remove_l. exact Hn. }
    assert (Hnd : NoDup (all_messages d)).
    { rewrite E, map_app, concat_app in Hn. cbn [map concat] in Hn. apply NoDup_app_remove_l in Hn. eapply NoDup_app_remove_r. exact Hn. }
    set (Q := fun q => In q (all_messages d) \/ exists e f, In e (all_defs d) /\ In f (d_fields e) /\ f_class f = FieldMessage q).
    assert (HQ : agree Q s t).
    { intros q Hq. destruct (in_dec path_dec q (all_messages d)) as [Hi|Hi].
      - rewrite (proj1 (R3 q Hi)), (proj1 (T3 q Hi)). reflexivity.
      - destruct Hq as [Hq|(e & f & He & Hf & Hc)]; [contradiction|].
        pose proof (register_ready d s s1 R2 Hnd (fun e0 => Hprop d e0 Hd) e f q He Hf Hc Hi) as As.
        pose proof (register_ready d t t1 T2 Hnd (fun e0 => Hprop d e0 Hd) e f q He Hf Hc Hi) as At.
        destruct (R4 q As) as [Bs Es]. destruct (T4 q At) as [_ Et]. rewrite <- (Es Hi), <- (Et Hi).
        destruct (Hclosed d e f q Hd He Hf Hc) as (d' & Hd' & Hq').
        { rewrite E, map_app, concat_app. apply in_or_app. left. exact Bs. }
        destruct (HD d' Hd') as [Hin2 _]. rewrite E in Hin2, Hn.
        pose proof (NoDup_concat_pos all_messages ds1 d ds2 d' q Hn Hin2 Bs Hq') as Hbefore.
        apply in_split in Hbefore. destruct Hbefore as (l1 & l2 & El).
        apply (IH d' l1 (l2 ++ d :: ds2) Hd'); [rewrite E, El, <- app_assoc; reflexivity| |exact Hq'].
        rewrite El, app_length in Hlen1. cbn in Hlen1. lia. }
    assert (HQd : forall e, In e (all_defs d) -> Q (d_scope e) /\ fields_in Q (d_fields e)).
    { intros e He. split; [left; rewrite all_messages_defs; apply in_map; exact He|]. intros f ref Hf Hc. right. exists e, f. auto. }
    destruct (register_same Q d HQd s t HQ) as [_ Hs]. rewrite R2, T2 in Hs. cbn [snd] in Hs.
    rewrite (proj2 (R3 p Hp)), (proj2 (T3 p Hp)). apply Hs. left. exact Hp. }
  intros d Hd. destruct (HD d Hd) as [Hin _]. apply in_split in Hin. destruct Hin as (l1 & l2 & E).
  exact (Main (S (length l1)) d l1 l2 Hd E (Nat.lt_succ_diag_r _)).
Qed.
