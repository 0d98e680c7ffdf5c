(** * GenReg: the state after the registration of the template parameters. *)
From Coq Require Import String.
From Verif Require Import Base Schema Printf Generator SpecGenerator GenOrder GenSort.
From Coq Require Import List Permutation ZifyBool ZifyNat Lia.

Fixpoint mdef_induction (P : mdef -> Prop)
  (H : forall scope nested enums fields oneofs, Forall P nested -> P (MDef scope nested enums fields oneofs)) (d : mdef) : P d :=
  match d with
  | MDef scope nested enums fields oneofs =>
      H scope nested enums fields oneofs
        ((fix go l : Forall P l :=
            match l with
            | [] => Forall_nil P
            | m' :: l' => Forall_cons m' (mdef_induction P H m') (go l')
            end) nested)
  end.

(** All definitions in a definition, in the order of completion. *)
Fixpoint all_defs (d : mdef) : list mdef :=
  match d with MDef _ nested _ _ _ => concat (map all_defs nested) ++ [d] end.
Definition d_fields (d : mdef) : list field := let 'MDef _ _ _ fs os := d in all_fields fs os.

Lemma all_messages_defs d : all_messages d = map d_scope (all_defs d).
Proof.
  induction d as [scope nested enums fields oneofs IH] using mdef_induction. cbn [all_messages all_defs].
  rewrite map_app, concat_map, map_map. f_equal. f_equal. apply map_ext_in. intros a Ha. rewrite Forall_forall in IH. apply IH. exact Ha.
Qed.

Definition fresh : reg := {| all_registered := false; contains_templates := false; registered := [] |}.
(** The field is registered if the definition of its type is as in [st]. *)
Definition needs (st : regs) (f : field) : bool :=
  match f_class f with
  | FieldString max | FieldBytes max | FieldRepeated max _ => max =? 0
  | FieldMessage ref => contains_templates (st ref)
  | _ => false
  end.
Definition some {A} (l : list A) : bool := match l with [] => false | _ => true end.
Lemma some_app {A} (l l' : list A) : some (l ++ l') = some l || some l'.
Proof. destruct l; reflexivity. Qed.

Lemma reg_eta (r : reg) b c l : all_registered r = b -> contains_templates r = c -> registered r = l ->
  r = {| all_registered := b; contains_templates := c; registered := l |}.
Proof. intros <- <- <-. destruct r. reflexivity. Qed.
Lemma set_reg_same p r st : set_reg p r st p = r.
Proof. unfold set_reg. destruct (path_dec p p); [reflexivity|contradiction]. Qed.
Lemma set_reg_other p r st q : q <> p -> set_reg p r st q = st q.
Proof. intros H. unfold set_reg. destruct (path_dec q p); [contradiction|reflexivity]. Qed.

(** ** Fields of one definition *)

Definition proper (scope : path) (fs : list field) : Prop := forall f, In f fs -> f_class f <> FieldMessage scope.

Record fields_done (scope : path) (fs : list field) (st st' : regs) : Prop := {
  fd_frame : forall p, p <> scope -> st' p = st p;
  fd_refs : forall f ref, In f fs -> f_class f = FieldMessage ref -> all_registered (st ref) = true;
  fd_all : all_registered (st' scope) = all_registered (st scope);
  fd_registered : registered (st' scope) = registered (st scope) ++ filter (needs st) fs;
  fd_contains : contains_templates (st' scope) = contains_templates (st scope) || some (filter (needs st) fs) }.

Lemma needs_ext st st' scope f : (forall p, p <> scope -> st' p = st p) -> f_class f <> FieldMessage scope -> needs st' f = needs st f.
Proof.
  intros H Hf. unfold needs. destruct (f_class f) as [| | | |ref| |] eqn:E; try reflexivity.
  rewrite H; [reflexivity|]. intros ->. contradiction.
Qed.
Lemma fields_done_nil scope st : fields_done scope [] st st.
Proof. constructor; [reflexivity|intros ? ? []|reflexivity|cbn; rewrite app_nil_r; reflexivity|cbn; rewrite orb_false_r; reflexivity]. Qed.
Lemma fields_done_app scope fs fs' st st1 st2 : proper scope (fs ++ fs') ->
  fields_done scope fs st st1 -> fields_done scope fs' st1 st2 -> fields_done scope (fs ++ fs') st st2.
Proof.
  intros Hp [A1 A2 A3 A4 A5] [B1 B2 B3 B4 B5].
  assert (E : filter (needs st1) fs' = filter (needs st) fs').
  { apply filter_ext_in. intros f Hf. eapply needs_ext; [exact A1|]. apply Hp. apply in_or_app. right. exact Hf. }
  constructor.
  - intros p Hp'. rewrite B1, A1 by assumption. reflexivity.
  - intros f ref Hf Hc. apply in_app_or in Hf. destruct Hf as [Hf|Hf]; [eauto|].
    rewrite <- A1; [eauto|]. intros ->. eapply Hp; [apply in_or_app; right; exact Hf|exact Hc].
  - congruence.
  - rewrite B4, A4, E, filter_app, app_assoc. reflexivity.
  - rewrite B5, A5, E, filter_app, some_app, orb_assoc. reflexivity.
Qed.
Lemma fields_done_ext scope fs st st1 st2 : (forall p, st2 p = st1 p) -> fields_done scope fs st st1 -> fields_done scope fs st st2.
Proof. intros H [A1 A2 A3 A4 A5]. constructor; intros; rewrite ?H; eauto. Qed.

Lemma register_child_done scope f st : needs st f = true -> (forall ref, f_class f = FieldMessage ref -> all_registered (st ref) = true) ->
  fields_done scope [f] st (register_child scope f st).
Proof.
  intros Hn Hr. unfold register_child. constructor.
  - intros p Hp. apply set_reg_other. exact Hp.
  - intros g ref [<-|[]]. apply Hr.
  - rewrite set_reg_same. reflexivity.
  - rewrite set_reg_same. cbn. rewrite Hn. reflexivity.
  - rewrite set_reg_same. cbn. rewrite Hn. cbn. rewrite orb_true_r. reflexivity.
Qed.
Lemma register_none_done scope f st : needs st f = false -> (forall ref, f_class f = FieldMessage ref -> all_registered (st ref) = true) ->
  fields_done scope [f] st st.
Proof.
  intros Hn Hr. constructor; cbn [filter]; rewrite ?Hn.
  - reflexivity.
  - intros g ref [<-|[]]. apply Hr.
  - reflexivity.
  - rewrite app_nil_r. reflexivity.
  - cbn. rewrite orb_false_r. reflexivity.
Qed.
Lemma register_field_done scope f st st' : register_field scope f st = (true, st') -> fields_done scope [f] st st'.
Proof.
  unfold register_field. intros H.
  destruct (f_class f) as [sc|max|max|ref|ref|max c|] eqn:E;
    try (injection H as <-; apply register_none_done; [unfold needs; rewrite E; reflexivity|intros ref'; rewrite E; discriminate]);
    try (injection H as <-; destruct (max =? 0) eqn:Em;
         [apply register_child_done|apply register_none_done]; [unfold needs; rewrite E; exact Em|intros ref'; rewrite E; discriminate| ..];
         fail).
  all: try (injection H as <-; destruct (max =? 0) eqn:Em;
         [apply register_child_done; [unfold needs; rewrite E; exact Em|intros ref'; rewrite E; discriminate]
         |apply register_none_done; [unfold needs; rewrite E; exact Em|intros ref'; rewrite E; discriminate]]).
  destruct (all_registered (st ref)) eqn:Er; [|discriminate]. injection H as <-.
  destruct (contains_templates (st ref)) eqn:Ec; [apply register_child_done|apply register_none_done];
    solve [unfold needs; rewrite E; exact Ec|intros ref'; rewrite E; intros H; injection H as <-; exact Er].
Qed.
Lemma register_field_frame scope f st p : p <> scope -> snd (register_field scope f st) p = st p.
Proof.
  intros Hp. unfold register_field, register_child.
  destruct (f_class f) as [sc|max|max|ref|ref|max c|]; cbn [snd]; try reflexivity.
  - destruct (max =? 0); [apply set_reg_other; exact Hp|reflexivity].
  - destruct (max =? 0); [apply set_reg_other; exact Hp|reflexivity].
  - destruct (all_registered (st ref)); [|reflexivity]. cbn [snd]. destruct (contains_templates (st ref)); [apply set_reg_other; exact Hp|reflexivity].
  - destruct (max =? 0); [apply set_reg_other; exact Hp|reflexivity].
Qed.

Lemma register_oneof_done scope fs : forall all st st', proper scope fs -> register_oneof scope fs all st = (true, st') ->
  all = true /\ fields_done scope fs st st'.
Proof.
  induction fs as [|f fs IH]; cbn [register_oneof]; intros all st st' Hp H.
  - injection H as -> <-. split; [reflexivity|apply fields_done_nil].
  - destruct (register_field scope f st) as [b st1] eqn:E. apply IH in H; [|intros g Hg; apply Hp; right; exact Hg].
    destruct H as [Hb H]. apply andb_true_iff in Hb. destruct Hb as [-> ->]. split; [reflexivity|].
    apply register_field_done in E. change (f :: fs) with ([f] ++ fs). eapply fields_done_app; [exact Hp|exact E|exact H].
Qed.
Lemma register_oneof_frame scope fs : forall all st p, p <> scope -> snd (register_oneof scope fs all st) p = st p.
Proof.
  induction fs as [|f fs IH]; cbn [register_oneof]; intros all st p Hp; [reflexivity|].
  pose proof (register_field_frame scope f st p Hp) as H. destruct (register_field scope f st) as [b st1]. cbn [snd] in H.
  rewrite IH by exact Hp. exact H.
Qed.

Lemma and_registered_true scope r : all_registered (and_registered scope r scope) = true ->
  fst r = true /\ forall p, and_registered scope r p = snd r p.
Proof.
  unfold and_registered, set_all_registered. rewrite set_reg_same. cbn. intros H. apply andb_true_iff in H. destruct H as [H1 H2].
  split; [exact H1|]. intros p. destruct (path_dec p scope) as [->|Hp]; [|apply set_reg_other; exact Hp].
  rewrite set_reg_same. rewrite H1, H2. cbn. symmetry. apply reg_eta; auto.
Qed.
Lemma and_registered_frame scope r p : p <> scope -> and_registered scope r p = snd r p.
Proof. intros Hp. apply set_reg_other. exact Hp. Qed.

(** A loop over the fields, or over the oneofs, of a definition. *)
Lemma fold_done {A} scope (get : A -> list field) (step : A -> regs -> bool * regs) :
  (forall a st st', proper scope (get a) -> step a st = (true, st') -> fields_done scope (get a) st st') ->
  forall l st, proper scope (concat (map get l)) ->
  all_registered (fold_left (fun st a => and_registered scope (step a st)) l st scope) = true ->
  fields_done scope (concat (map get l)) st (fold_left (fun st a => and_registered scope (step a st)) l st).
Proof.
  intros Hstep. induction l as [|a l IH]; cbn [fold_left map concat]; intros st Hp H; [apply fields_done_nil|].
  assert (Hp1 : proper scope (get a)) by (intros f Hf; apply Hp; apply in_or_app; left; exact Hf).
  assert (Hp2 : proper scope (concat (map get l))) by (intros f Hf; apply Hp; apply in_or_app; right; exact Hf).
  pose proof (IH _ Hp2 H) as Hl. assert (Ha : all_registered (and_registered scope (step a st) scope) = true).
  { rewrite <- (fd_all _ _ _ _ Hl). exact H. }
  apply and_registered_true in Ha. destruct Ha as [Hb He].
  eapply fields_done_app; [exact Hp| |exact Hl]. eapply fields_done_ext; [exact He|]. apply Hstep; [exact Hp1|].
  destruct (step a st) as [b st1]. cbn in Hb |- *. subst b. reflexivity.
Qed.

(** ** Definitions *)

(** The field is registered in [scope]: at that time nothing is known about the definitions around it. *)
Definition around (ref scope : path) : bool := path_eqb ref (firstn (length ref) scope).
Definition needs_in (scope : path) (st : regs) (f : field) : bool :=
  match f_class f with FieldMessage ref => negb (around ref scope) && contains_templates (st ref) | _ => needs st f end.
Lemma around_spec ref scope : around ref scope = true <-> prefix ref scope.
Proof.
  unfold around. rewrite path_eqb_eq. split.
  - intros E. exists (skipn (length ref) scope). rewrite E at 1. symmetry. apply firstn_skipn.
  - intros [r ->]. rewrite firstn_app, Nat.sub_diag, firstn_all. cbn. now rewrite app_nil_r.
Qed.

Definition final (st : regs) (d : mdef) : Prop :=
  let fs := filter (needs_in (d_scope d) st) (d_fields d) in
  st (d_scope d) = {| all_registered := true; contains_templates := some fs; registered := fs |}.

Definition start_nested (scope : path) (nested : list mdef) (st : regs) : regs :=
  fold_left (fun st d' => and_registered scope (register d' st)) nested (set_all_registered scope true st).
Definition then_fields (scope : path) (fields : list field) (oneofs : list (text * list field)) (st : regs) : regs :=
  fold_left (fun st o => and_registered scope (register_oneof scope (snd o) true st)) oneofs
    (fold_left (fun st f => and_registered scope (register_field scope f st)) fields st).
Lemma register_eq scope nested enums fields oneofs st : register (MDef scope nested enums fields oneofs) st =
  let st' := then_fields scope fields oneofs (start_nested scope nested st) in (all_registered (st' scope), st').
Proof. reflexivity. Qed.

Lemma fold_frame {A} scope (step : A -> regs -> bool * regs) (P : path -> Prop) l :
  (forall p, P p -> p <> scope) ->
  (forall a, In a l -> forall st p, P p -> snd (step a st) p = st p) ->
  forall st p, P p -> fold_left (fun st a => and_registered scope (step a st)) l st p = st p.
Proof.
  intros HP. induction l as [|a l IH]; intros Hs st p Hp; cbn [fold_left]; [reflexivity|].
  rewrite IH; [|intros b Hb; apply Hs; right; exact Hb|exact Hp].
  rewrite and_registered_frame by (apply HP; exact Hp). apply Hs; [left; reflexivity|exact Hp].
Qed.
Lemma then_fields_frame scope fields oneofs st p : p <> scope -> then_fields scope fields oneofs st p = st p.
Proof.
  intros Hp. unfold then_fields.
  rewrite (fold_frame scope (fun o => register_oneof scope (snd o) true) (fun q => q <> scope)); [| | |exact Hp].
  - apply (fold_frame scope (register_field scope) (fun q => q <> scope)); [auto| |exact Hp].
    intros f _ st0 q Hq. apply register_field_frame. exact Hq.
  - auto.
  - intros o _ st0 q Hq. apply register_oneof_frame. exact Hq.
Qed.
Lemma register_frame d : forall st p, ~ In p (all_messages d) -> snd (register d st) p = st p.
Proof.
  induction d as [scope nested enums fields oneofs IH] using mdef_induction. intros st p Hp. rewrite register_eq. cbn [snd].
  cbn [all_messages] in Hp. rewrite in_app_iff in Hp.
  assert (Hs : p <> scope) by (intros ->; apply Hp; right; left; reflexivity).
  rewrite then_fields_frame by exact Hs. unfold start_nested.
  rewrite (fold_frame scope register (fun q => q <> scope /\ ~ In q (concat (map all_messages nested)))).
  - apply set_reg_other. exact Hs.
  - intros q [H _]. exact H.
  - intros a Ha st0 q [_ Hq]. rewrite Forall_forall in IH. apply IH; [exact Ha|]. intros Hi. apply Hq. apply in_concat.
    eexists. split; [apply in_map; exact Ha|exact Hi].
  - split; [exact Hs|]. intros Hi. apply Hp. left. exact Hi.
Qed.

(** A sequence of definitions, all registered. *)
Inductive runs : list mdef -> regs -> regs -> Prop :=
| runs_nil st : runs [] st st
| runs_cons d ds st st1 st1' st' : register d st = (true, st1) -> (forall p, st1' p = st1 p) -> runs ds st1' st' ->
    runs (d :: ds) st st'.

Lemma runs_frame ds st st' : runs ds st st' -> forall p, ~ In p (concat (map all_messages ds)) -> st' p = st p.
Proof.
  induction 1 as [st|d ds st st1 st1' st' H1 E H IH]; intros p Hp; [reflexivity|].
  cbn in Hp. rewrite in_app_iff in Hp. rewrite IH by (intros Hi; apply Hp; right; exact Hi). rewrite E.
  change st1 with (snd (true, st1)). rewrite <- H1. apply register_frame. intros Hi. apply Hp. left. exact Hi.
Qed.

Lemma nested_runs scope nested : ~ In scope (concat (map all_messages nested)) -> forall st st',
  st' = fold_left (fun st d' => and_registered scope (register d' st)) nested st -> all_registered (st' scope) = true ->
  runs nested st st'.
Proof.
  induction nested as [|d ds IH]; cbn [fold_left]; intros Hs st st' -> H; [constructor|].
  cbn in Hs. rewrite in_app_iff in Hs.
  pose proof (IH (fun Hi => Hs (or_intror Hi)) _ _ eq_refl H) as Hr.
  assert (Ha : all_registered (and_registered scope (register d st) scope) = true).
  { rewrite (runs_frame _ _ _ Hr scope (fun Hi => Hs (or_intror Hi))) in H. exact H. }
  apply and_registered_true in Ha. destruct Ha as [Hb He]. destruct (register d st) as [b st1] eqn:E. cbn in Hb, He. subst b.
  eapply runs_cons; [exact E|exact He|exact Hr].
Qed.

(** No field has the type of its own definition. *)
Definition outward (d : mdef) : Prop := proper (d_scope d) (d_fields d).

(** Definitions lie inside the definitions around them. *)
Definition nests (d : mdef) : Prop := forall e n, In e (all_defs d) -> In n (all_defs e) -> prefix (d_scope e) (d_scope n).

Definition d_nested (d : mdef) : list mdef := let 'MDef _ nested _ _ _ := d in nested.
Definition levels (d : mdef) : Prop := forall e n, In e (all_defs d) -> In n (d_nested e) -> exists x, d_scope n = d_scope e ++ [x].

Lemma all_defs_self d : In d (all_defs d).
Proof. destruct d. cbn [all_defs]. apply in_or_app. right. left. reflexivity. Qed.

Definition settles (d : mdef) : Prop := forall st st' stf, register d st = (true, st') ->
  NoDup (all_messages d) -> (forall p, In p (all_messages d) -> st p = fresh) ->
  Forall outward (all_defs d) -> nests d -> levels d ->
  (forall p, prefix p (d_scope d) -> p <> d_scope d -> contains_templates (st p) = false) ->
  (forall p, In p (all_messages d) -> stf p = st' p) ->
  (forall p, all_registered (st p) = true -> ~ prefix p (d_scope d) -> stf p = st p) ->
  Forall (final stf) (all_defs d).

Lemma prefix_child p q (x : text) : prefix p (q ++ [x]) -> prefix p q \/ p = q ++ [x].
Proof.
  intros [r E]. destruct r as [|y r] using rev_ind; [right; rewrite app_nil_r in E; symmetry; exact E|left].
  rewrite app_assoc in E. apply app_inj_tail in E. destruct E as [-> _]. exists r. reflexivity.
Qed.
Lemma prefix_antisym p q : prefix p q -> prefix q p -> p = q.
Proof.
  intros [r ->] [r' E]. rewrite <- app_assoc in E. rewrite <- (app_nil_r p) in E at 1. apply app_inv_head in E. symmetry in E.
  apply app_eq_nil in E. destruct E as [-> _]. symmetry. apply app_nil_r.
Qed.
Lemma concat_scopes ds : concat (map all_messages ds) = map d_scope (concat (map all_defs ds)).
Proof. rewrite concat_map, map_map. f_equal. apply map_ext. intros d. apply all_messages_defs. Qed.

Lemma runs_settle ds : Forall settles ds -> forall st st' stf, runs ds st st' ->
  NoDup (concat (map all_messages ds)) -> (forall p, In p (concat (map all_messages ds)) -> st p = fresh) ->
  Forall outward (concat (map all_defs ds)) -> Forall nests ds -> Forall levels ds ->
  (forall d p, In d ds -> prefix p (d_scope d) -> p <> d_scope d -> contains_templates (st p) = false) ->
  (forall d d' p, In d ds -> In d' ds -> In p (all_messages d) -> prefix p (d_scope d') -> p = d_scope d') ->
  (forall p, In p (concat (map all_messages ds)) -> stf p = st' p) ->
  (forall d p, In d ds -> all_registered (st p) = true -> ~ prefix p (d_scope d) -> stf p = st p) ->
  Forall (final stf) (concat (map all_defs ds)).
Proof.
  induction 1 as [|d ds Hd Hds IH]; intros st st' stf Hr Hn Hf Ho Hs Hlev Hin Hap H1 H2; cbn [map concat]; [constructor|].
  inversion Hr as [|? ? ? st1 st1' ? E1 Ee Hr']; subst. cbn [map concat] in *. apply Forall_app in Ho. destruct Ho as [Ho1 Ho2].
  assert (Hdis : forall p, In p (all_messages d) -> ~ In p (concat (map all_messages ds))).
  { intros p Hp Hp'. clear - Hn Hp Hp'. induction (all_messages d) as [|q l IHl]; [destruct Hp|]. cbn in Hn. inversion Hn; subst.
    destruct Hp as [->|Hp]; [apply H1; apply in_or_app; right; exact Hp'|auto]. }
  assert (Hst1 : forall p, In p (all_messages d) -> stf p = st1 p).
  { intros p Hp. rewrite H1 by (apply in_or_app; left; exact Hp). rewrite (runs_frame _ _ _ Hr') by (apply Hdis; exact Hp). apply Ee. }
  assert (Hfr : forall p, ~ In p (all_messages d) -> st1' p = st p).
  { intros p Hp. rewrite Ee. change st1 with (snd (true, st1)). rewrite <- E1. apply register_frame. exact Hp. }
  apply Forall_app. split.
  - eapply Hd; [exact E1| | |exact Ho1| | | |exact Hst1|].
    + apply NoDup_app_remove_r in Hn. exact Hn.
    + intros p Hp. apply Hf. apply in_or_app. left. exact Hp.
    + inversion Hs; assumption.
    + inversion Hlev; assumption.
    + intros p. apply Hin. left. reflexivity.
    + intros p Hp Hp'. apply (H2 d); [left; reflexivity|exact Hp|exact Hp'].
  - eapply IH; [exact Hr'| | |exact Ho2| | | | | |].
    + apply NoDup_app_remove_l in Hn. exact Hn.
    + intros p Hp. rewrite Hfr; [apply Hf; apply in_or_app; right; exact Hp|]. intros Hi. exact (Hdis p Hi Hp).
    + inversion Hs; assumption.
    + inversion Hlev; assumption.
    + intros e p He Hpre Hne. rewrite Hfr; [apply (Hin e); [right; exact He|exact Hpre|exact Hne]|].
      intros Hi. apply Hne. apply (Hap d e p); [left; reflexivity|right; exact He|exact Hi|exact Hpre].
    + intros e e' p He He'. apply Hap; right; assumption.
    + intros p Hp. apply H1. apply in_or_app. right. exact Hp.
    + intros e p He Hp Hpre. destruct (in_dec path_dec p (all_messages d)) as [Hi|Hi].
      * rewrite Hst1 by exact Hi. symmetry. apply Ee.
      * rewrite Hfr in * by exact Hi. apply (H2 e); [right; exact He|exact Hp|exact Hpre].
Qed.

Lemma register_settles d : settles d.
Proof.
  induction d as [scope nested enums fields oneofs IH] using mdef_induction. intros st st' stf H Hn Hf Ho Hs Hlev Hin0 H1 H2.
  rewrite register_eq in H. set (st1 := start_nested scope nested st) in *. cbv zeta in H.
  assert (Hst' : st' = then_fields scope fields oneofs st1) by congruence.
  assert (Ha : all_registered (then_fields scope fields oneofs st1 scope) = true) by congruence. clear H.
  cbn [all_messages all_defs d_scope] in *.
  assert (Hscope : ~ In scope (concat (map all_messages nested))).
  { intros Hi. apply NoDup_remove_2 in Hn. rewrite app_nil_r in Hn. contradiction. }
  apply Forall_app in Ho. destruct Ho as [Ho Hod]. pose proof (Forall_inv Hod) as Hod'. clear Hod.
  assert (Hprop : proper scope (all_fields fields oneofs)).
  { exact Hod'. }
  assert (Hdone : fields_done scope (all_fields fields oneofs) st1 (then_fields scope fields oneofs st1)).
  { unfold then_fields in *. unfold all_fields in *.
    assert (Hp2 : proper scope (concat (map snd oneofs))) by (intros f Hif; apply Hprop; apply in_or_app; right; exact Hif).
    assert (Hp1 : proper scope fields) by (intros f Hif; apply Hprop; apply in_or_app; left; exact Hif).
    pose proof (fold_done scope snd (fun (o : text * list field) => register_oneof scope (snd o) true)
                  (fun a s s' Hp Hr => proj2 (register_oneof_done scope (snd a) true s s' Hp Hr)) oneofs _ Hp2 Ha) as D2.
    rewrite (fd_all _ _ _ _ D2) in Ha.
    assert (Eq : concat (map (fun f : field => [f]) fields) = fields) by (clear; induction fields as [|x l IHl]; cbn; [reflexivity|f_equal; exact IHl]).
    pose proof (fold_done scope (fun f => [f]) (register_field scope)
                  (fun a s s' _ Hr => register_field_done scope a s s' Hr) fields st1) as D1. rewrite Eq in D1.
    eapply fields_done_app; [exact Hprop|apply D1; [exact Hp1|exact Ha]|exact D2]. }
  assert (Ha1 : all_registered (st1 scope) = true) by (rewrite <- (fd_all _ _ _ _ Hdone); exact Ha).
  pose proof (nested_runs scope nested Hscope _ _ eq_refl Ha1) as Hruns. fold (start_nested scope nested st) in Hruns. fold st1 in Hruns.
  set (st0 := set_all_registered scope true st) in *.
  assert (Hst0 : forall p, p <> scope -> st0 p = st p) by (intros p Hp; apply set_reg_other; exact Hp).
  assert (Hnp : forall n, In n (concat (map all_defs nested)) -> prefix scope (d_scope n)).
  { intros n Hin. apply (Hs (MDef scope nested enums fields oneofs)); cbn [all_defs]; apply in_or_app; [right; left; reflexivity|left; exact Hin]. }
  assert (Hchild : forall a, In a nested -> exists x, d_scope a = scope ++ [x]).
  { intros a Hia. apply (Hlev (MDef scope nested enums fields oneofs)); [cbn [all_defs]; apply in_or_app; right; left; reflexivity|exact Hia]. }
  assert (Hself : forall a, In a nested -> In a (all_defs a)) by (intros; apply all_defs_self).
  assert (Hnest : forall a n, In a nested -> In n (all_defs a) -> In n (concat (map all_defs nested))).
  { intros a n Hia Hin. apply in_concat. eexists. split; [apply in_map; exact Hia|exact Hin]. }
  assert (Hpost : forall p, In p (concat (map all_messages nested)) -> stf p = st1 p).
  { intros p Hp. rewrite H1 by (apply in_or_app; left; exact Hp). rewrite Hst'. apply (fd_frame _ _ _ _ Hdone). intros ->. contradiction. }
  assert (Hst1s : st1 scope = {| all_registered := true; contains_templates := false; registered := [] |}).
  { rewrite (runs_frame _ _ _ Hruns scope Hscope). unfold st0, set_all_registered. rewrite set_reg_same.
    rewrite Hf by (apply in_or_app; right; left; reflexivity). reflexivity. }
  apply Forall_app. split; [|constructor; [|constructor]].
  - pose proof (NoDup_app_remove_r _ _ Hn) as Hn'. eapply (runs_settle nested IH); [exact Hruns|exact Hn'| |exact Ho| | | | |exact Hpost|].
    + intros p Hp. rewrite Hst0 by (intros ->; contradiction). apply Hf. apply in_or_app. left. exact Hp.
    + apply Forall_forall. intros a Hia e n He Hin. apply Hs; [|exact Hin]. cbn [all_defs]. apply in_or_app. left.
      eapply Hnest; [exact Hia|exact He].
    + apply Forall_forall. intros a Hia e n He Hin. apply Hlev; [|exact Hin]. cbn [all_defs]. apply in_or_app. left.
      eapply Hnest; [exact Hia|exact He].
    + intros a p Hia Hpre Hne. destruct (Hchild a Hia) as [x Ex]. rewrite Ex in Hpre, Hne.
      destruct (prefix_child _ _ _ Hpre) as [Hpp|Hpp]; [|contradiction]. destruct (path_dec p scope) as [->|Hps].
      * unfold st0, set_all_registered. rewrite set_reg_same. rewrite Hf by (apply in_or_app; right; left; reflexivity). reflexivity.
      * rewrite Hst0 by exact Hps. apply Hin0; assumption.
    + intros a a' p Hia Hia' Hp Hpre. destruct (Hchild a Hia) as [x Ex]. destruct (Hchild a' Hia') as [x' Ex'].
      assert (Hlen : (length scope < length p)%nat).
      { rewrite all_messages_defs in Hp. apply in_map_iff in Hp. destruct Hp as (n & <- & Hn0).
        assert (Hx : prefix (d_scope a) (d_scope n)).
        { apply (Hs a n); [|exact Hn0]. cbn [all_defs]. apply in_or_app. left. eapply Hnest; [exact Hia|apply all_defs_self]. }
        apply prefix_length in Hx. rewrite Ex, app_length in Hx. cbn in Hx. lia. }
      rewrite Ex' in Hpre |- *. destruct (prefix_child _ _ _ Hpre) as [Hpp|Hpp]; [|exact Hpp]. apply prefix_length in Hpp. lia.
    + intros a p Hia Hp Hpre. assert (Hne : p <> scope) by (intros ->; apply Hpre, Hnp; eapply Hnest; [exact Hia|apply Hself; exact Hia]).
      rewrite Hst0 in * by exact Hne. apply H2; [exact Hp|]. intros Hpp. apply Hpre. eapply prefix_trans; [exact Hpp|].
      apply Hnp. eapply Hnest; [exact Hia|apply Hself; exact Hia].
  - unfold final. cbn [d_scope d_fields].
    assert (E : filter (needs_in scope stf) (all_fields fields oneofs) = filter (needs st1) (all_fields fields oneofs)).
    { apply filter_ext_in. intros f Hif. unfold needs_in, needs. destruct (f_class f) as [| | | |ref| |] eqn:Ec; try reflexivity.
      pose proof (fd_refs _ _ _ _ Hdone f ref Hif Ec) as Hreg. assert (Hne : ref <> scope) by (intros ->; exact (Hprop f Hif Ec)).
      destruct (around ref scope) eqn:Ear; cbn [negb andb].
      - apply around_spec in Ear. symmetry. rewrite (runs_frame _ _ _ Hruns ref).
        + rewrite Hst0 by exact Hne. apply Hin0; assumption.
        + intros Hi. rewrite concat_scopes in Hi. apply in_map_iff in Hi. destruct Hi as (n & <- & Hn0). pose proof (Hnp n Hn0) as Hp0.
          apply Hne. apply prefix_antisym; assumption.
      - assert (Hout : ~ prefix ref scope) by (intros Hp; apply around_spec in Hp; congruence). f_equal.
        destruct (in_dec path_dec ref (concat (map all_messages nested))) as [Hi|Hi]; [apply Hpost; exact Hi|].
        rewrite (runs_frame _ _ _ Hruns ref Hi) in Hreg |- *. rewrite Hst0 in * by exact Hne. apply H2; assumption. }
    rewrite E. rewrite H1 by (apply in_or_app; right; left; reflexivity). rewrite Hst'.
    apply reg_eta.
    + rewrite (fd_all _ _ _ _ Hdone), Hst1s. reflexivity.
    + rewrite (fd_contains _ _ _ _ Hdone), Hst1s. reflexivity.
    + rewrite (fd_registered _ _ _ _ Hdone), Hst1s. reflexivity.
Qed.
