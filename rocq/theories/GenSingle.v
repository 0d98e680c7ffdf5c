(** * GenSingle: the type of a field that is not repeated is complete in an accepted request, whatever the names. *)
From Coq Require Import String.
From Verif Require Import Base Schema Printf Generator SpecGenerator GenOrder GenSort GenReg GenRender GenTypes GenOnce GenNames GenProps.
From Coq Require Import List Permutation ZifyBool ZifyNat Lia.

(** ** Registration *)

Lemma split_app {A} (l1 l2 : list A) e : forall a b, a ++ b = l1 ++ e :: l2 ->
  (exists r, a = l1 ++ e :: r) \/ exists r, l1 = a ++ r /\ b = r ++ e :: l2.
Proof.
  induction l1 as [|x l1 IH]; intros [|y a] b E; cbn in E.
  - right. exists []. split; [reflexivity|exact E].
  - left. injection E as -> _. exists a. reflexivity.
  - right. exists (x :: l1). split; [reflexivity|exact E].
  - injection E as -> E. destruct (IH _ _ E) as [(r & ->)|(r & -> & ->)]; [left; exists r; reflexivity|right; exists r; split; reflexivity].
Qed.

Definition refs_known (known : path -> Prop) (ds : list mdef) : Prop := forall l1 e l2 f ref, ds = l1 ++ e :: l2 -> In f (d_fields e) ->
  f_class f = FieldMessage ref -> ~ prefix ref (d_scope e) -> known ref \/ In ref (map d_scope l1).
Definition refs_registered (d : mdef) : Prop := forall st st', register d st = (true, st') ->
  NoDup (all_messages d) -> nests d -> (forall e, In e (all_defs d) -> proper (d_scope e) (d_fields e)) ->
  refs_known (fun p => all_registered (st p) = true) (all_defs d).

Lemma concat_messages ds : concat (map all_messages ds) = map d_scope (concat (map all_defs ds)).
Proof. rewrite concat_map, map_map. f_equal. apply map_ext. intros d. apply all_messages_defs. Qed.

Lemma runs_refs ds : Forall refs_registered ds -> forall st st', runs ds st st' ->
  NoDup (concat (map all_messages ds)) -> Forall nests ds ->
  (forall e, In e (concat (map all_defs ds)) -> proper (d_scope e) (d_fields e)) ->
  refs_known (fun p => all_registered (st p) = true) (concat (map all_defs ds)).
Proof.
  induction 1 as [|d ds Hd Hds IH]; intros st st' Hr Hn Hs Hp l1 e l2 f ref E Hf Hc Hpre; [destruct l1; discriminate|].
  inversion Hr as [|? ? ? st1 st1' ? E1 Ee Hr']; subst. cbn [map concat] in *. inversion Hs as [|? ? Hs1 Hs2]; subst.
  destruct (split_app _ _ _ _ _ E) as [(r & Ea)|(r & -> & Eb)].
  - eapply (Hd st st1 E1); [|exact Hs1| |exact Ea|exact Hf|exact Hc|exact Hpre].
    + apply NoDup_app_remove_r in Hn. exact Hn.
    + intros e' He'. apply Hp. apply in_or_app. left. exact He'.
  - destruct (IH st1' st' Hr') with (l1 := r) (e := e) (l2 := l2) (f := f) (ref := ref) as [H|H]; try assumption.
    + apply NoDup_app_remove_l in Hn. exact Hn.
    + intros e' He'. apply Hp. apply in_or_app. right. exact He'.
    + destruct (in_dec path_dec ref (all_messages d)) as [Hi|Hi].
      * right. rewrite map_app. apply in_or_app. left. rewrite <- all_messages_defs. exact Hi.
      * left. rewrite Ee in H. change st1 with (snd (true, st1)) in H. rewrite <- E1 in H. rewrite register_frame in H by exact Hi. exact H.
    + right. rewrite map_app. apply in_or_app. right. exact H.
Qed.

Lemma register_refs d : refs_registered d.
Proof.
  induction d as [scope nested enums fields oneofs IH] using mdef_induction. intros st st' H Hn Hs Hp.
  rewrite register_eq in H. set (st1 := start_nested scope nested st) in *. cbv zeta in H.
  assert (Ha : all_registered (then_fields scope fields oneofs st1 scope) = true) by congruence. clear H.
  cbn [all_messages all_defs d_scope] in *.
  assert (Hscope : ~ In scope (concat (map all_messages nested))).
  { intros Hi. apply NoDup_remove_2 in Hn. rewrite app_nil_r in Hn. contradiction. }
  assert (Hprop : proper scope (all_fields fields oneofs)).
  { apply (Hp (MDef scope nested enums fields oneofs)). apply in_or_app. right. left. reflexivity. }
  assert (Hdone : fields_done scope (all_fields fields oneofs) st1 (then_fields scope fields oneofs st1)).
  { unfold then_fields in *. unfold all_fields in *.
    assert (Hp2 : proper scope (concat (map snd oneofs))) by (intros f Hif; apply Hprop; apply in_or_app; right; exact Hif).
    assert (Hp1 : proper scope fields) by (intros f Hif; apply Hprop; apply in_or_app; left; exact Hif).
    pose proof (fold_done scope snd (fun (o : text * list field) => register_oneof scope (snd o) true)
                  (fun a s s' Hp Hr => proj2 (register_oneof_done scope (snd a) true s s' Hp Hr)) oneofs _ Hp2 Ha) as D2.
    rewrite (fd_all _ _ _ _ D2) in Ha.
    assert (Eq : concat (map (fun f : field => [f]) fields) = fields) by (clear; induction fields as [|x l IHl]; cbn; [reflexivity|f_equal; exact IHl]).
    pose proof (fold_done scope (fun f => [f]) (register_field scope)
                  (fun a s s' _ Hr => register_field_done scope a s s' Hr) fields st1) as D1. rewrite Eq in D1.
    eapply fields_done_app; [exact Hprop|apply D1; [exact Hp1|exact Ha]|exact D2]. }
  assert (Ha1 : all_registered (st1 scope) = true) by (rewrite <- (fd_all _ _ _ _ Hdone); exact Ha).
  pose proof (nested_runs scope nested Hscope _ _ eq_refl Ha1) as Hruns. fold (start_nested scope nested st) in Hruns. fold st1 in Hruns.
  assert (Hst0 : forall p, p <> scope -> set_all_registered scope true st p = st p) by (intros p Hpp; apply set_reg_other; exact Hpp).
  assert (Hnp : forall n, In n (concat (map all_defs nested)) -> prefix scope (d_scope n)).
  { intros n Hin. apply (Hs (MDef scope nested enums fields oneofs)); cbn [all_defs]; apply in_or_app; [right; left; reflexivity|left; exact Hin]. }
  intros l1 e l2 f ref E Hf Hc Hpre. destruct (split_app _ _ _ _ _ E) as [(r & Ea)|(r & -> & Eb)].
  - assert (Hne : ref <> scope).
    { intros ->. apply Hpre. apply Hnp. rewrite Ea. apply in_or_app. right. left. reflexivity. }
    destruct (runs_refs nested IH _ _ Hruns) with (l1 := l1) (e := e) (l2 := r) (f := f) (ref := ref) as [H|H]; try assumption.
    + apply NoDup_app_remove_r in Hn. exact Hn.
    + apply Forall_forall. intros a Hia e' n He Hin. apply (Hs e' n); [|exact Hin]. cbn [all_defs]. apply in_or_app. left.
      apply in_concat. eexists. split; [apply in_map; exact Hia|exact He].
    + intros e' He'. apply Hp. apply in_or_app. left. exact He'.
    + left. rewrite Hst0 in H by exact Hne. exact H.
    + right. exact H.
  - destruct r as [|x r]; [|destruct r; discriminate]. cbn in Eb. injection Eb as <- _. rewrite app_nil_r in *. cbn [d_fields d_scope] in *.
    assert (Hne : ref <> scope) by (intros ->; apply Hpre; apply prefix_refl).
    pose proof (fd_refs _ _ _ _ Hdone f ref Hf Hc) as H. destruct (in_dec path_dec ref (concat (map all_messages nested))) as [Hi|Hi].
    + right. rewrite <- concat_messages. exact Hi.
    + left. rewrite (runs_frame _ _ _ Hruns ref Hi) in H. rewrite Hst0 in H by exact Hne. exact H.
Qed.

(** ** The definitions and the declarations are in the same order *)

Definition in_step (l : list path) (ev : list event) : Prop :=
  (forall x, In x l -> In (Uses x) ev /\ In (Declared x) ev) /\ (forall x y, before l x y -> before ev (Declared x) (Uses y)).
Lemma before_split {A} (l l' : list A) x y : before (l ++ l') x y -> before l x y \/ (In x l /\ In y l') \/ before l' x y.
Proof.
  induction l as [|a l IH]; cbn; [auto|]. intros H. apply before_inv in H. destruct H as [[-> H]|H].
  - apply in_app_or in H. destruct H as [H|H]; [left; apply before_cons; exact H|right; left; split; [left; reflexivity|exact H]].
  - destruct (IH H) as [H'|[[H1 H2]|H']]; [left; apply before_tl; exact H'|right; left; split; [right; exact H1|exact H2]|right; right; exact H'].
Qed.
Lemma in_step_app l l' ev ev' : in_step l ev -> in_step l' ev' -> in_step (l ++ l') (ev ++ ev').
Proof.
  intros [A1 A2] [B1 B2]. split.
  - intros x H. apply in_app_or in H. destruct H as [H|H]; [destruct (A1 x H)|destruct (B1 x H)]; split; apply in_or_app; auto.
  - intros x y H. apply before_split in H. destruct H as [H|[[H1 H2]|H]].
    + apply before_app_l, A2, H.
    + apply before_app; [apply A1; exact H1|apply B1; exact H2].
    + apply before_app_r, B2, H.
Qed.
Lemma in_step_nil ev : in_step [] ev.
Proof. split; [intros x []|]. intros x y H. apply before_In in H. destruct H as [[] _]. Qed.
Lemma in_step_concat {A} (f : A -> list path) (g : A -> list event) l : (forall a, In a l -> in_step (f a) (g a)) ->
  in_step (concat (map f l)) (concat (map g l)).
Proof.
  induction l as [|a l IH]; intros H; [apply in_step_nil|]. cbn. apply in_step_app; [apply H; left; reflexivity|].
  apply IH. intros b Hb. apply H. right. exact Hb.
Qed.
Lemma in_step_post m : forall p, in_step (post p m) (pscript p m).
Proof.
  induction m as [n nested enums fields oneofs IH] using pmsg_induction. intros p. rewrite Forall_forall in IH. cbn [post pscript].
  change (concat (map (post (p ++ [n])) nested) ++ [p ++ [n]]) with ([] ++ (concat (map (post (p ++ [n])) nested) ++ [p ++ [n]])).
  apply in_step_app; [apply in_step_nil|]. apply in_step_app; [apply in_step_concat; intros a Ha; apply IH; exact Ha|]. split.
  - intros x [<-|[]]. split; [left; reflexivity|right; left; reflexivity].
  - intros x y (a & b & c & E). destruct a as [|? a]; [destruct b; discriminate|destruct a; discriminate].
Qed.

Lemma request_in_step request mss : Forall2 sorted_file request mss ->
  in_step (map d_scope (concat (map all_defs (concat (map (fun '(f, ms) => map (define (p_package f)) ms) (combine request mss))))))
    (request_script request mss).
Proof.
  intros _. unfold request_script. rewrite <- concat_messages. generalize (combine request mss). clear. intros l.
  induction l as [|[f ms] l IH]; [apply in_step_nil|]. cbn [map concat]. rewrite map_app, concat_app. apply in_step_app; [|exact IH].
  unfold file_script. change (concat (map all_messages (map (define (p_package f)) ms))) with ([] ++ concat (map all_messages (map (define (p_package f)) ms))).
  apply in_step_app; [apply in_step_nil|]. rewrite map_map. rewrite (map_ext _ _ (fun m => all_messages_define m (p_package f))).
  apply in_step_concat. intros a _. apply in_step_post.
Qed.
Lemma sorted_same request mss : Forall2 sorted_file request mss -> forall mss', Forall2 sorted_file request mss' -> mss' = mss.
Proof.
  induction 1 as [|f ms fs mss (o & E & ->) Hs IH]; intros mss' H'; inversion H' as [|? ? ? ? (o' & E' & ->) Hs']; subst; [reflexivity|].
  rewrite E in E'. injection E' as <-. f_equal. apply IH. exact Hs'.
Qed.

Lemma generated_single limit request hs s m g T :
  legal request -> generate limit request = Some hs -> message request s m -> In g (m_fields m) ->
  pf_repeated g = false -> pf_type g = PMessage T -> ~ prefix T s -> before (script hs) (Declared T) (Uses s).
Proof.
  intros Hl Hgen Hm Hg Hrep Ht Hpre. destruct (generate_written _ _ _ Hgen) as (mss & st & Hs & (Hr & _) & Hw).
  destruct (written_sorted _ _ _ Hw) as (mss' & Hs' & ->). rewrite (sorted_same _ _ Hs _ Hs') in *. clear Hs' mss'.
  set (ds := concat (map (fun '(f, ms) => map (define (p_package f)) ms) (combine request mss))) in *.
  destruct (def_sorted _ _ Hs _ _ Hm) as (order & Hin). fold ds in Hin. pose proof (message_scope _ _ _ Hm) as Esc.
  apply in_split in Hin. destruct Hin as (l1 & l2 & E).
  assert (Hd : forall d0 d, In d0 ds -> In d (all_defs d0) -> proper (d_scope d) (d_fields d)).
  { intros d0 d Hd0 Hd. destruct (sorted_def _ _ Hs _ _ Hd0 Hd) as (s' & m' & order' & Hm' & ->).
    pose proof (message_scope _ _ _ Hm') as Esc'. rewrite d_scope_define, sort_pmsg_name, Esc'. intros f Hf Hc. apply d_fields_sub in Hf.
    rewrite sort_pmsg_name, sort_pmsg_fields, Esc' in Hf. destruct Hf as (g' & _ & ->). apply factory_message in Hc. intuition. }
  assert (Hk : In T (map d_scope l1)).
  { assert (Hset : Forall refs_registered ds) by (apply Forall_forall; intros d _; apply register_refs).
    destruct (runs_refs ds Hset no_regs st Hr) with (l1 := l1) (e := define (removelast s) (sort_pmsg order (removelast s) m)) (l2 := l2)
      (f := factory s g) (ref := T) as [H|H].
    - apply (request_messages _ _ Hs). apply legal_nodup. exact Hl.
    - apply Forall_forall. intros d Hdi. unfold ds in Hdi. apply in_concat in Hdi. destruct Hdi as (l & Hli & Hdi). apply in_map_iff in Hli.
      destruct Hli as ([f ms] & <- & _). apply in_map_iff in Hdi. destruct Hdi as (m' & <- & _). apply define_nests.
    - intros e He. apply in_concat in He. destruct He as (l & Hli & He). apply in_map_iff in Hli. destruct Hli as (d0 & <- & Hd0). eapply Hd; eassumption.
    - exact E.
    - change (d_fields (define (removelast s) (sort_pmsg order (removelast s) m))) with (msg_fields s (sort_pmsg order (removelast s) m)).
      rewrite msg_fields_sorted. rewrite <- Esc. apply (msg_fields_In (removelast s) m _ (legal_oneofs m (legal_message _ _ _ Hl Hm))).
      exists g. split; [exact Hg|]. rewrite Esc. reflexivity.
    - unfold factory, refers_to, single_factory. cbn [f_class]. rewrite Ht, Hrep. destruct (path_eqb T s) eqn:Eq; [|reflexivity].
      apply path_eqb_eq in Eq. exfalso. apply Hpre. rewrite Eq. apply prefix_refl.
    - rewrite d_scope_define, sort_pmsg_name, Esc. exact Hpre.
    - discriminate.
    - exact H. }
  apply (request_in_step _ _ Hs). fold ds. rewrite E. rewrite map_app. cbn [map]. rewrite d_scope_define, sort_pmsg_name, Esc.
  apply before_app; [exact Hk|left; reflexivity].
Qed.
