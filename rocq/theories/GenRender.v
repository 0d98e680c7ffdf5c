(** * GenRender: the classes that are written, for the messages of a request. *)
From Coq Require Import String.
From Verif Require Import Base Schema Printf Generator SpecGenerator GenOrder GenSort GenReg.
From Coq Require Import List Permutation ZifyBool ZifyNat Lia.

Lemma sequence_spec {A} (l : list (option A)) xs : sequence l = Some xs <-> l = map Some xs.
Proof.
  revert xs. induction l as [|[x|] l IH]; intros xs; cbn [sequence].
  - split; [intros H; injection H as <-; reflexivity|]. destruct xs; [reflexivity|discriminate].
  - destruct (sequence l) as [ys|].
    + split.
      * intros H. injection H as <-. cbn. f_equal. apply IH. reflexivity.
      * destruct xs as [|y xs]; [discriminate|]. cbn. intros H. injection H as -> H. apply IH in H. congruence.
    + split; [discriminate|]. destruct xs as [|y xs]; [discriminate|]. cbn. intros H. injection H as -> H. apply IH in H. discriminate.
  - split; [discriminate|]. destruct xs; discriminate.
Qed.
Lemma sequence_map {A B} (g : A -> option B) l xs : sequence (map g l) = Some xs -> Forall2 (fun a x => g a = Some x) l xs.
Proof.
  rewrite sequence_spec. revert xs. induction l as [|a l IH]; intros [|x xs]; cbn; try discriminate; intros H; [constructor|].
  injection H as H1 H2. constructor; auto.
Qed.
Lemma sequence_total {A B} (g : A -> option B) l : (forall a, In a l -> g a <> None) -> exists xs, sequence (map g l) = Some xs.
Proof.
  induction l as [|a l IH]; intros H; [exists []; reflexivity|]. cbn.
  destruct (g a) as [x|] eqn:E; [|exfalso; apply (H a); [left; reflexivity|exact E]].
  destruct IH as [xs ->]; [intros b Hb; apply H; right; exact Hb|]. eexists. reflexivity.
Qed.
Lemma Forall2_In_l {A B} (P : A -> B -> Prop) l l' a : Forall2 P l l' -> In a l -> exists b, In b l' /\ P a b.
Proof.
  induction 1 as [|x y l l' Hp Hl IH]; [intros []|]. intros [->|Hi]; [exists y; split; [left; reflexivity|exact Hp]|].
  destruct (IH Hi) as (b & Hb & Hp'). exists b. split; [right; exact Hb|exact Hp'].
Qed.
Lemma Forall2_In_r {A B} (P : A -> B -> Prop) l l' b : Forall2 P l l' -> In b l' -> exists a, In a l /\ P a b.
Proof.
  induction 1 as [|x y l l' Hp Hl IH]; [intros []|]. intros [->|Hi]; [exists x; split; [left; reflexivity|exact Hp]|].
  destruct (IH Hi) as (a & Ha & Hp'). exists a. split; [right; exact Ha|exact Hp'].
Qed.

(** ** Fields *)

Definition m_oneofs (m : pmsg) : list text := let 'PMsg _ _ _ _ os := m in os.
Definition msg_fields (s : path) (m : pmsg) : list field := d_fields (define (removelast s) m).

Lemma define_oneofs_In s fields f : forall names index,
  In f (concat (map snd (define_oneofs s fields index names))) <->
  exists i g, (index <= i < index + length names)%nat /\ In g fields /\ pf_oneof g = Some i /\ f = factory s g
    /\ exists h r, oneof_members fields i = h :: r /\ pf_optional h = false.
Proof.
  induction names as [|n names IH]; intros index; cbn [define_oneofs].
  - cbn. split; [intros []|]. intros (i & g & H & _). lia.
  - rewrite map_app, concat_app, in_app_iff, IH.
    assert (Hm : forall i g, In g (oneof_members fields i) <-> In g fields /\ pf_oneof g = Some i).
    { intros i g. unfold oneof_members. rewrite filter_In. destruct (pf_oneof g) as [j|]; [|intuition discriminate].
      rewrite Nat.eqb_eq. intuition congruence. }
    split.
    + intros [H|(i & g & Hi & H)]; [|exists i, g; split; [cbn; lia|exact H]].
      destruct (oneof_members fields index) as [|h r] eqn:E; [destruct H|]. destruct (pf_optional h) eqn:Eo; [destruct H|].
      cbn [map snd concat] in H. rewrite app_nil_r in H. change (In f (map (factory s) (h :: r))) in H. apply in_map_iff in H. destruct H as (g & <- & Hg).
      rewrite <- E in Hg. apply Hm in Hg. destruct Hg as [Hg Hi]. exists index, g.
      split; [cbn; lia|]. split; [exact Hg|]. split; [exact Hi|]. split; [reflexivity|]. exists h, r. split; assumption.
    + intros (i & g & Hi & Hg & Ho & -> & h & r & E & Eo). destruct (Nat.eq_dec i index) as [->|Hne].
      * left. rewrite E, Eo. cbn [map snd concat]. rewrite app_nil_r. apply (in_map (factory s) (h :: r)). rewrite <- E. apply Hm. split; assumption.
      * right. exists i, g. split; [cbn in Hi; lia|]. split; [exact Hg|]. split; [exact Ho|]. split; [reflexivity|]. exists h, r. split; assumption.
Qed.

Lemma msg_fields_In q m f : oneofs_ok (m_fields m) (m_oneofs m) ->
  In f (msg_fields (q ++ [p_name m]) m) <-> exists g, In g (m_fields m) /\ f = factory (q ++ [p_name m]) g.
Proof.
  destruct m as [n nested enums fields oneofs]. cbn [m_fields m_oneofs p_name]. intros Hok. unfold msg_fields. rewrite removelast_last.
  cbn [define d_fields]. unfold all_fields. rewrite in_app_iff, define_oneofs_In, in_map_iff. split.
  - intros [(g & <- & Hg)|(i & g & _ & Hg & _ & -> & _)]; [apply filter_In in Hg; exists g; split; [apply Hg|reflexivity]|exists g; split; [exact Hg|reflexivity]].
  - intros (g & Hg & ->). destruct (pf_oneof g) as [i|] eqn:Ei.
    + destruct (pf_optional g) eqn:Eo.
      * left. exists g. split; [reflexivity|]. apply filter_In. rewrite Ei, Eo. split; [exact Hg|reflexivity].
      * right. destruct (Hok g i Hg Ei) as [Hi _]. exists i, g. split; [lia|]. split; [exact Hg|]. split; [exact Ei|]. split; [reflexivity|].
        assert (Hm : forall h, In h (oneof_members fields i) <-> In h fields /\ pf_oneof h = Some i).
        { intros h. unfold oneof_members. rewrite filter_In. destruct (pf_oneof h) as [j|]; [|intuition discriminate].
          rewrite Nat.eqb_eq. intuition congruence. }
        destruct (oneof_members fields i) as [|h r] eqn:E; [exfalso; apply (in_nil (a := g)); apply Hm; split; assumption|].
        exists h, r. split; [reflexivity|]. destruct (pf_optional h) eqn:Eh; [|reflexivity].
        destruct (proj1 (Hm h)) as [Hh Hhi]; [left; reflexivity|]. destruct (Hok h i Hh Hhi) as [_ Ha].
        rewrite (Ha Eh g Hg Ei) in Eo. congruence.
    + left. exists g. split; [reflexivity|]. apply filter_In. rewrite Ei. split; [exact Hg|reflexivity].
Qed.

(** ** Classes *)

Definition class_of (t : path -> option (list text)) (s : path) (m : pmsg) (c : class) : Prop :=
  t s = Some (c_params c) /\ c_enums c = m_enums m
  /\ exists mss, sequence (map (member t s) (msg_fields s m)) = Some mss /\ c_members c = concat mss.

Lemma render_eq t scope nested enums fields oneofs c : render t (MDef scope nested enums fields oneofs) = Some c ->
  exists params nested' mss, t scope = Some params /\ sequence (map (render t) nested) = Some nested'
    /\ sequence (map (member t scope) (all_fields fields oneofs)) = Some mss
    /\ c = Class params (last scope []) enums nested' (concat mss).
Proof.
  cbn [render]. destruct (t scope) as [params|]; [|discriminate]. destruct (sequence (map (render t) nested)) as [nested'|]; [|discriminate].
  destruct (sequence (map (member t scope) _)) as [mss|]; [|discriminate]. intros H. injection H as <-. exists params, nested', mss. auto.
Qed.

Lemma render_inside t m : forall p c, render t (define p m) = Some c ->
  class_script p c = pscript p m
  /\ (forall s c', class_inside p c s c' -> exists m', inside p m s m' /\ class_of t s m' c')
  /\ (forall s m', inside p m s m' -> exists c', class_inside p c s c' /\ class_of t s m' c').
Proof.
  induction m as [n nested enums fields oneofs IH] using pmsg_induction. intros p c H. rewrite Forall_forall in IH.
  cbn [define] in H. apply render_eq in H. destruct H as (params & nested' & mss & Hp & Hn & Hm & ->).
  rewrite last_last in *. rewrite map_map in Hn. apply sequence_map in Hn.
  assert (Hself : class_of t (p ++ [n]) (PMsg n nested enums fields oneofs) (Class params n enums nested' (concat mss))).
  { split; [exact Hp|]. split; [reflexivity|]. exists mss. unfold msg_fields. rewrite removelast_last. split; [exact Hm|reflexivity]. }
  split; [|split].
  - cbn [class_script pscript]. f_equal. f_equal. f_equal. clear - Hn IH. induction Hn as [|a c l l' Hc Hn IHn]; [reflexivity|]. cbn. f_equal.
    + apply (IH a); [left; reflexivity|exact Hc].
    + apply IHn. intros b Hb. apply IH. right. exact Hb.
  - intros s c' H. inversion H as [|? ? ? ? ? ? a ? ? Ha H']; subst.
    + exists (PMsg n nested enums fields oneofs). split; [apply (inside_self p (PMsg n nested enums fields oneofs))|exact Hself].
    + destruct (Forall2_In_r _ _ _ _ Hn Ha) as (b & Hb & E). destruct (IH b Hb _ _ E) as (_ & H1 & _).
      destruct (H1 _ _ H') as (m' & Hi & Hc). exists m'. split; [|exact Hc]. eapply inside_nested; eassumption.
  - intros s m' H. apply inside_inv in H. cbn [p_name p_nested] in H. destruct H as [[-> ->]|(b & Hb & H)].
    + eexists. split; [apply (class_self p (Class params n enums nested' (concat mss)))|exact Hself].
    + destruct (Forall2_In_l _ _ _ _ Hn Hb) as (a & Ha & E). destruct (IH b Hb _ _ E) as (_ & _ & H1).
      destruct (H1 _ _ H) as (c' & Hi & Hc). exists c'. split; [|exact Hc]. eapply class_nested; eassumption.
Qed.

(** ** The request *)

Lemma msg_fields_sorted order c s m : msg_fields s (sort_pmsg order c m) = msg_fields s m.
Proof. destruct m. reflexivity. Qed.
Lemma class_of_sorted t order c s m cl : class_of t s (sort_pmsg order c m) cl <-> class_of t s m cl.
Proof. unfold class_of. rewrite msg_fields_sorted. destruct m. reflexivity. Qed.

Lemma all_defs_define m : forall p d, In d (all_defs (define p m)) <-> exists s m', inside p m s m' /\ d = define (removelast s) m'.
Proof.
  induction m as [n nested enums fields oneofs IH] using pmsg_induction. intros p d. rewrite Forall_forall in IH.
  assert (E : define p (PMsg n nested enums fields oneofs) = define (removelast (p ++ [n])) (PMsg n nested enums fields oneofs)) by (rewrite removelast_last; reflexivity).
  rewrite E at 1. cbn [define all_defs]. rewrite removelast_last. rewrite in_app_iff, in_concat, map_map. split.
  - intros [(l & Hl & Hd)|[<-|[]]].
    + apply in_map_iff in Hl. destruct Hl as (a & <- & Ha). apply (IH a Ha) in Hd. destruct Hd as (s & m' & Hi & ->).
      exists s, m'. split; [|reflexivity]. eapply inside_nested; eassumption.
    + exists (p ++ [n]), (PMsg n nested enums fields oneofs). split; [apply (inside_self p (PMsg n nested enums fields oneofs))|].
      rewrite removelast_last. reflexivity.
  - intros (s & m' & H & ->). apply inside_inv in H. cbn [p_name p_nested] in H. destruct H as [[-> ->]|(a & Ha & H)].
    + right. left. rewrite removelast_last. reflexivity.
    + left. exists (all_defs (define (p ++ [n]) a)). split; [apply in_map_iff; exists a; split; [reflexivity|exact Ha]|].
      apply IH; [exact Ha|]. exists s, m'. split; [exact H|reflexivity].
Qed.
Lemma inside_scope p m s m' : inside p m s m' -> removelast s ++ [p_name m'] = s.
Proof. intros H. destruct (inside_parent _ _ _ _ H) as (q & -> & _). rewrite removelast_last. reflexivity. Qed.
Lemma inside_d_scope p m s m' : inside p m s m' -> d_scope (define (removelast s) m') = s.
Proof. intros H. rewrite d_scope_define. eapply inside_scope. exact H. Qed.

Lemma define_oneofs_sub s fields f : forall names index,
  In f (concat (map snd (define_oneofs s fields index names))) -> exists g, In g fields /\ f = factory s g.
Proof. intros names index H. apply define_oneofs_In in H. destruct H as (i & g & _ & Hg & _ & -> & _). exists g. split; [exact Hg|reflexivity]. Qed.
Lemma d_fields_sub p m f : In f (d_fields (define p m)) -> exists g, In g (m_fields m) /\ f = factory (p ++ [p_name m]) g.
Proof.
  destruct m as [n nested enums fields oneofs]. cbn [define d_fields m_fields p_name]. unfold all_fields. rewrite in_app_iff. intros [H|H].
  - apply in_map_iff in H. destruct H as (g & <- & Hg). apply filter_In in Hg. exists g. split; [apply Hg|reflexivity].
  - eapply define_oneofs_sub. exact H.
Qed.
Lemma factory_message s g ref : f_class (factory s g) = FieldMessage ref ->
  pf_type g = PMessage ref /\ ref <> s /\ pf_repeated g = false.
Proof.
  unfold factory, refers_to, single_factory. cbn [f_class].
  destruct (pf_type g) as [sc| | |r|r]; try (destruct (path_eqb r s) eqn:E); destruct (pf_repeated g); try discriminate.
  intros H. injection H as ->. split; [reflexivity|]. split; [|reflexivity]. intros ->.
  assert (path_eqb s s = true) by (apply path_eqb_eq; reflexivity). congruence.
Qed.

Definition sorted_file (f : pfile) (ms : list pmsg) : Prop := exists order0,
  let order := match p_package f with [] => order0 | _ => remove_first (dotted (p_package f)) order0 end in
  toposort_flatten (concat (map (fun m => snd (toposort_add_msg (p_package f) m)) (p_msgs f))) = Some order0
  /\ ms = sort_pmsgs order (p_package f) (p_msgs f).
Definition written (t : path -> option (list text)) (f : pfile) (h : header) : Prop :=
  h_package h = p_package f /\ h_enums h = p_enums f
  /\ exists ms, sorted_file f ms /\ Forall2 (fun m c => render t (define (p_package f) m) = Some c) ms (h_classes h).

Lemma register_file_runs ds : forall all st st', register_file ds all st = (true, st') -> all = true /\ runs ds st st'.
Proof.
  induction ds as [|d ds IH]; cbn [register_file]; intros all st st' H.
  - injection H as -> <-. split; [reflexivity|constructor].
  - destruct (register d st) as [b st1] eqn:E. apply IH in H. destruct H as [Hb H]. apply andb_true_iff in Hb. destruct Hb as [-> ->].
    split; [reflexivity|]. eapply runs_cons; [exact E|reflexivity|exact H].
Qed.
Lemma runs_app ds ds' st st1 st2 : runs ds st st1 -> runs ds' st1 st2 -> runs (ds ++ ds') st st2.
Proof. induction 1; intros H'; [exact H'|]. cbn. eapply runs_cons; eauto. Qed.
Lemma register_files_runs files : forall all st st', register_files files all st = (true, st') -> all = true /\ runs (concat files) st st'.
Proof.
  induction files as [|ds files IH]; cbn [register_files]; intros all st st' H.
  - injection H as -> <-. split; [reflexivity|constructor].
  - destruct (register_file ds true st) as [b st1] eqn:E. apply IH in H. destruct H as [Hb H]. apply andb_true_iff in Hb. destruct Hb as [-> ->].
    split; [reflexivity|]. cbn. eapply runs_app; [|exact H]. eapply register_file_runs. exact E.
Qed.
(** Once a pass has failed, all later ones do. *)
Lemma register_passes_runs n files : forall st st', register_passes n files true st = (true, st') -> n = O /\ st' = st \/ runs (concat files) st st'.
Proof.
  destruct n as [|n]; cbn [register_passes]; intros st st' H; [left; split; congruence|right].
  destruct (register_files files true st) as [all st1] eqn:E. destruct all.
  - injection H as <-. eapply register_files_runs. exact E.
  - exfalso. clear - H. revert st1 H. induction n as [|n IH]; cbn [register_passes]; intros st1 H; [discriminate|].
    destruct (register_files files false st1) as [all st2] eqn:E. destruct all; [|apply (IH st2 H)].
    apply register_files_runs in E. destruct E as [E _]. discriminate.
Qed.

Lemma generate_written limit request hs : generate limit request = Some hs -> exists mss st,
  Forall2 sorted_file request mss
  /\ (let ds := concat (map (fun '(f, ms) => map (define (p_package f)) ms) (combine request mss)) in
      runs ds no_regs st
      /\ Forall (fun d => match_all (concat (map all_messages ds))
                            (concat (map (fun f => map (fun e => p_package f ++ [e]) (p_enums f)) request) ++ concat (map all_enums ds)) d = true) ds)
  /\ Forall2 (written (templates limit st)) request hs.
Proof.
  unfold generate. destruct (sequence (map sort_file request)) as [files|] eqn:E1; [|discriminate].
  destruct (forallb _ _) eqn:E2; [|discriminate]. destruct (register_passes 3 files true no_regs) as [all st] eqn:E3.
  destruct all; [|discriminate]. destruct (sequence (map (fun ds => _) files)) as [css|] eqn:E4; [|discriminate].
  intros H. injection H as <-. apply sequence_map in E1. apply sequence_map in E4.
  assert (Hs : exists mss, Forall2 sorted_file request mss /\ files = map (fun '(f, ms) => map (define (p_package f)) ms) (combine request mss)).
  { clear - E1. induction E1 as [|f ds fs dss H Hl IH]; [exists []; split; [constructor|reflexivity]|].
    destruct IH as (mss & H1 & ->). apply sort_file_sorted in H. destruct H as (order0 & Ht & ->).
    eexists (_ :: mss). split; [constructor; [|exact H1]|cbn; reflexivity]. exists order0. split; [exact Ht|reflexivity]. }
  destruct Hs as (mss & Hs & Ef). exists mss, st. split; [exact Hs|]. cbv zeta. rewrite <- Ef. split; [split|].
  - apply register_passes_runs in E3. destruct E3 as [[E3 _]|E3]; [discriminate|exact E3].
  - rewrite forallb_forall in E2. apply Forall_forall. exact E2.
  - clear E1 E2 E3. subst files. revert css E4. induction Hs as [|f ms fs mss Hf Hs IH]; cbn [combine map]; intros css H.
    + inversion H. constructor.
    + inversion H as [|? ? cs ? Hc Hrest]; subst. cbn [combine map]. constructor; [|apply IH; exact Hrest].
      split; [reflexivity|]. split; [reflexivity|]. exists ms. split; [exact Hf|]. cbn [h_classes].
      apply sequence_map in Hc. clear - Hc. remember (map (define (p_package f)) ms) as ds eqn:E. revert ms E.
      induction Hc as [|d c ds cs Hd Hc IH]; intros [|m ms] E; try discriminate; [constructor|].
      injection E as -> ->. constructor; [exact Hd|apply IH; reflexivity].
Qed.

Lemma sorted_file_message f ms s m : sorted_file f ms -> file_message f s m ->
  exists top order, In top ms /\ inside (p_package f) top s (sort_pmsg order (removelast s) m).
Proof.
  intros (order0 & _ & ->) (top & Ht & H). set (order := match p_package f with [] => _ | _ => _ end). clearbody order.
  exists (sort_pmsg order (p_package f) top), order. split; [apply sort_In, in_map; exact Ht|]. apply inside_sorted. exact H.
Qed.
Lemma sorted_file_inside f ms top s m' : sorted_file f ms -> In top ms -> inside (p_package f) top s m' ->
  exists m order, file_message f s m /\ m' = sort_pmsg order (removelast s) m.
Proof.
  intros (order0 & _ & ->). set (order := match p_package f with [] => _ | _ => _ end). clearbody order. intros Ht H.
  apply sort_In, in_map_iff in Ht. destruct Ht as (m & <- & Hm). apply sorted_inside in H. destruct H as (m0 & H & ->).
  exists m0, order. split; [|reflexivity]. exists m. split; assumption.
Qed.

Lemma written_class t f h s c : written t f h ->
  (exists top, In top (h_classes h) /\ class_inside (h_package h) top s c) -> exists m, file_message f s m /\ class_of t s m c.
Proof.
  intros (Ep & _ & ms & Hs & Hc) (top & Ht & H). destruct (Forall2_In_r _ _ _ _ Hc Ht) as (m0 & Hm & E).
  rewrite Ep in H. destruct (render_inside _ _ _ _ E) as (_ & H1 & _). destruct (H1 _ _ H) as (m' & Hi & Hcl).
  destruct (sorted_file_inside _ _ _ _ _ Hs Hm Hi) as (m & order & Hf & ->). exists m. split; [exact Hf|].
  exact (proj1 (class_of_sorted _ _ _ _ _ _) Hcl).
Qed.
Lemma written_message t f h s m : written t f h -> file_message f s m ->
  exists top c, In top (h_classes h) /\ class_inside (h_package h) top s c /\ class_of t s m c.
Proof.
  intros (Ep & _ & ms & Hs & Hc) H. destruct (sorted_file_message _ _ _ _ Hs H) as (m0 & order & Hm & Hi).
  destruct (Forall2_In_l _ _ _ _ Hc Hm) as (top & Ht & E). destruct (render_inside _ _ _ _ E) as (_ & _ & H1).
  destruct (H1 _ _ Hi) as (c & Hci & Hcl). exists top, c. split; [exact Ht|]. rewrite Ep. split; [exact Hci|].
  exact (proj1 (class_of_sorted _ _ _ _ _ _) Hcl).
Qed.
Lemma generated_message t request hs s c : Forall2 (written t) request hs -> generated hs s c ->
  exists m, message request s m /\ class_of t s m c.
Proof.
  intros H (h & top & Hh & Ht & Hc). destruct (Forall2_In_r _ _ _ _ H Hh) as (f & Hf & Hw).
  destruct (written_class _ _ _ _ _ Hw (ex_intro _ top (conj Ht Hc))) as (m & Hm & Hcl). exists m. split; [exists f; split; assumption|exact Hcl].
Qed.
Lemma message_generated t request hs s m : Forall2 (written t) request hs -> message request s m ->
  exists c, generated hs s c /\ class_of t s m c.
Proof.
  intros H (f & Hf & Hm). destruct (Forall2_In_l _ _ _ _ H Hf) as (h & Hh & Hw).
  destruct (written_message _ _ _ _ _ Hw Hm) as (top & c & Ht & Hc & Hcl). exists c. split; [|exact Hcl]. exists h, top. auto.
Qed.

(** *** Names are used once *)

Definition thin {A} (l l' : list A) : Prop := incl l' l /\ (NoDup l -> NoDup l').
Lemma thin_perm {A} (l l' : list A) : Permutation l l' -> thin l l'.
Proof. intros H. split; [intros x Hx; eapply Permutation_in; [apply Permutation_sym, H|exact Hx]|apply Permutation_NoDup; exact H]. Qed.
Lemma thin_trans {A} (l l' l'' : list A) : thin l l' -> thin l' l'' -> thin l l''.
Proof. intros [A1 A2] [B1 B2]. split; [intros x Hx; auto|auto]. Qed.
Lemma thin_app {A} (l1 l1' l2 l2' : list A) : thin l1 l1' -> thin l2 l2' -> thin (l1 ++ l2) (l1' ++ l2').
Proof.
  intros [A1 A2] [B1 B2]. split.
  - intros x Hx. apply in_app_or in Hx. apply in_or_app. destruct Hx; [left|right]; auto.
  - intros Hn. apply NoDup_app; [apply A2; eapply NoDup_app_remove_r; exact Hn|apply B2; eapply NoDup_app_remove_l; exact Hn|].
    intros x H1 H2. apply A1 in H1. apply B1 in H2. clear - Hn H1 H2. induction l1 as [|y l IH]; [destruct H1|]. cbn in Hn. inversion Hn; subst.
    destruct H1 as [->|H1]; [apply H3; apply in_or_app; right; exact H2|auto].
Qed.
Lemma thin_drop {A} (l l' : list A) : thin (l ++ l') l'.
Proof. split; [intros x Hx; apply in_or_app; right; exact Hx|apply NoDup_app_remove_l]. Qed.
Lemma thin_refl {A} (l : list A) : thin l l.
Proof. apply thin_perm. apply Permutation_refl. Qed.
Lemma thin_concat {A B} (g g' : A -> list B) l : (forall a, In a l -> thin (g a) (g' a)) -> thin (concat (map g l)) (concat (map g' l)).
Proof.
  induction l as [|a l IH]; intros H; [apply thin_refl|]. cbn. apply thin_app; [apply H; left; reflexivity|].
  apply IH. intros b Hb. apply H. right. exact Hb.
Qed.

Lemma post_thin m : forall p, thin (type_names p m) (post p m).
Proof.
  induction m as [n nested enums fields oneofs IH] using pmsg_induction. intros p. cbn [type_names post]. rewrite Forall_forall in IH.
  change (thin ([p ++ [n]] ++ (map (fun e => p ++ [n; e]) enums ++ concat (map (type_names (p ++ [n])) nested)))
               (concat (map (post (p ++ [n])) nested) ++ [p ++ [n]])).
  eapply thin_trans; [apply thin_perm; apply Permutation_app_comm|]. apply thin_app; [|apply thin_refl].
  eapply thin_trans; [apply thin_drop|]. apply thin_concat. intros a Ha. apply IH. exact Ha.
Qed.
Lemma concat_map_perm {A B} (g : A -> list B) l l' : Permutation l l' -> Permutation (concat (map g l)) (concat (map g l')).
Proof. intros H. rewrite <- !flat_map_concat_map. apply Permutation_flat_map. exact H. Qed.
Lemma post_sorted order m : forall p, Permutation (post p m) (post p (sort_pmsg order p m)).
Proof.
  induction m as [n nested enums fields oneofs IH] using pmsg_induction. intros p. cbn [sort_pmsg post]. rewrite Forall_forall in IH.
  apply Permutation_app_tail. etransitivity; [|apply concat_map_perm; apply sort_perm].
  rewrite map_map. apply concat_perm. clear - IH. induction nested as [|a l IHl]; cbn; constructor.
  - apply IH. left. reflexivity.
  - apply IHl. intros b Hb. apply IH. right. exact Hb.
Qed.

Lemma request_messages request mss : Forall2 sorted_file request mss ->
  thin (concat (map file_type_names request))
    (concat (map all_messages (concat (map (fun '(f, ms) => map (define (p_package f)) ms) (combine request mss))))).
Proof.
  induction 1 as [|f ms fs mss Hf Hs IH]; [apply thin_refl|]. cbn [combine map concat]. rewrite map_app, concat_app.
  apply thin_app; [|exact IH]. destruct Hf as (order0 & _ & ->). set (order := match p_package f with [] => _ | _ => _ end). clearbody order.
  unfold file_type_names. eapply thin_trans; [apply thin_drop|].
  rewrite map_map. rewrite (map_ext _ _ (fun m => all_messages_define m (p_package f))).
  eapply thin_trans; [apply thin_concat; intros a _; apply post_thin|].
  apply thin_perm. unfold sort_pmsgs. etransitivity; [|apply concat_map_perm; apply sort_perm]. rewrite map_map.
  apply concat_perm. induction (p_msgs f) as [|a l IHl]; cbn; constructor; [apply post_sorted|exact IHl].
Qed.

Lemma message_scope request s m : message request s m -> removelast s ++ [p_name m] = s.
Proof. intros (f & _ & top & _ & H). eapply inside_scope. exact H. Qed.

Lemma sorted_def request mss : Forall2 sorted_file request mss -> forall d0 d,
  In d0 (concat (map (fun '(f, ms) => map (define (p_package f)) ms) (combine request mss))) -> In d (all_defs d0) ->
  exists s m order, message request s m /\ d = define (removelast s) (sort_pmsg order (removelast s) m).
Proof.
  induction 1 as [|f ms fs mss Hf Hs IH]; cbn [combine map concat]; [intros _ d []|]. intros d0 d Hd0 Hd. apply in_app_or in Hd0. destruct Hd0 as [Hd0|Hd0].
  - apply in_map_iff in Hd0. destruct Hd0 as (top & <- & Ht). apply all_defs_define in Hd. destruct Hd as (s & m' & Hi & ->).
    destruct (sorted_file_inside _ _ _ _ _ Hf Ht Hi) as (m & order & Hm & ->). exists s, m, order.
    split; [exists f; split; [left; reflexivity|exact Hm]|reflexivity].
  - destruct (IH d0 d Hd0 Hd) as (s & m & order & (g & Hg & Hm) & E). exists s, m, order. split; [exists g; split; [right; exact Hg|exact Hm]|exact E].
Qed.
Lemma def_sorted request mss : Forall2 sorted_file request mss -> forall s m, message request s m ->
  exists order, In (define (removelast s) (sort_pmsg order (removelast s) m))
    (concat (map all_defs (concat (map (fun '(f, ms) => map (define (p_package f)) ms) (combine request mss))))).
Proof.
  induction 1 as [|f ms fs mss Hf Hs IH]; intros s m (g & Hg & Hm); [destruct Hg|]. cbn [combine map concat]. rewrite map_app, concat_app.
  destruct Hg as [<-|Hg].
  - destruct (sorted_file_message _ _ _ _ Hf Hm) as (top & order & Ht & Hi). exists order. apply in_or_app. left.
    apply in_concat. exists (all_defs (define (p_package f) top)). split; [apply in_map, in_map; exact Ht|].
    apply all_defs_define. eexists _, _. split; [exact Hi|reflexivity].
  - destruct (IH s m) as (order & H); [exists g; split; assumption|]. exists order. apply in_or_app. right. exact H.
Qed.

Lemma define_nests p m : nests (define p m).
Proof.
  intros e n He Hn. apply all_defs_define in He. destruct He as (s & m' & Hi & ->). apply all_defs_define in Hn.
  destruct Hn as (s' & m'' & Hi' & ->). rewrite (inside_d_scope _ _ _ _ Hi). rewrite (inside_d_scope _ _ _ _ Hi').
  apply inside_prefix in Hi'. rewrite (inside_scope _ _ _ _ Hi) in Hi'. exact Hi'.
Qed.

Lemma define_levels p m : levels (define p m).
Proof.
  intros e n He Hn. apply all_defs_define in He. destruct He as (s & m' & Hi & ->). destruct m' as [x nested enums fields oneofs].
  rewrite (inside_d_scope _ _ _ _ Hi). cbn [define d_nested] in Hn. apply inside_scope in Hi. cbn [p_name] in Hi. rewrite Hi in Hn.
  apply in_map_iff in Hn. destruct Hn as (m'' & <- & _). exists (p_name m''). apply d_scope_define.
Qed.

Lemma registered_all request mss st :
  legal request -> Forall2 sorted_file request mss ->
  runs (concat (map (fun '(f, ms) => map (define (p_package f)) ms) (combine request mss))) no_regs st ->
  forall s m, message request s m ->
  let fs := filter (needs_in s st) (msg_fields s m) in
  st s = {| all_registered := true; contains_templates := some fs; registered := fs |}.
Proof.
  intros (_ & Hn & Hpk) Hs Hr s m Hm. set (ds := concat _) in Hr.
  assert (Htop : forall d, In d ds -> exists f top, In f request /\ d_scope d = p_package f ++ [p_name top] /\ exists x, d = define (p_package f) x).
  { intros d Hd. unfold ds in Hd. apply in_concat in Hd. destruct Hd as (l & Hli & Hd). apply in_map_iff in Hli.
    destruct Hli as ([f ms] & <- & Hf). apply in_map_iff in Hd. destruct Hd as (m' & <- & _). exists f, m'.
    split; [eapply in_combine_l; exact Hf|]. split; [apply d_scope_define|exists m'; reflexivity]. }
  assert (Hf : Forall (final st) (concat (map all_defs ds))).
  { assert (Hset : Forall settles ds) by (apply Forall_forall; intros d _; apply register_settles).
    apply (runs_settle ds Hset no_regs st st Hr).
    - apply (request_messages _ _ Hs). exact Hn.
    - reflexivity.
    - apply Forall_forall. intros d Hd. apply in_concat in Hd. destruct Hd as (l & Hl & Hd). apply in_map_iff in Hl. destruct Hl as (d0 & <- & Hd0).
      destruct (sorted_def _ _ Hs _ _ Hd0 Hd) as (s' & m' & order & Hm' & ->). intros f Hif Hc.
      pose proof (message_scope _ _ _ Hm') as Esc. rewrite d_scope_define, sort_pmsg_name, Esc in Hc.
      apply d_fields_sub in Hif. rewrite sort_pmsg_name, sort_pmsg_fields, Esc in Hif. destruct Hif as (g & Hg & ->).
      apply factory_message in Hc. destruct Hc as (_ & Hne & _). apply Hne. reflexivity.
    - apply Forall_forall. intros d Hd. destruct (Htop d Hd) as (f & top & _ & _ & x & ->). apply define_nests.
    - apply Forall_forall. intros d Hd. destruct (Htop d Hd) as (f & top & _ & _ & x & ->). apply define_levels.
    - reflexivity.
    - intros d d' p Hd Hd' Hp Hpre. destruct (Htop d' Hd') as (f & top & Hf & Ed & _). rewrite Ed in Hpre |- *.
      destruct (prefix_child _ _ _ Hpre) as [Hpp|Hpp]; [|exact Hpp]. exfalso. apply (Hpk f p Hf); [|exact Hpp].
      apply (proj1 (request_messages _ _ Hs)). apply in_concat. eexists. split; [apply in_map; exact Hd|exact Hp].
    - reflexivity.
    - intros d p _ H. discriminate. }
  destruct (def_sorted _ _ Hs _ _ Hm) as (order & Hin). rewrite Forall_forall in Hf. specialize (Hf _ Hin).
  unfold final in Hf. pose proof (message_scope _ _ _ Hm) as Esc. rewrite d_scope_define, sort_pmsg_name, Esc in Hf.
  change (d_fields (define (removelast s) (sort_pmsg order (removelast s) m))) with (msg_fields s (sort_pmsg order (removelast s) m)) in Hf.
  rewrite msg_fields_sorted in Hf. exact Hf.
Qed.
