(** * GenProps: the properties of the generated classes. *)
From Coq Require Import String.
From Verif Require Import Base Schema Printf Generator SpecGenerator GenOrder GenSort GenReg GenRender GenTypes GenOnce GenNames.
From Coq Require Import List Permutation ZifyBool ZifyNat Lia.

Lemma legal_nodup request : legal request -> NoDup (concat (map file_type_names request)).
Proof. intros (_ & H & _). exact H. Qed.

Lemma generated_declared limit request hs s c n t :
  legal request -> generate limit request = Some hs -> generated hs s c -> In (n, t) (c_members c) ->
  (forall name a args max, t <> TyRep (TyMsg name (a :: args)) (LConst max)) ->
  (forall m g T, message request s m -> In g (m_fields m) -> pf_name g = n -> pf_repeated g = false -> pf_type g = PMessage T ->
     templated request T -> ~ prefix T s) ->
  incl (params_used t) (c_params c).
Proof.
  intros Hl Hgen Hg Hi Hex Hout. destruct (generate_written _ _ _ Hgen) as (mss & st & Hs & (Hr & Hm) & Hw).
  destruct (generated_message _ _ _ _ _ Hw Hg) as (m & Hmsg & Hc). destruct (member_class _ _ _ _ _ _ Hc Hi) as (f & Hf & En & _ & Hty).
  eapply (params_declared limit request hs st mss Hl Hs Hr Hm Hw); try eassumption. intros ref Hc' Htm.
  destruct (in_field _ _ _ _ Hmsg Hf) as (g & Hg' & ->). apply factory_message in Hc'. destruct Hc' as (Ht & _ & Hrep).
  eapply Hout; [exact Hmsg|exact Hg'|symmetry; exact En|exact Hrep|exact Ht|exact Htm].
Qed.
Lemma generated_template limit request hs s c :
  legal request -> generate limit request = Some hs -> generated hs s c ->
  (c_params c <> [] <-> templated request s).
Proof.
  intros Hl Hgen Hg. destruct (generate_written _ _ _ Hgen) as (mss & st & Hs & (Hr & Hm) & Hw).
  eapply (template_iff limit request hs st mss Hl Hs Hr Hm Hw); exact Hg.
Qed.
Lemma generated_arguments limit request hs s m g T :
  legal request -> generate limit request = Some hs ->
  message request s m -> In g (m_fields m) -> pf_type g = PMessage T -> T <> s ->
  exists c cT name args l, generated hs s c /\ generated hs T cT
    /\ In (pf_name g, if pf_repeated g then TyRep (TyMsg name args) l else TyMsg name args) (c_members c)
    /\ args = map (fun p => p_name m ++ chars "_" ++ pf_name g ++ chars "_" ++ p) (c_params cT).
Proof.
  intros Hl Hgen Hmsg Hg Hty HT. destruct (generate_written _ _ _ Hgen) as (mss & st & Hs & (Hr & Hm) & Hw).
  destruct (arguments limit request hs st mss Hl Hs Hm Hw s m g T Hmsg Hg Hty HT) as (c & cT & args & H1 & _ & H2 & Ea & H3).
  exists c, cT, (reduced_scope T s), args. eexists. split; [exact H1|]. split; [exact H2|]. split; [exact H3|].
  rewrite Ea. apply map_ext. intros p. unfold param_prefix. cbn [f_parent f_name factory]. rewrite <- !app_assoc.
  rewrite <- (message_scope _ _ _ Hmsg) at 1. rewrite last_last. reflexivity.
Qed.
Lemma generated_undeclared limit request hs s m g T :
  legal request -> generate limit request = Some hs -> message request s m -> In g (m_fields m) ->
  (pf_repeated g = true /\ pf_max g <> 0 \/ pf_repeated g = false /\ prefix T s) ->
  pf_type g = PMessage T -> T <> s -> templated request T -> no_clash m ->
  exists c t p, generated hs s c /\ In (pf_name g, t) (c_members c) /\ In p (params_used t) /\ ~ In p (c_params c).
Proof.
  intros Hl Hgen. destruct (generate_written _ _ _ Hgen) as (mss & st & Hs & (Hr & Hm) & Hw).
  apply (undeclared limit request hs st mss Hl Hs Hr Hm Hw).
Qed.
Lemma generated_once limit request hs s c :
  legal request -> generate limit request = Some hs -> generated hs s c ->
  (forall s m, message request s m -> no_clash m) -> NoDup (c_params c).
Proof.
  intros Hl Hgen Hg Hcl. destruct (generate_written _ _ _ Hgen) as (mss & st & Hs & (Hr & Hm) & Hw).
  destruct (generated_message _ _ _ _ _ Hw Hg) as (m & Hmsg & Hc). destruct Hc as (Et & _).
  eapply (templates_once request st Hl Hcl); [| |exact Et].
  - intros s' m' Hm'. rewrite (reg_of request st mss Hl Hs Hr s' m' Hm'). reflexivity.
  - intros p. destruct (in_dec path_dec p (concat (map all_messages (concat (map (fun '(f, ms) => map (define (p_package f)) ms) (combine request mss)))))) as [Hi|Hi].
    + left. apply (all_messages_message request mss Hs). exact Hi.
    + right. rewrite (runs_frame _ _ _ Hr p Hi). reflexivity.
Qed.
Lemma generated_members limit request hs s c :
  legal request -> generate limit request = Some hs -> generated hs s c ->
  exists m, message request s m /\ NoDup (map fst (c_members c))
    /\ forall n, In n (map fst (c_members c)) <-> exists g, In g (m_fields m) /\ pf_name g = n /\ ~ refers g s.
Proof.
  intros Hl Hgen Hg. destruct (generate_written _ _ _ Hgen) as (mss & st & Hs & (Hr & Hm) & Hw).
  destruct (generated_message _ _ _ _ _ Hw Hg) as (m & Hmsg & Hc). exists m. split; [exact Hmsg|]. eapply members_once; eassumption.
Qed.
Lemma generated_exactly limit request hs : legal request -> generate limit request = Some hs ->
  forall s, (exists c, generated hs s c) <-> exists m, message request s m.
Proof.
  intros Hl Hgen s. destruct (generate_written _ _ _ Hgen) as (mss & st & Hs & _ & Hw). split.
  - intros [c Hg]. destruct (generated_message _ _ _ _ _ Hw Hg) as (m & Hmsg & _). exists m. exact Hmsg.
  - intros [m Hm]. destruct (message_generated _ _ _ _ _ Hw Hm) as (c & Hg & _). exists c. exact Hg.
Qed.

(** ** Order *)

Lemma generated_order limit request hs s m g T :
  legal request -> imports_first request -> Forall clear_names request -> generate limit request = Some hs ->
  message request s m -> In g (m_fields m) -> refers g T -> ~ prefix T s -> before (script hs) (Declared T) (Uses s).
Proof.
  intros Hl Hi Hc Hgen. destruct (generate_written _ _ _ Hgen) as (mss & st & _ & _ & Hw). eapply request_outside; eassumption.
Qed.

Lemma pscript_perm m : forall p, Permutation (pscript p m) (map Declared (type_names p m) ++ map Uses (post p m)).
Proof.
  induction m as [n nested enums fields oneofs IH] using pmsg_induction. intros p. cbn [pscript type_names post].
  rewrite !map_app. cbn [map]. rewrite !map_app, map_map, !concat_map, !map_map.
  assert (E : map (fun e => Declared (p ++ [n] ++ [e])) enums = map (fun x => Declared (p ++ [n; x])) enums) by reflexivity. rewrite E.
  assert (P : Permutation (concat (map (pscript (p ++ [n])) nested))
    (concat (map (fun x => map Declared (type_names (p ++ [n]) x)) nested) ++ concat (map (fun x => map Uses (post (p ++ [n]) x)) nested))).
  { clear - IH. induction IH as [|a l Ha Hl IHl]; [constructor|]. cbn. rewrite (Ha (p ++ [n])), IHl. rewrite <- !app_assoc. apply Permutation_app_head.
    rewrite !app_assoc. apply Permutation_app_tail. apply Permutation_app_comm. }
  rewrite P. set (A := map (fun x => Declared (p ++ [n; x])) enums).
  set (B := concat (map (fun x => map Declared _) nested)). set (C := concat (map (fun x => map Uses _) nested)).
  set (u := Uses (p ++ [n])). set (v := Declared (p ++ [n])).
  transitivity (((A ++ B) ++ C ++ [u]) ++ [v]); [rewrite <- !app_assoc; reflexivity|].
  rewrite Permutation_app_comm. cbn [app]. rewrite <- !app_assoc. reflexivity.
Qed.

Lemma thin_map_app {A B} (g1 g2 : A -> list B) l : Permutation (concat (map (fun a => g1 a ++ g2 a) l)) (concat (map g1 l) ++ concat (map g2 l)).
Proof.
  induction l as [|a l IH]; [constructor|]. cbn. rewrite IH. rewrite <- !app_assoc. apply Permutation_app_head. rewrite !app_assoc.
  apply Permutation_app_tail. apply Permutation_app_comm.
Qed.
Lemma pscript_sorted order m : forall p, Permutation (pscript p m) (pscript p (sort_pmsg order p m)).
Proof.
  induction m as [n nested enums fields oneofs IH] using pmsg_induction. intros p. cbn [sort_pmsg pscript].
  apply Permutation_app_head, Permutation_app_tail. etransitivity; [|apply concat_map_perm; apply sort_perm].
  rewrite map_map. apply concat_perm. clear - IH. induction IH as [|a l Ha Hl IHl]; cbn; constructor; [apply Ha|exact IHl].
Qed.
Definition file_posts (f : pfile) : list path := concat (map (post (p_package f)) (p_msgs f)).
Lemma file_script_perm f ms : sorted_file f ms -> Permutation (file_script f ms) (map Declared (file_type_names f) ++ map Uses (file_posts f)).
Proof.
  intros (order0 & _ & ->). unfold file_script.
  set (order := match p_package f with [] => _ | _ => _ end). clearbody order. unfold file_type_names, file_posts.
  rewrite map_app, map_map, <- app_assoc. apply Permutation_app_head. rewrite !concat_map, !map_map.
  etransitivity; [|apply (thin_map_app (fun x => map Declared (type_names (p_package f) x)) (fun x => map Uses (post (p_package f) x)))].
  etransitivity; [apply Permutation_sym; apply concat_map_perm; apply sort_perm|]. rewrite map_map. apply concat_perm.
  induction (p_msgs f) as [|a l IH]; cbn; constructor; [|exact IH]. rewrite <- pscript_sorted. apply pscript_perm.
Qed.
Lemma NoDup_map_inj {A B} (g : A -> B) l : (forall x y, g x = g y -> x = y) -> NoDup l -> NoDup (map g l).
Proof.
  intros Hi. induction 1 as [|x l Hx Hl IH]; cbn; constructor; [|exact IH]. intros H. apply in_map_iff in H. destruct H as (y & E & Hy).
  apply Hi in E. subst. contradiction.
Qed.
Lemma file_posts_thin f : thin (file_type_names f) (file_posts f).
Proof. unfold file_type_names, file_posts. eapply thin_trans; [apply thin_drop|]. apply thin_concat. intros a _. apply post_thin. Qed.
Lemma sorted_once request mss : legal request -> Forall2 sorted_file request mss -> NoDup (request_script request mss).
Proof.
  intros Hl Hw. pose proof (legal_nodup _ Hl) as Hnd. clear Hl.
  assert (P : Permutation (request_script request mss) (map Declared (concat (map file_type_names request)) ++ map Uses (concat (map file_posts request)))).
  { clear Hnd. unfold request_script. rewrite !concat_map, !map_map.
    etransitivity; [|apply (thin_map_app (fun x => map Declared (file_type_names x)) (fun x => map Uses (file_posts x)))].
    apply concat_perm. induction Hw as [|f h fs hs' Hf Hw IH]; cbn; constructor; [|exact IH]. eapply file_script_perm. exact Hf. }
  eapply Permutation_NoDup; [apply Permutation_sym, P|]. apply NoDup_app.
  - apply NoDup_map_inj; [intros x y E; congruence|exact Hnd].
  - apply NoDup_map_inj; [intros x y E; congruence|]. apply (thin_concat file_type_names file_posts); [intros a _; apply file_posts_thin|exact Hnd].
  - intros x H1 H2. apply in_map_iff in H1, H2. destruct H1 as (y & <- & _), H2 as (z & E & _). discriminate.
Qed.
Lemma script_once t request hs : legal request -> Forall2 (written t) request hs -> NoDup (script hs).
Proof. intros Hl Hw. destruct (written_sorted _ _ _ Hw) as (mss & Hs & ->). apply sorted_once; assumption. Qed.
Lemma class_uses p c s c' : class_inside p c s c' -> In (Uses s) (class_script p c).
Proof.
  induction 1 as [p c|p ps n enums nested members c s c' Hc H IH].
  - destruct c. cbn [class_script]. apply in_or_app. right. apply in_or_app. right. left. reflexivity.
  - cbn [class_script]. apply in_or_app. right. apply in_or_app. left. apply in_concat. eexists. split; [apply in_map; exact Hc|exact IH].
Qed.

(** A class is complete only after the nested ones. *)
Lemma uses_before order p m s m' T : inside p m s m' -> prefix T s -> ~ prefix T p -> before (pscript p (sort_pmsg order p m)) (Uses s) (Declared T).
Proof.
  assert (Hown : forall n : text, prefix T (p ++ [n]) -> ~ prefix T p -> T = p ++ [n]).
  { clear. intros n H Hno. apply prefix_app_inv in H. destruct H as [H|(x & -> & Hne & [r E])]; [contradiction|].
    destruct x as [|y x]; [contradiction|]. injection E as <- E. symmetry in E. apply app_eq_nil in E. destruct E as [-> _]. reflexivity. }
  intros H. revert Hown. induction H as [p m|p n nested enums fields oneofs a s m' Ha H IH]; intros Hown HT Hno.
  - rewrite (Hown _ HT Hno). destruct m as [n nested enums fields oneofs]. cbn [sort_pmsg pscript p_name]. apply before_app_r, before_app_r.
    apply before_cons. left. reflexivity.
  - cbn [sort_pmsg pscript]. apply before_app_r.
    assert (Hs : In (pscript (p ++ [n]) (sort_pmsg order (p ++ [n]) a)) (map (pscript (p ++ [n])) (sort (leb_index order (p ++ [n])) (map (sort_pmsg order (p ++ [n])) nested)))).
    { apply in_map. apply sort_In. apply in_map. exact Ha. }
    destruct (in_dec Nat.eq_dec (length T) (map (@length text) [p ++ [n]])) as [Hlen|Hlen].
    + assert (HTp : prefix T (p ++ [n])).
      { destruct Hlen as [Hlen|[]]. assert (Hp : prefix (p ++ [n]) s) by (eapply prefix_trans; [apply prefix_snoc|eapply inside_prefix; exact H]).
        rewrite (prefix_firstn _ _ HT), <- Hlen, <- (prefix_firstn _ _ Hp). apply prefix_refl. }
      rewrite (Hown _ HTp Hno). apply before_app; [|right; left; reflexivity]. apply in_concat. eexists. split; [exact Hs|].
      eapply pscript_uses. exact H.
    + apply before_app_l. eapply before_concat_in; [exact Hs|].
      assert (Hno' : ~ prefix T (p ++ [n])) by (intros HTp; apply Hlen; left; rewrite (Hown _ HTp Hno); reflexivity).
      apply IH; [|exact HT|exact Hno'].
      clear. intros n' H Hno. apply prefix_app_inv in H. destruct H as [H|(x & -> & Hne & [r E])]; [contradiction|].
      destruct x as [|y x]; [contradiction|]. injection E as <- E. symmetry in E. apply app_eq_nil in E. destruct E as [-> _]. reflexivity.
Qed.

Lemma generated_enclosing limit request hs s m T :
  legal request -> generate limit request = Some hs -> message request s m -> prefix T s -> (exists mT, message request T mT) ->
  ~ before (script hs) (Declared T) (Uses s).
Proof.
  intros Hl Hgen Hm HT (mT & HmT) Hb. destruct (generate_written _ _ _ Hgen) as (mss & st & _ & _ & Hw).
  pose proof (script_once _ _ _ Hl Hw) as Hnd. assert (Hb' : before (script hs) (Uses s) (Declared T)); [|exact (before_neq _ _ _ Hnd (before_trans _ _ _ _ Hnd Hb Hb') eq_refl)].
  destruct Hm as (f & Hf & top & Ht & Hi).
  assert (Hno : ~ prefix T (p_package f)).
  { destruct Hl as (_ & _ & Hno). apply (Hno f T Hf). apply in_concat. destruct HmT as (f' & Hf' & HmT).
    exists (file_type_names f'). split; [apply in_map; exact Hf'|eapply file_message_name; exact HmT]. }
  destruct (Forall2_In_l _ _ _ _ Hw Hf) as (h & Hh & Hwf). apply before_concat_in with (a := header_script h); [apply in_map; exact Hh|].
  destruct (written_script _ _ _ Hwf) as (ms & (order0 & _ & ->) & ->). set (order := match p_package f with [] => _ | _ => _ end). clearbody order.
  apply before_app_r. apply before_concat_in with (a := pscript (p_package f) (sort_pmsg order (p_package f) top)); [apply in_map, sort_In, in_map; exact Ht|].
  eapply uses_before; eassumption.
Qed.

(** ** The types of the member variables *)

Lemma import_name request s m g T : imports_first request -> message request s m -> In g (m_fields m) -> refers g T ->
  In T (concat (map file_type_names request)).
Proof.
  intros Hi (f & Hf & Hm) Hg Hr. apply in_split in Hf. destruct Hf as (l1 & l2 & ->). pose proof (Hi l1 f l2 s m g T eq_refl Hm Hg Hr) as H.
  rewrite map_app, concat_app in H |- *. apply in_app_or in H. apply in_or_app. destruct H as [H|H]; [left; exact H|right].
  cbn in H |- *. rewrite app_nil_r in H. apply in_or_app. left. exact H.
Qed.
Lemma type_name_nonempty request T : In T (concat (map file_type_names request)) -> T <> [].
Proof.
  intros H E. apply in_concat in H. destruct H as (l & Hl & H). apply in_map_iff in Hl. destruct Hl as (f & <- & _).
  apply file_type_names_inv in H. destruct H as [(e & _ & H)|(X & mX & (top & _ & Hi) & HT)]; [rewrite E in H; destruct (p_package f); discriminate|].
  destruct (inside_parent _ _ _ _ Hi) as (q & Eq & _). destruct HT as [->|(e & _ & ->)]; [rewrite E in Eq; destruct q; discriminate|destruct X; discriminate].
Qed.

Lemma length_of_right f max suffix params : (max = 0 -> In (param_prefix f ++ suffix) params) -> length_right params max (length_of f max suffix).
Proof. intros H. unfold length_of. destruct (max =? 0) eqn:E; cbn; [split; [apply H; lia|lia]|split; [reflexivity|lia]]. Qed.

Section Right.
  Variables (limit : nat) (request : list pfile) (hs : list header) (st : regs) (mss : list (list pmsg)).
  Let t := templates limit st.
  Let ds := concat (map (fun '(f, ms) => map (define (p_package f)) ms) (combine request mss)).
  Hypothesis Hlegal : legal request.
  Hypothesis Himp : imports_first request.
  Hypothesis Hclear : Forall clear_names request.
  Hypothesis Hsorted : Forall2 sorted_file request mss.
  Hypothesis Hruns : runs ds no_regs st.
  Hypothesis Hmatch : Forall (fun d => match_all (concat (map all_messages ds))
                            (concat (map (fun f => map (fun e => p_package f ++ [e]) (p_enums f)) request) ++ concat (map all_enums ds)) d = true) ds.
  Hypothesis Hwritten : Forall2 (written t) request hs.

  Lemma templated_generated x : templated request x -> exists c, generated hs x c.
  Proof.
    intros H. assert (Hm : exists m, message request x m) by (destruct H as [s m g Hm _ _ _ _|s m g T Hm _ _ _ _ _]; exists m; exact Hm).
    destruct Hm as [m Hm]. destruct (message_generated _ _ _ _ _ Hwritten Hm) as (c & Hg & _). exists c. exact Hg.
  Qed.

  Lemma single_right_ok s m g c e params : message request s m -> In g (m_fields m) -> (forall T, refers g T -> ~ prefix T s) ->
    (forall T, refers g T -> ~ shadowed request s T) -> (forall T, pf_type g = PMessage T -> ~ templated_scope request s T) ->
    class_of t s m c -> class_type t s (factory s g) (single_factory g) = Some e -> incl (params_used e) params -> single_right hs s params g e.
  Proof.
    intros Hm Hg Hout Hsh Hts Hc He Hpar. assert (Hr : ~ refers g s) by (intros H; exact (Hout s H (prefix_refl s))). unfold single_factory in He. unfold single_right.
    assert (Hname : forall T, refers g T -> stands_for hs s (reduced_scope T s) T).
    { intros T HT. pose proof (import_name _ _ _ _ _ Himp Hm Hg HT) as Hin. apply (stands_for_iff t request hs s T Hwritten Hin); [|apply Hsh; exact HT].
      eapply type_name_nonempty. exact Hin. }
    assert (Hord : forall T, refers g T -> before (script hs) (Declared T) (Uses s)).
    { intros T HT. eapply request_outside; try eassumption. apply Hout. exact HT. }
    destruct (pf_type g) as [sc| | |ref|ref] eqn:Ety; cbn [class_type] in He.
    - injection He as <-. reflexivity.
    - injection He as <-. apply length_of_right. intros E. apply Hpar. unfold length_of. rewrite E. left. reflexivity.
    - injection He as <-. apply length_of_right. intros E. apply Hpar. unfold length_of. rewrite E. left. reflexivity.
    - destruct (enum_scopes_ok t ref s) eqn:Eok; [|discriminate]. injection He as <-. assert (HT : refers g ref) by (right; exact Ety).
      split; [apply Hname; exact HT|]. split; [|apply Hord; exact HT]. intros k cx Hk Hgx.
      destruct (generated_message _ _ _ _ _ Hwritten Hgx) as (mx & _ & (Et & _)). unfold enum_scopes_ok in Eok. rewrite forallb_forall in Eok.
      assert (Hlen : length (reduced_scope ref s) = (length ref - shared ref s)%nat) by apply skipn_length.
      assert (Hin : In k (seq (S (shared ref s)) (length ref - shared ref s))) by (apply in_seq; lia).
      apply Eok in Hin. rewrite Et in Hin. destruct (c_params cx); [reflexivity|discriminate].
    - assert (HT : refers g ref) by (left; exact Ety). assert (Hne : ref <> s) by (intros ->; contradiction).
      destruct (class_params t (factory s g) (FieldMessage ref)) as [args|] eqn:Ea; [|discriminate]. cbn in He. injection He as <-.
      split; [apply Hname; exact HT|]. split; [|split; [apply Hord; exact HT|split; [exact Hpar|]]].
      + apply (plain_scopes_iff hs request s ref); [|exact templated_generated| |apply Hts; reflexivity].
        * intros x cx Hgx. eapply (template_iff limit request hs st mss Hlegal Hsorted Hruns Hmatch Hwritten). exact Hgx.
        * eapply type_name_nonempty. eapply import_name; eassumption.
      + destruct (arguments limit request hs st mss Hlegal Hsorted Hmatch Hwritten s m g ref Hm Hg Ety Hne) as (_ & cT & _ & _ & _ & HgT & _).
        exists cT. split; [exact HgT|]. destruct (generated_message _ _ _ _ _ Hwritten HgT) as (mT & _ & (Et & _)).
        cbn [class_params] in Ea. rewrite Et in Ea. cbn in Ea. injection Ea as <-. apply map_length.
  Qed.

  Lemma type_right_ok s m g : message request s m -> In g (m_fields m) -> (forall T, refers g T -> ~ prefix T s) ->
    (forall T, refers g T -> ~ shadowed request s T) -> (forall T, pf_type g = PMessage T -> ~ templated_scope request s T) ->
    (forall T, pf_type g = PMessage T -> pf_repeated g = true -> pf_max g <> 0 -> ~ templated request T) ->
    exists c ty, generated hs s c /\ In (pf_name g, ty) (c_members c) /\ type_right hs s (c_params c) g ty.
  Proof.
    intros Hm Hg Hout Hsh Hts Hrep. assert (Hr : ~ refers g s) by (intros H; exact (Hout s H (prefix_refl s))). destruct (message_generated _ _ _ _ _ Hwritten Hm) as (c & Hgc & Hc).
    pose proof (field_in _ _ _ _ Hlegal Hm Hg) as Hf. pose proof (factory_plain _ _ Hr) as Ec.
    destruct (class_member t s m c (factory s g) Hc Hf) as (ty & Hty & Hin).
    { rewrite Ec. unfold single_factory. destruct (pf_repeated g), (pf_type g); discriminate. }
    exists c, ty. split; [exact Hgc|]. split; [exact Hin|].
    assert (Hdec : incl (params_used ty) (c_params c)).
    { eapply (params_declared limit request hs st mss Hlegal Hsorted Hruns Hmatch Hwritten s m c (factory s g)); try eassumption;
      [|intros ref Hc0 _ Hp0; apply factory_message in Hc0; destruct Hc0 as (Ht0 & _ & _); exact (Hout ref (or_introl Ht0) Hp0)].
      intros name a args max ->. rewrite Ec in Hty. destruct (pf_repeated g) eqn:Er.
      - cbn [class_type] in Hty. destruct (class_type t s (factory s g) (single_factory g)) as [e|] eqn:Ee; [|discriminate]. cbn in Hty. injection Hty as -> El.
        unfold single_factory in Ee. destruct (pf_type g) as [sc| | |ref|ref] eqn:Ety; cbn [class_type] in Ee; try discriminate.
        + destruct (enum_scopes_ok t ref s); discriminate.
        + assert (Hmax : pf_max g <> 0) by (unfold length_of in El; destruct (pf_max g =? 0) eqn:E; [discriminate|lia]).
          apply (Hrep ref eq_refl eq_refl Hmax). assert (Hne : ref <> s) by (intros ->; apply Hr; left; exact Ety).
          destruct (arguments limit request hs st mss Hlegal Hsorted Hmatch Hwritten s m g ref Hm Hg Ety Hne) as (_ & cT & _ & _ & _ & HgT & _).
          destruct (generated_message _ _ _ _ _ Hwritten HgT) as (mT & _ & (Et & _)).
          apply (template_iff limit request hs st mss Hlegal Hsorted Hruns Hmatch Hwritten ref cT HgT).
          cbn [class_params] in Ee. rewrite Et in Ee. cbn in Ee. injection Ee as _ Ee. destruct (c_params cT); [discriminate|discriminate].
      - unfold single_factory in Hty. destruct (pf_type g) as [sc| | |ref|ref]; cbn [class_type] in Hty; try discriminate.
        + destruct (enum_scopes_ok t ref s); discriminate.
        + destruct (class_params t (factory s g) (FieldMessage ref)); discriminate. }
    rewrite Ec in Hty. unfold type_right. destruct (pf_repeated g).
    - cbn [class_type] in Hty. destruct (class_type t s (factory s g) (single_factory g)) as [e|] eqn:Ee; [|discriminate]. cbn in Hty. injection Hty as <-.
      cbn [params_used] in Hdec. apply incl_app_inv in Hdec. destruct Hdec as [H1 H2]. split.
      + eapply single_right_ok; eassumption.
      + apply length_of_right. intros E. apply H2. unfold length_of. rewrite E. left. reflexivity.
    - eapply single_right_ok; eassumption.
  Qed.
End Right.

Lemma generated_right limit request hs s m g :
  legal request -> imports_first request -> Forall clear_names request -> generate limit request = Some hs ->
  message request s m -> In g (m_fields m) -> (forall T, refers g T -> ~ prefix T s) ->
  (forall T, refers g T -> ~ shadowed request s T) -> (forall T, pf_type g = PMessage T -> ~ templated_scope request s T) ->
  (forall T, pf_type g = PMessage T -> pf_repeated g = true -> pf_max g <> 0 -> ~ templated request T) ->
  exists c t, generated hs s c /\ In (pf_name g, t) (c_members c) /\ type_right hs s (c_params c) g t.
Proof.
  intros Hl Hi Hc Hgen. destruct (generate_written _ _ _ Hgen) as (mss & st & Hs & (Hr & Hm) & Hw).
  eapply (type_right_ok limit request hs st mss); eassumption.
Qed.

(** The name in the type stands for the type exactly if it is not shadowed. *)
Lemma generated_names limit request hs s m g T :
  legal request -> imports_first request -> generate limit request = Some hs ->
  message request s m -> In g (m_fields m) -> refers g T -> T <> s ->
  exists c name, generated hs s c
    /\ (exists t, In (pf_name g, t) (c_members c) /\ match t with
         | TyEnum n | TyMsg n _ | TyRep (TyEnum n) _ | TyRep (TyMsg n _) _ => n = name | _ => False end)
    /\ (stands_for hs s name T <-> ~ shadowed request s T).
Proof.
  intros Hl Hi Hgen Hm Hg Hr HT. destruct (generate_written _ _ _ Hgen) as (mss & st & Hs & (Hru & Hma) & Hw).
  assert (Hns : ~ refers g s) by (intros H; destruct Hr as [Hr|Hr], H as [H|H]; congruence).
  destruct (message_generated _ _ _ _ _ Hw Hm) as (c & Hgc & Hc).
  pose proof (field_in _ _ _ _ Hl Hm Hg) as Hf. pose proof (factory_plain _ _ Hns) as Ec.
  destruct (class_member _ s m c (factory s g) Hc Hf) as (ty & Hty & Hin).
  { rewrite Ec. unfold single_factory. destruct (pf_repeated g), (pf_type g); discriminate. }
  exists c, (reduced_scope T s). split; [exact Hgc|]. split.
  - exists ty. split; [exact Hin|]. rewrite Ec in Hty. unfold single_factory in Hty.
    destruct Hr as [Hr|Hr]; rewrite Hr in Hty; destruct (pf_repeated g); cbn [class_type] in Hty.
    + destruct (class_params _ _ _); [|discriminate]. injection Hty as <-. reflexivity.
    + destruct (class_params _ _ _); [|discriminate]. injection Hty as <-. reflexivity.
    + destruct (enum_scopes_ok _ _ _); [|discriminate]. injection Hty as <-. reflexivity.
    + destruct (enum_scopes_ok _ _ _); [|discriminate]. injection Hty as <-. reflexivity.
  - pose proof (import_name _ _ _ _ _ Hi Hm Hg Hr) as HinT. apply (stands_for_iff _ request hs s T Hw HinT). eapply type_name_nonempty. exact HinT.
Qed.

(** The scopes in the name of a message are not templates exactly if the request has none there. *)
Lemma generated_scopes limit request hs s m g T :
  legal request -> imports_first request -> generate limit request = Some hs ->
  message request s m -> In g (m_fields m) -> pf_type g = PMessage T -> T <> s ->
  exists c name args l, generated hs s c
    /\ In (pf_name g, if pf_repeated g then TyRep (TyMsg name args) l else TyMsg name args) (c_members c)
    /\ (plain_scopes hs name T <-> ~ templated_scope request s T).
Proof.
  intros Hl Hi Hgen Hm Hg Hty HT. destruct (generate_written _ _ _ Hgen) as (mss & st & Hs & (Hru & Hma) & Hw).
  destruct (arguments limit request hs st mss Hl Hs Hma Hw s m g T Hm Hg Hty HT) as (c & cT & args & H1 & _ & _ & _ & H3).
  exists c, (reduced_scope T s), args. eexists. split; [exact H1|]. split; [exact H3|].
  apply (plain_scopes_iff hs request s T).
  - intros x cx Hgx. eapply (template_iff limit request hs st mss Hl Hs Hru Hma Hw). exact Hgx.
  - intros x Hx. eapply templated_generated; eassumption.
  - eapply type_name_nonempty. eapply import_name; [exact Hi|exact Hm|exact Hg|left; exact Hty].
Qed.

(** ** Types nested twice *)

Lemma own_dep p m g T : In g (m_fields m) -> refers g T -> T <> p ++ [p_name m] ->
  (forall x, In x (map p_name (p_nested m) ++ m_enums m) -> dotted T <> dotted ((p ++ [p_name m]) ++ [x])) -> In (dotted T) (fst (toposort_add_msg p m)).
Proof.
  intros Hg Hr HT Hx. destruct m as [n nested enums fields oneofs]. cbn [p_name m_fields p_nested m_enums] in *.
  rewrite add_msg_eq. cbn [fst]. apply in_or_app. right. apply in_or_app. right. apply filter_In. split.
  - apply in_concat. exists [dotted T]. split; [|left; reflexivity]. apply in_map_iff. exists g. split; [|exact Hg].
    unfold type_name. destruct Hr as [->| ->]; (destruct (path_eqb T (p ++ [n])) eqn:E; [apply path_eqb_eq in E; contradiction|reflexivity]).
  - apply mem_not_In. intros Hi. apply in_app_or in Hi. destruct Hi as [Hi|Hi]; apply in_map_iff in Hi; destruct Hi as (x & E & Hxi);
      (eapply Hx; [|symmetry; exact E]); apply in_or_app; [left; apply in_map; exact Hxi|right; exact Hxi].
Qed.

(** A message is sorted after the messages around it. *)
Lemma above_before f order0 :
  toposort_flatten (concat (map (fun m => snd (toposort_add_msg (p_package f) m)) (p_msgs f))) = Some order0 ->
  (forall T, In T (file_type_names f) \/ file_ref f T -> Forall identifier T) -> NoDup (concat (map (type_names (p_package f)) (p_msgs f))) ->
  forall p top X mX s, inside p top X mX -> (exists ms, scope_of f p ms /\ In top ms) -> prefix s X -> ~ prefix s p ->
  s = X \/ before order0 (dotted s) (dotted X).
Proof.
  intros Hto Hused Hnames p top X mX s H. induction H as [p m|p n nested enums fields oneofs a X mX Ha H IH]; intros (ms & Hc & Hm) Hs Hno.
  - left. apply prefix_app_inv in Hs. destruct Hs as [Hs|(x & -> & Hne & [r E])]; [contradiction|].
    destruct x as [|y x]; [contradiction|]. injection E as <- E. symmetry in E. apply app_eq_nil in E. destruct E as [-> _]. reflexivity.
  - destruct (list_eq_dec text_dec s (p ++ [n])) as [->|Hne].
    + destruct (outer_before f order0 Hto Hused Hnames p (PMsg n nested enums fields oneofs) X mX) as [E|E];
        [exists ms; split; assumption|eapply inside_nested; eassumption|left; symmetry; exact E|right; exact E].
    + pose proof (scope_of_nested _ _ _ _ Hc Hm) as Hn. cbn [p_name p_nested] in Hn. apply IH; [exists nested; split; assumption|exact Hs|].
      intros Hp. apply prefix_app_inv in Hp. destruct Hp as [Hp|(x & -> & Hx & [r E])]; [contradiction|].
      destruct x as [|y x]; [contradiction|]. injection E as <- E. symmetry in E. apply app_eq_nil in E. destruct E as [-> _]. contradiction.
Qed.

Lemma deep_rejected limit request f s m g T a b r :
  legal request -> imports_first request -> In f request -> file_message f s m -> In g (m_fields m) -> refers g T -> T = s ++ a :: b :: r ->
  In T (file_type_names f) -> generate limit request = None.
Proof.
  intros Hl Himp Hf Hm Hg Hr ET HT. destruct (generate limit request) as [hs|] eqn:Hgen; [exfalso|reflexivity].
  destruct (generate_written _ _ _ Hgen) as (mss & st & Hs & _ & _). destruct (Forall2_In_l _ _ _ _ Hs Hf) as (ms & _ & (order0 & Hto & _)).
  pose proof Hl as (Hlf & Hnd & Hpk). rewrite Forall_forall in Hlf. destruct (Hlf f Hf) as (Hids & _).
  assert (Hsub : forall x, In x (file_type_names f) -> In x (concat (map file_type_names request))).
  { intros x Hx. apply in_concat. exists (file_type_names f). split; [apply in_map; exact Hf|exact Hx]. }
  assert (Hused : forall T', In T' (file_type_names f) \/ file_ref f T' -> Forall identifier T').
  { intros T' [H|(s' & m' & g' & Hm' & Hg' & Hr')]; apply (legal_ids _ _ Hl); [apply Hsub; exact H|].
    eapply import_name; [exact Himp|exists f; split; [exact Hf|exact Hm']|exact Hg'|exact Hr']. }
  pose proof Hf as Hf'.
  assert (Hnames : NoDup (concat (map (type_names (p_package f)) (p_msgs f)))).
  { apply in_split in Hf. destruct Hf as (l1 & l2 & ->). rewrite map_app, concat_app in Hnd. apply NoDup_app_remove_l in Hnd. cbn in Hnd.
    apply NoDup_app_remove_r in Hnd. unfold file_type_names in Hnd. apply NoDup_app_remove_l in Hnd. exact Hnd. }
  pose proof (topo_NoDup f order0 Hto Hused Hnames) as HndO.
  assert (HdT : Forall dotfree T) by (apply ids_dotfree, Hused; left; exact HT).
  assert (Hds : Forall dotfree s) by (apply ids_dotfree, Hused; left; eapply file_message_name; exact Hm).
  destruct (data_message f s m Hm) as (q & Eq & Hd).
  assert (H1 : before order0 (dotted T) (dotted s)).
  { eapply (topo_before f order0 Hto Hused Hnames); [exact Hd| |].
    - eapply own_dep; [exact Hg|exact Hr| |].
      + rewrite <- Eq, ET. intros E. apply (f_equal (@length text)) in E. rewrite app_length in E. cbn in E. lia.
      + intros x Hxi E. rewrite <- Eq in E.
        assert (Hx : In (s ++ [x]) (file_type_names f)).
        { apply in_app_or in Hxi. destruct Hxi as [Hxi|Hxi].
          - apply in_map_iff in Hxi. destruct Hxi as (m1 & <- & Hm1). eapply file_message_name. eapply scope_of_message; [|exact Hm1].
            right. exists m. split; [exact Hm|reflexivity].
          - eapply file_type_in; [exact Hm|right; exists x; split; [exact Hxi|reflexivity]]. }
        apply dotted_inj in E; [|exact HdT|apply ids_dotfree, Hused; left; exact Hx].
        rewrite ET in E. apply app_inv_head in E. discriminate.
    - intros E. apply dotted_inj in E; [|exact HdT|exact Hds]. rewrite ET in E. apply (f_equal (@length text)) in E. rewrite app_length in E. cbn in E. lia. }
  assert (Hnop : ~ prefix s (p_package f)) by (apply (Hpk f s Hf'), Hsub; eapply file_message_name; exact Hm).
  apply file_type_names_inv in HT. destruct HT as [(e & _ & E)|(X & mX & HX & HTX)].
  - apply Hnop. rewrite ET in E. exists (removelast (a :: b :: r)). rewrite <- (removelast_last (p_package f) e), <- E.
    apply removelast_app. discriminate.
  - assert (HsX : prefix s X).
    { destruct HTX as [<-|(e & _ & E)]; [exists (a :: b :: r); exact ET|]. rewrite ET in E. exists (removelast (a :: b :: r)).
      rewrite <- (removelast_last X e), <- E. apply removelast_app. discriminate. }
    pose proof HX as (top & Ht & Hi).
    assert (H2 : s = X \/ before order0 (dotted s) (dotted X)).
    { eapply (above_before f order0 Hto Hused Hnames); [exact Hi| |exact HsX|exact Hnop]. exists (p_msgs f). split; [left; split; reflexivity|exact Ht]. }
    pose proof (scope_before f order0 Hto Hused Hnames X mX T HX HTX) as H3.
    assert (H4 : s = T \/ before order0 (dotted s) (dotted T)).
    { destruct H2 as [->|H2], H3 as [->|H3]; [left; reflexivity|right; exact H3|right; exact H2|right; eapply before_trans; eassumption]. }
    destruct H4 as [->|H4]; [|exact (before_neq _ _ _ HndO (before_trans _ _ _ _ HndO H1 H4) eq_refl)].
    apply (f_equal (@length text)) in ET. rewrite app_length in ET. cbn in ET. lia.
Qed.
