(** * GenInstance: generated classes have the type that is declared. *)
From Coq Require Import String.
From Verif Require Import Base Schema Spec Struct BitLemmas Printf Generator GenCode SpecGenerator SpecInstance GenOrder GenSort GenReg GenRender GenTypes GenOnce GenNames GenProps GenAccept.
From Coq Require Import List Permutation ZifyBool ZifyNat Lia.

(** ** The code of a message *)

Lemma message_unique request s m1 m2 : legal request -> message request s m1 -> message request s m2 -> m1 = m2.
Proof.
  intros (_ & Hn & _) (f1 & Hf1 & H1) (f2 & Hf2 & H2).
  assert (f1 = f2).
  { eapply (NoDup_concat_eq file_type_names); [exact Hn|exact Hf1|exact Hf2|eapply file_message_name; exact H1|eapply file_message_name; exact H2]. }
  subst f2. eapply file_message_unique; [|exact H1|exact H2].
  pose proof (NoDup_concat_in _ _ Hn (in_map file_type_names _ _ Hf1)) as H. unfold file_type_names in H. eapply NoDup_app_remove_l. exact H.
Qed.

Definition def_code (d : mdef) : class_code :=
  let 'MDef _ _ _ fields oneofs := d in (map field_code fields, map (fun o => map field_code (snd o)) oneofs).
Lemma codes_defs d : codes d = map (fun d' => (d_scope d', def_code d')) (all_defs d).
Proof.
  induction d as [scope nested enums fields oneofs IH] using mdef_induction. cbn [codes all_defs]. rewrite map_app. f_equal.
  clear - IH. induction IH as [|d ds Hd Hds IH]; [reflexivity|]. cbn [map concat]. rewrite map_app. f_equal; assumption.
Qed.
Lemma def_code_sorted order c s m : def_code (define s (sort_pmsg order c m)) = def_code (define s m).
Proof. destruct m. reflexivity. Qed.

Lemma sorted_generate limit request hs : generate limit request = Some hs -> forall f, In f request -> exists ds, sort_file f = Some ds.
Proof.
  unfold generate. destruct (sequence (map sort_file request)) as [files|] eqn:E1; [|discriminate]. intros _ f Hf.
  apply sequence_map in E1. destruct (Forall2_In_l _ _ _ _ E1 Hf) as (ds & _ & H). exists ds. exact H.
Qed.
Lemma code_message limit request hs s code : generate limit request = Some hs ->
  (In (s, code) (generate_code request) <-> exists m, message request s m /\ code = def_code (define (removelast s) m)).
Proof.
  intros Hgen. pose proof (sorted_generate _ _ _ Hgen) as Hsort. unfold generate_code. rewrite in_concat.
  assert (Hf : forall f ds, sort_file f = Some ds -> exists ms, sorted_file f ms /\ ds = map (define (p_package f)) ms).
  { intros f ds H. apply sort_file_sorted in H. destruct H as (order0 & Ht & ->). eexists. split; [exists order0; split; [exact Ht|reflexivity]|reflexivity]. }
  split.
  - intros (l & Hl & H). apply in_map_iff in Hl. destruct Hl as (f & <- & Hin). destruct (Hsort f Hin) as (ds & Eds). rewrite Eds in H.
    destruct (Hf _ _ Eds) as (ms & Hms & ->). apply in_concat in H. destruct H as (l & Hl & H). apply in_map_iff in Hl. destruct Hl as (d & <- & Hd).
    apply in_map_iff in Hd. destruct Hd as (top & <- & Ht). rewrite codes_defs in H. apply in_map_iff in H. destruct H as (d & E & Hd).
    apply all_defs_define in Hd. destruct Hd as (s' & m' & Hi & ->). rewrite (inside_d_scope _ _ _ _ Hi) in E. injection E as <- <-.
    destruct (sorted_file_inside _ _ _ _ _ Hms Ht Hi) as (m & order & Hm & ->). exists m. split; [exists f; split; assumption|].
    apply def_code_sorted.
  - intros (m & (f & Hin & Hm) & ->). destruct (Hsort f Hin) as (ds & Eds). exists (concat (map codes ds)). split.
    + apply in_map_iff. exists f. rewrite Eds. split; [reflexivity|exact Hin].
    + destruct (Hf _ _ Eds) as (ms & Hms & ->). destruct (sorted_file_message _ _ _ _ Hms Hm) as (top & order & Ht & Hi).
      apply in_concat. exists (codes (define (p_package f) top)). split; [apply in_map, in_map; exact Ht|].
      rewrite codes_defs. apply in_map_iff. exists (define (removelast s) (sort_pmsg order (removelast s) m)). split.
      * rewrite (inside_d_scope _ _ _ _ Hi), def_code_sorted. reflexivity.
      * apply all_defs_define. eexists _, _. split; [exact Hi|reflexivity].
Qed.

(** In terms of the fields of the request. *)
Lemma oneof_members_in fields i : filter (in_oneof i) fields = filter (fun g => negb (pf_optional g)) (oneof_members fields i).
Proof.
  unfold oneof_members. induction fields as [|g l IH]; [reflexivity|]. cbn [filter]. unfold in_oneof at 1. rewrite IH.
  destruct (pf_oneof g) as [j|]; [|reflexivity]. rewrite Nat.eqb_sym. destruct (Nat.eqb j i); [|reflexivity]. cbn [filter]. destruct (pf_optional g); reflexivity.
Qed.
Lemma define_groups s fields names : (forall f i, In f fields -> pf_oneof f = Some i -> pf_optional f = true -> forall g, In g fields -> pf_oneof g = Some i -> g = f) ->
  forall index, map (fun o => map field_code (snd o)) (define_oneofs s fields index names)
  = map (map (fun g => field_code (factory s g)))
      (filter (fun l => match l with [] => false | _ => true end) (map (fun i => filter (in_oneof i) fields) (seq index (length names)))).
Proof.
  intros Hok. induction names as [|n names IH]; intros index; [reflexivity|]. cbn [define_oneofs length seq map]. rewrite map_app, IH. clear IH.
  assert (Hm : forall g, In g (oneof_members fields index) <-> In g fields /\ pf_oneof g = Some index).
  { intros g. unfold oneof_members. rewrite filter_In. destruct (pf_oneof g) as [j|]; [|intuition discriminate]. rewrite Nat.eqb_eq. intuition congruence. }
  cbn [filter]. rewrite oneof_members_in. destruct (oneof_members fields index) as [|h r] eqn:E; [reflexivity|].
  destruct (pf_optional h) eqn:Eh.
  - assert (Hnil : filter (fun g => negb (pf_optional g)) (h :: r) = []); [|rewrite Hnil; reflexivity].
    assert (Hall : forall g, In g (h :: r) -> pf_optional g = true).
    { destruct (proj1 (Hm h)) as [Hh Hi]; [left; reflexivity|]. intros g Hg. apply Hm in Hg. rewrite (Hok h index Hh Hi Eh g (proj1 Hg) (proj2 Hg)). exact Eh. }
    clear - Hall. induction (h :: r) as [|g l IH]; [reflexivity|]. cbn [filter]. rewrite (Hall g (or_introl eq_refl)). cbn. apply IH.
    intros x Hx. apply Hall. right. exact Hx.
  - assert (Hid : filter (fun g => negb (pf_optional g)) (h :: r) = h :: r).
    { assert (Hall : forall g, In g (h :: r) -> pf_optional g = false).
      { intros g Hg. destruct (pf_optional g) eqn:Eg; [|reflexivity]. apply Hm in Hg. destruct (proj1 (Hm h)) as [Hh Hi]; [left; reflexivity|].
        rewrite (Hok g index (proj1 Hg) (proj2 Hg) Eg h Hh Hi) in Eh. congruence. }
      clear - Hall. induction (h :: r) as [|g l IH]; [reflexivity|]. cbn [filter]. rewrite (Hall g (or_introl eq_refl)). cbn. f_equal. apply IH.
      intros x Hx. apply Hall. right. exact Hx. }
    rewrite Hid. cbn [map snd app]. rewrite map_map. reflexivity.
Qed.
Lemma message_code request s m : legal request -> message request s m ->
  def_code (define (removelast s) m) = (map (fun g => field_code (factory s g)) (filter direct (m_fields m)),
                                        map (map (fun g => field_code (factory s g))) (oneof_groups m)).
Proof.
  intros Hl Hm. pose proof (message_scope _ _ _ Hm) as Es. pose proof (legal_oneofs _ (legal_message _ _ _ Hl Hm)) as Hok.
  destruct m as [n nested enums fields oneofs]. cbn [p_name m_fields m_oneofs] in *. cbn [define def_code]. rewrite Es, map_map. f_equal.
  unfold oneof_groups. cbn [m_fields oneof_count]. apply define_groups. intros f i Hf Hi Ho. apply (Hok f i Hf Hi). exact Ho.
Qed.

(** ** Relations that are functions at one place *)

Definition det {A} (R : A -> Prop) (a : A) : Prop := forall x, R x <-> x = a.
Lemma det_Forall2 {A B C} (R : A -> B -> Prop) (S : C -> B -> Prop) (h : A -> C) l :
  (forall a, In a l -> exists b, det (R a) b /\ det (S (h a)) b) -> exists bs, det (Forall2 R l) bs /\ det (Forall2 S (map h l)) bs.
Proof.
  induction l as [|a l IH]; intros H.
  - exists []. split; intros x; (split; [inversion 1; reflexivity|intros ->; constructor]).
  - destruct (H a (or_introl eq_refl)) as (b & H1 & H2). destruct IH as (bs & I1 & I2); [intros a' Ha'; apply H; right; exact Ha'|].
    exists (b :: bs). split; intros x; (split; [inversion 1 as [|? y ? ys Hy Hys]; subst|intros ->]).
    + rewrite (proj1 (H1 _) Hy), (proj1 (I1 _) Hys). reflexivity.
    + constructor; [apply H1; reflexivity|apply I1; reflexivity].
    + rewrite (proj1 (H2 _) Hy), (proj1 (I2 _) Hys). reflexivity.
    + constructor; [apply H2; reflexivity|apply I2; reflexivity].
Qed.

Lemma bound_map params lengths p v : bound params (map lengths params) p v <-> In p params /\ v = lengths p.
Proof.
  unfold bound. split.
  - intros (i & H1 & H2). rewrite (map_nth_error lengths _ _ H1) in H2. injection H2 as <-. split; [eapply nth_error_In; exact H1|reflexivity].
  - intros (H & ->). apply In_nth_error in H. destruct H as (i & H). exists i. split; [exact H|apply map_nth_error; exact H].
Qed.
Lemma bounds_map params lengths l : incl l params -> det (Forall2 (bound params (map lengths params)) l) (map lengths l).
Proof.
  intros Hi vs. split.
  - intros H. induction H as [|p v l vs Hp Hl IH]; [reflexivity|]. apply bound_map in Hp. destruct Hp as (_ & ->). cbn. f_equal.
    apply IH. intros x Hx. apply Hi. right. exact Hx.
  - intros ->. induction l as [|p l IH]; [constructor|]. cbn. constructor; [apply bound_map; split; [apply Hi; left; reflexivity|reflexivity]|].
    apply IH. intros x Hx. apply Hi. right. exact Hx.
Qed.
Lemma stands_for_unique hs s name p p' : stands_for hs s name p -> stands_for hs s name p' -> p = p'.
Proof.
  intros (n & a & rest & Hn & -> & -> & He & Hno) (n' & a' & rest' & Hn' & E & -> & He' & Hno'). injection E as <- <-.
  assert (n = n'); [|subst n'; reflexivity].
  destruct (Nat.lt_trichotomy n n') as [H|[H|H]]; [|exact H|].
  - exfalso. apply (Hno n'); [lia|exact He'].
  - exfalso. apply (Hno' n); [lia|exact He].
Qed.
Lemma before_induction {A} (l : list A) (P : A -> Prop) : NoDup l -> (forall x, In x l -> (forall y, before l y x -> P y) -> P x) -> forall x, In x l -> P x.
Proof.
  intros Hn Hs. assert (H : forall n l1 x l2, (length l1 <= n)%nat -> l = l1 ++ x :: l2 -> P x).
  { induction n as [|n IH]; intros l1 x l2 Hlen E; (apply Hs; [rewrite E; apply in_elt|]); intros y Hy; rewrite E in Hn, Hy; pose proof (before_split _ _ _ _ Hn Hy) as Hin.
    - destruct l1; [destruct Hin|cbn in Hlen; lia].
    - apply in_split in Hin. destruct Hin as (a & b & ->). apply (IH a y (b ++ x :: l2)).
      + rewrite app_length in Hlen. cbn in Hlen. lia.
      + rewrite E, <- app_assoc. reflexivity. }
  intros x Hx. apply in_split in Hx. destruct Hx as (l1 & l2 & E). eapply H; [apply le_n|exact E].
Qed.
Lemma NoDup_fst {A B} (l : list (A * B)) n t t' : NoDup (map fst l) -> In (n, t) l -> In (n, t') l -> t = t'.
Proof.
  induction l as [|[a b] l IH]; cbn; [intros _ []|]. intros Hn H1 H2. inversion Hn as [|? ? Ha Hl]; subst.
  destruct H1 as [E1|H1], H2 as [E2|H2].
  - congruence.
  - exfalso. apply Ha. injection E1 as -> ->. apply in_map_iff. exists (n, t'). split; [reflexivity|exact H2].
  - exfalso. apply Ha. injection E2 as -> ->. apply in_map_iff. exists (n, t). split; [reflexivity|exact H1].
  - apply IH; assumption.
Qed.

Section Instance.
  Variables (limit : nat) (request : list pfile) (hs : list header) (st : regs) (mss : list (list pmsg)).
  Let t := templates limit st.
  Let ds := concat (map (fun '(f, ms) => map (define (p_package f)) ms) (combine request mss)).
  Let code := generate_code request.
  Hypothesis Hlegal : legal request.
  Hypothesis Himp : imports_first request.
  Hypothesis Hrefs : references request.
  Hypothesis Hclear : Forall clear_names request.
  Hypothesis Henc : no_enclosing request.
  Hypothesis Hgen : generate limit request = Some hs.
  Hypothesis Hsorted : Forall2 sorted_file request mss.
  Hypothesis Hruns : runs ds no_regs st.
  Hypothesis Hmatch : Forall (fun d => match_all (concat (map all_messages ds))
                            (concat (map (fun f => map (fun e => p_package f ++ [e]) (p_enums f)) request) ++ concat (map all_enums ds)) d = true) ds.
  Hypothesis Hwritten : Forall2 (written t) request hs.
  Hypothesis Hrec : recursive_plain request.
  Hypothesis Hclash : forall s m, message request s m -> no_clash m.
  Hypothesis Hshadow : forall s m g T, message request s m -> In g (m_fields m) -> refers g T -> T <> s -> ~ shadowed request s T.
  Hypothesis Hscope : forall s m g T, message request s m -> In g (m_fields m) -> pf_type g = PMessage T -> T <> s -> ~ templated_scope request s T.
  Hypothesis Hfixed : forall s m g T, message request s m -> In g (m_fields m) -> pf_type g = PMessage T -> T <> s ->
    pf_repeated g = true -> pf_max g <> 0 -> ~ templated request T.

  Definition agrees (s : path) : Prop := forall m, message request s m -> forall lengths, exists e, det (declared request lengths s) e
    /\ forall c, generated hs s c -> det (instance hs code s (map lengths (c_params c))) e.

  Lemma prefix_name s m g x : message request s m -> param_prefix (factory s g) ++ x = name_in m g x.
  Proof.
    intros Hm. unfold param_prefix, name_in. cbn [f_parent f_name factory]. rewrite <- !app_assoc.
    rewrite <- (message_scope _ _ _ Hm) at 1. rewrite last_last. reflexivity.
  Qed.
  Lemma length_det s m g params lengths what : message request s m -> incl (length_params (length_of (factory s g) (pf_max g) (chars what))) params ->
    det (length_is params (map lengths params) (length_of (factory s g) (pf_max g) (chars what))) (length_given lengths m g what).
  Proof.
    intros Hm Hi n. unfold length_of, length_given in *. destruct (pf_max g =? 0).
    - rewrite (prefix_name s m g _ Hm) in *. split.
      + inversion 1; subst. apply bound_map in H1. apply H1.
      + intros ->. constructor. apply bound_map. split; [apply Hi; left; reflexivity|reflexivity].
    - split; [inversion 1; reflexivity|intros ->; constructor].
  Qed.

  Lemma type_det s m g c ty : message request s m -> In g (m_fields m) -> ~ refers g s -> class_of t s m c -> generated hs s c ->
    class_type t s (factory s g) (single_factory g) = Some ty -> incl (params_used ty) (c_params c) ->
    (forall T, pf_type g = PMessage T -> agrees T) ->
    forall lengths, exists e, det (declared_type (declared request) lengths m g) e
      /\ det (type_is (instance hs code) hs s (c_params c) (map lengths (c_params c)) ty) e.
  Proof.
    intros Hm Hg Hr Hc Hgc Hty Hincl IH lengths.
    assert (Hright : single_right hs s (c_params c) g ty).
    { eapply (single_right_ok limit request hs st mss); try eassumption.
      - intros T HT Hp. apply Hr. rewrite <- (Henc s m g T Hm Hg HT Hp) at 1. exact HT.
      - intros T HT. eapply Hshadow; try eassumption. intros ->. contradiction.
      - intros T HT. eapply Hscope; try eassumption. intros ->. apply Hr. left. exact HT. }
    unfold single_factory in Hty. unfold single_right in Hright.
    destruct (pf_type g) as [sc| | |T|T] eqn:Ety; cbn [class_type] in Hty.
    - injection Hty as <-. exists (EScalar sc). split; intros x; (split; [|intros ->]).
      + inversion 1; congruence.
      + constructor. exact Ety.
      + inversion 1; reflexivity.
      + constructor.
    - injection Hty as <-. exists (EBytes true (length_given lengths m g "LENGTH")). pose proof (length_det s m g (c_params c) lengths "LENGTH" Hm Hincl) as Hd.
      split; intros x; (split; [|intros ->]).
      + inversion 1; congruence.
      + apply declared_string. exact Ety.
      + inversion 1; subst. f_equal. apply Hd. assumption.
      + constructor. apply Hd. reflexivity.
    - injection Hty as <-. exists (EBytes false (length_given lengths m g "LENGTH")). pose proof (length_det s m g (c_params c) lengths "LENGTH" Hm Hincl) as Hd.
      split; intros x; (split; [|intros ->]).
      + inversion 1; congruence.
      + apply declared_bytes. exact Ety.
      + inversion 1; subst. f_equal. apply Hd. assumption.
      + constructor. apply Hd. reflexivity.
    - destruct (enum_scopes_ok t T s); [|discriminate]. injection Hty as <-. destruct Hright as (H1 & H2 & H3).
      exists (EScalar Enumeration). split; intros x; (split; [|intros ->]).
      + inversion 1; congruence.
      + eapply declared_enum. exact Ety.
      + inversion 1; reflexivity.
      + apply is_enum with (p := T); [split; [|split]; assumption|]. intros (cT & HcT).
        destruct (generated_message _ _ _ _ _ Hwritten HcT) as (mT & HmT & _). destruct (Hrefs _ _ _ T Hm Hg) as [_ H]. apply (H Ety). exists mT. exact HmT.
    - destruct (Hrefs _ _ _ T Hm Hg) as [HT _]. destruct (HT Ety) as (mT & HmT). clear HT.
      destruct (message_generated _ _ _ _ _ Hwritten HmT) as (cT & HgT & HcT).
      destruct (class_params t (factory s g) (FieldMessage T)) as [args|] eqn:Ea; [|discriminate]. cbn in Hty. injection Hty as <-.
      destruct Hright as (H1 & H2 & H3 & _ & _). cbn [params_used] in Hincl.
      destruct (IH T eq_refl mT HmT (fun p => lengths (name_in m g p))) as (e & D1 & D2). specialize (D2 cT HgT).
      assert (Eargs : map lengths args = map (fun p => lengths (name_in m g p)) (c_params cT)).
      { cbn [class_params] in Ea. destruct HcT as (Et & _). rewrite Et in Ea. cbn in Ea. injection Ea as <-. rewrite map_map. apply map_ext.
        intros p. exact (f_equal lengths (prefix_name s m g p Hm)). }
      exists e. split; intros x; (split; [|intros ->]).
      + inversion 1; try congruence. subst. apply D1. match goal with E : pf_type g = PMessage ?T' |- _ => rewrite Ety in E; injection E as <- end. assumption.
      + apply declared_message with (T := T); [exact Ety|]. apply D1. reflexivity.
      + inversion 1 as [| | | |name p targs vs e' Hu Hb Hin]; subst. destruct Hu as (Hst & _ & _).
        rewrite (stands_for_unique _ _ _ _ _ Hst H1) in Hin. apply (bounds_map _ lengths _ Hincl) in Hb. subst vs. rewrite Eargs in Hin. apply D2. exact Hin.
      + apply is_message with (p := T) (vs := map lengths args).
        * split; [exact H1|split; assumption].
        * apply (bounds_map _ lengths _ Hincl). reflexivity.
        * rewrite Eargs. apply D2. reflexivity.
  Qed.

  (** The member variable of a field. *)
  Lemma variable s m g c : message request s m -> In g (m_fields m) -> ~ refers g s -> class_of t s m c ->
    exists ty, class_type t s (factory s g) (single_factory g) = Some ty /\ incl (params_used ty) (c_params c)
      /\ (pf_repeated g = true -> incl (length_params (length_of (factory s g) (pf_max g) (chars "REP_LENGTH"))) (c_params c))
      /\ forall x, In (pf_name g, x) (c_members c) <->
           x = if pf_repeated g then TyRep ty (length_of (factory s g) (pf_max g) (chars "REP_LENGTH")) else ty.
  Proof.
    intros Hm Hg Hr Hc. pose proof (field_in _ _ _ _ Hlegal Hm Hg) as Hf. pose proof (factory_plain _ _ Hr) as Ec.
    destruct (class_member t s m c (factory s g) Hc Hf) as (ty & Hty & Hin).
    { rewrite Ec. unfold single_factory. destruct (pf_repeated g), (pf_type g); discriminate. }
    change (f_name (factory s g)) with (pf_name g) in Hin.
    destruct (members_once request t s m c Hlegal Hm Hc) as [Hnd _].
    assert (Hdec : incl (params_used ty) (c_params c)).
    { eapply (params_declared limit request hs st mss Hlegal Hsorted Hruns Hmatch Hwritten s m c (factory s g)); try eassumption;
      [|intros ref Hc0 _ Hp0; apply factory_message in Hc0; destruct Hc0 as (Ht0 & Hne0 & _); apply Hne0; eapply Henc; [exact Hm|exact Hg|left; exact Ht0|exact Hp0]].
      intros name a args max ->. rewrite Ec in Hty. destruct (pf_repeated g) eqn:Er.
      - cbn [class_type] in Hty. destruct (class_type t s (factory s g) (single_factory g)) as [e|] eqn:Ee; [|discriminate]. cbn in Hty. injection Hty as -> El.
        unfold single_factory in Ee. destruct (pf_type g) as [sc| | |ref|ref] eqn:Ety; cbn [class_type] in Ee; try discriminate.
        + destruct (enum_scopes_ok t ref s); discriminate.
        + assert (Hmax : pf_max g <> 0) by (unfold length_of in El; destruct (pf_max g =? 0) eqn:E; [discriminate|lia]).
          assert (Hne : ref <> s) by (intros ->; apply Hr; left; exact Ety).
          apply (Hfixed s m g ref Hm Hg Ety Hne Er Hmax).
          destruct (arguments limit request hs st mss Hlegal Hsorted Hmatch Hwritten s m g ref Hm Hg Ety Hne) as (_ & cT & _ & _ & _ & HgT & _).
          destruct (generated_message _ _ _ _ _ Hwritten HgT) as (mT & _ & (Et & _)).
          apply (template_iff limit request hs st mss Hlegal Hsorted Hruns Hmatch Hwritten ref cT HgT).
          cbn [class_params] in Ee. rewrite Et in Ee. cbn in Ee. injection Ee as _ Ee. destruct (c_params cT); [discriminate|discriminate].
      - unfold single_factory in Hty. destruct (pf_type g) as [sc| | |ref|ref]; cbn [class_type] in Hty; try discriminate.
        + destruct (enum_scopes_ok t ref s); discriminate.
        + destruct (class_params t (factory s g) (FieldMessage ref)); discriminate. }
    rewrite Ec in Hty. destruct (pf_repeated g).
    - cbn [class_type] in Hty. destruct (class_type t s (factory s g) (single_factory g)) as [e|] eqn:Ee; [|discriminate]. cbn in Hty. injection Hty as <-.
      cbn [params_used] in Hdec. apply incl_app_inv in Hdec. destruct Hdec as [H1 H2]. exists e. split; [reflexivity|]. split; [exact H1|]. split; [intros _; exact H2|].
      intros x. split; [intros H; eapply NoDup_fst; eassumption|intros ->; exact Hin].
    - exists ty. split; [exact Hty|]. split; [exact Hdec|]. split; [discriminate|]. intros x. split; [intros H; eapply NoDup_fst; eassumption|intros ->; exact Hin].
  Qed.
  Lemma not_rep s g ty : class_type t s (factory s g) (single_factory g) = Some ty -> forall e l, ty <> TyRep e l.
  Proof.
    unfold single_factory. destruct (pf_type g); cbn [class_type]; intros H e l ->; try discriminate.
    - destruct (enum_scopes_ok _ _ _); discriminate.
    - destruct (class_params _ _ _); discriminate.
  Qed.
  Lemma code_recursive s g : cf_recursive (field_code (factory s g)) = true <-> refers g s.
  Proof.
    cbn [field_code cf_recursive]. split.
    - intros H. destruct (refers_to g s) eqn:E; [apply refers_to_spec; exact E|]. assert (Hr : ~ refers g s) by (rewrite <- refers_to_spec, E; discriminate).
      rewrite (factory_plain _ _ Hr) in H. unfold single_factory in H. destruct (pf_repeated g), (pf_type g); discriminate.
    - intros H. rewrite (factory_recursive _ _ H). reflexivity.
  Qed.

  Lemma field_det s m g c : message request s m -> In g (m_fields m) -> class_of t s m c -> generated hs s c ->
    (forall T, T <> s -> pf_type g = PMessage T -> agrees T) -> forall lengths, exists d, det (declared_field (declared request) lengths s m g) d
      /\ det (field_is (instance hs code) hs s c (map lengths (c_params c)) (field_code (factory s g))) d.
  Proof.
    intros Hm Hg Hc Hgc IH lengths. pose proof (code_recursive s g) as Hrc. destruct (refers_to g s) eqn:Er.
    - apply refers_to_spec in Er. pose proof (proj2 Hrc Er) as Hcf. exists (pf_number g, KRecursive, EMsg [] []). split; intros x; (split; [|intros ->]).
      + inversion 1; [reflexivity|contradiction|contradiction].
      + constructor. exact Er.
      + inversion 1; [reflexivity|congruence|congruence].
      + apply (is_recursive (instance hs code) hs s c _ (field_code (factory s g)) Hcf).
    - assert (Hr : ~ refers g s) by (rewrite <- refers_to_spec, Er; discriminate).
      assert (Hcf : cf_recursive (field_code (factory s g)) = false) by (destruct (cf_recursive _); [exfalso; apply Hr, Hrc; reflexivity|reflexivity]).
      destruct (variable s m g c Hm Hg Hr Hc) as (ty & Hty & Hincl & Hrl & Hin).
      assert (IH' : forall T, pf_type g = PMessage T -> agrees T) by (intros T HT; apply IH; [intros ->; apply Hr; left; exact HT|exact HT]).
      destruct (type_det s m g c ty Hm Hg Hr Hc Hgc Hty Hincl IH' lengths) as (e & D1 & D2).
      destruct (pf_repeated g) eqn:Erep.
      + exists (pf_number g, KRep (length_given lengths m g "REP_LENGTH"), e).
        pose proof (length_det s m g (c_params c) lengths "REP_LENGTH" Hm (Hrl eq_refl)) as Hd. split; intros x; (split; [|intros ->]).
        * inversion 1; try contradiction; try congruence. subst. f_equal. apply D1. assumption.
        * apply declared_repeated; [exact Hr|exact Erep|apply D1; reflexivity].
        * inversion 1 as [|ty' l n e' _ Hi Hl Ht|ty' e' _ Hi Ht]; subst; try congruence.
          -- apply Hin in Hi. injection Hi as -> ->. rewrite (proj1 (Hd _) Hl), (proj1 (D2 _) Ht). reflexivity.
          -- apply Hin in Hi. subst ty'. inversion Ht.
        * apply (is_repeated (instance hs code) hs s c _ (field_code (factory s g)) ty (length_of (factory s g) (pf_max g) (chars "REP_LENGTH"))); [exact Hcf| | |].
          -- apply Hin. reflexivity.
          -- apply Hd. reflexivity.
          -- apply D2. reflexivity.
      + exists (pf_number g, if pf_optional g then KOpt else KPlain, e). split; intros x; (split; [|intros ->]).
        * inversion 1; try contradiction; try congruence. subst. f_equal. apply D1. assumption.
        * apply declared_single; [exact Hr|exact Erep|apply D1; reflexivity].
        * inversion 1 as [|ty' l n e' _ Hi Hl Ht|ty' e' _ Hi Ht]; subst; try congruence.
          -- apply Hin in Hi. exfalso. eapply not_rep; [exact Hty|symmetry; exact Hi].
          -- apply Hin in Hi. subst ty'. rewrite (proj1 (D2 _) Ht). reflexivity.
        * apply (is_single (instance hs code) hs s c _ (field_code (factory s g)) ty); [exact Hcf| |apply D2; reflexivity]. apply Hin. reflexivity.
  Qed.
  Lemma oneof_det s m g c i : message request s m -> In g (m_fields m) -> pf_oneof g = Some i -> class_of t s m c -> generated hs s c ->
    (forall T, T <> s -> pf_type g = PMessage T -> agrees T) -> forall lengths, exists d, det (declared_member (declared request) lengths m g) d
      /\ det (member_is (instance hs code) hs s c (map lengths (c_params c)) (field_code (factory s g))) d.
  Proof.
    intros Hm Hg Ho Hc Hgc IH lengths. assert (Hr : ~ refers g s) by (intros H; rewrite (Hrec _ _ _ Hm Hg H) in Ho; discriminate).
    assert (Erep : pf_repeated g = false).
    { pose proof (legal_message _ _ _ Hlegal Hm) as H. destruct m. cbn [m_fields msg_legal] in *. destruct H as (_ & _ & _ & _ & H & _).
      rewrite Forall_forall in H. destruct (pf_repeated g) eqn:E; [|reflexivity]. rewrite (H g Hg E) in Ho. discriminate. }
    assert (Hcf : cf_recursive (field_code (factory s g)) = false).
    { pose proof (code_recursive s g) as Hrc. destruct (cf_recursive _); [exfalso; apply Hr, Hrc; reflexivity|reflexivity]. }
    destruct (variable s m g c Hm Hg Hr Hc) as (ty & Hty & Hincl & _ & Hin). rewrite Erep in Hin.
    assert (IH' : forall T, pf_type g = PMessage T -> agrees T) by (intros T HT; apply IH; [intros ->; apply Hr; left; exact HT|exact HT]).
    destruct (type_det s m g c ty Hm Hg Hr Hc Hgc Hty Hincl IH' lengths) as (e & D1 & D2).
    exists (pf_number g, e). split; intros x; (split; [|intros ->]).
    - inversion 1; subst. f_equal. apply D1. assumption.
    - constructor. apply D1. reflexivity.
    - inversion 1 as [ty' e' _ Hi Ht]; subst. apply Hin in Hi. subst ty'. rewrite (proj1 (D2 _) Ht). reflexivity.
    - apply (is_member (instance hs code) hs s c _ (field_code (factory s g)) ty); [exact Hcf| |apply D2; reflexivity]. apply Hin. reflexivity.
  Qed.

  Lemma class_same s m c c' : class_of t s m c -> class_of t s m c' -> c_params c = c_params c' /\ c_members c = c_members c'.
  Proof. intros (E1 & _ & ms & H1 & ->) (E2 & _ & ms' & H2 & ->). split; congruence. Qed.

  Lemma class_agrees s : (forall T m g, message request s m -> In g (m_fields m) -> T <> s -> pf_type g = PMessage T -> agrees T) -> agrees s.
  Proof.
    intros IH m Hm lengths. destruct (message_generated _ _ _ _ _ Hwritten Hm) as (c0 & Hg0 & Hc0).
    pose proof (message_code _ _ _ Hlegal Hm) as Ecode.
    destruct (det_Forall2 (declared_field (declared request) lengths s m) (field_is (instance hs code) hs s c0 (map lengths (c_params c0)))
                (fun g => field_code (factory s g)) (filter direct (m_fields m))) as (fs & F1 & F2).
    { intros g Hg. apply filter_In in Hg. destruct Hg as [Hg _]. apply field_det; try assumption. intros T HT HTy. eapply IH; eassumption. }
    destruct (det_Forall2 (Forall2 (declared_member (declared request) lengths m)) (Forall2 (member_is (instance hs code) hs s c0 (map lengths (c_params c0))))
                (map (fun g => field_code (factory s g))) (oneof_groups m)) as (os & O1 & O2).
    { intros l Hl. apply det_Forall2. intros g Hg. unfold oneof_groups in Hl. apply filter_In in Hl. destruct Hl as [Hl _].
      apply in_map_iff in Hl. destruct Hl as (i & <- & _). apply filter_In in Hg. destruct Hg as [Hg Hi]. unfold in_oneof in Hi.
      destruct (pf_oneof g) as [j|] eqn:Ej; [|discriminate]. eapply oneof_det; try eassumption. intros T HT HTy. eapply IH; eassumption. }
    exists (EMsg fs os). split.
    - intros x. split.
      + inversion 1 as [lengths' s' m' fs' os' Hm' Hfs Hos]; subst. rewrite (message_unique _ _ _ _ Hlegal Hm' Hm) in *.
        rewrite (proj1 (F1 _) Hfs), (proj1 (O1 _) Hos). reflexivity.
      + intros ->. apply declared_as with (m := m); [exact Hm|apply F1; reflexivity|apply O1; reflexivity].
    - intros c Hgc. destruct (generated_message _ _ _ _ _ Hwritten Hgc) as (m' & Hm' & Hc). rewrite (message_unique _ _ _ _ Hlegal Hm' Hm) in Hc.
      destruct (class_same _ _ _ _ Hc Hc0) as [Ep Em].
      assert (Hfield : forall c args f d, c_params c = c_params c0 -> c_members c = c_members c0 ->
                field_is (instance hs code) hs s c args f d <-> field_is (instance hs code) hs s c0 args f d).
      { intros c1 args f d E1 E2. split; (inversion 1; subst;
          [apply is_recursive; assumption
          |eapply is_repeated; [assumption|rewrite ?E2 in *; rewrite <- ?E2 in *; eassumption|rewrite ?E1 in *; rewrite <- ?E1 in *; eassumption|rewrite ?E1 in *; rewrite <- ?E1 in *; eassumption]
          |eapply is_single; [assumption|rewrite ?E2 in *; rewrite <- ?E2 in *; eassumption|rewrite ?E1 in *; rewrite <- ?E1 in *; eassumption]]). }
      assert (Hmember : forall c args f d, c_params c = c_params c0 -> c_members c = c_members c0 ->
                member_is (instance hs code) hs s c args f d <-> member_is (instance hs code) hs s c0 args f d).
      { intros c1 args f d E1 E2. split; (inversion 1; subst; eapply is_member; [assumption|rewrite ?E2 in *; rewrite <- ?E2 in *; eassumption|rewrite ?E1 in *; rewrite <- ?E1 in *; eassumption]). }
      assert (Hfields : forall c args l l', c_params c = c_params c0 -> c_members c = c_members c0 ->
                Forall2 (field_is (instance hs code) hs s c args) l l' <-> Forall2 (field_is (instance hs code) hs s c0 args) l l').
      { intros c1 args l l' E1 E2. split; (induction 1 as [|x y l l' Hxy Hl IHl]; [constructor|constructor; [apply (Hfield _ _ _ _ E1 E2); exact Hxy|exact IHl]]). }
      assert (Hmembers : forall c args l l', c_params c = c_params c0 -> c_members c = c_members c0 ->
                Forall2 (Forall2 (member_is (instance hs code) hs s c args)) l l' <-> Forall2 (Forall2 (member_is (instance hs code) hs s c0 args)) l l').
      { intros c1 args l l' E1 E2. split; (induction 1 as [|x y l l' Hxy Hl IHl]; [constructor|constructor; [|exact IHl]]);
          (clear - Hxy Hmember E1 E2; induction Hxy as [|a b x y Hab Hxy IHxy]; [constructor|constructor; [apply (Hmember _ _ _ _ E1 E2); exact Hab|exact IHxy]]). }
      rewrite Ep. intros x. split.
      + inversion 1 as [s' c' args fields oneofs fs' os' Hg' Hnd Hlen Hcode Hfs Hos]; subst.
        apply (code_message limit request hs s _ Hgen) in Hcode. destruct Hcode as (m'' & Hm'' & E). rewrite (message_unique _ _ _ _ Hlegal Hm'' Hm), Ecode in E.
        injection E as -> ->.
        destruct (generated_message _ _ _ _ _ Hwritten Hg') as (m3 & Hm3 & Hc'). rewrite (message_unique _ _ _ _ Hlegal Hm3 Hm) in Hc'.
        destruct (class_same _ _ _ _ Hc' Hc0) as [Ep' Em']. apply (Hfields _ _ _ _ Ep' Em') in Hfs. apply (Hmembers _ _ _ _ Ep' Em') in Hos.
        rewrite (proj1 (F2 _) Hfs), (proj1 (O2 _) Hos). reflexivity.
      + intros ->. apply instance_of with (c := c0) (fields := map (fun g => field_code (factory s g)) (filter direct (m_fields m)))
          (oneofs := map (map (fun g => field_code (factory s g))) (oneof_groups m)).
        * exact Hg0.
        * eapply generated_once; eassumption.
        * apply map_length.
        * apply (code_message limit request hs s _ Hgen). exists m. split; [exact Hm|symmetry; exact Ecode].
        * apply F2. reflexivity.
        * apply O2. reflexivity.
  Qed.

  Lemma all_agree s m : message request s m -> agrees s.
  Proof.
    intros Hm. pose proof (script_once _ _ _ Hlegal Hwritten) as Hnd.
    assert (Hin : In (Uses s) (script hs)).
    { destruct (message_generated _ _ _ _ _ Hwritten Hm) as (c & (h & top & Hh & Ht & Hc) & _). unfold script. apply in_concat. exists (header_script h).
      split; [apply in_map; exact Hh|]. unfold header_script. apply in_or_app. right. apply in_concat. eexists. split; [apply in_map; exact Ht|].
      eapply class_uses. exact Hc. }
    revert m Hm. refine (before_induction (script hs) (fun ev => match ev with Uses s => forall m, message request s m -> agrees s | Declared _ => True end) Hnd _ (Uses s) Hin).
    intros [p|x] Hx IH; [exact I|]. intros m Hm. apply class_agrees. intros T m' g Hm' Hg HT Hty.
    destruct (Hrefs _ _ _ T Hm' Hg) as [HmT _]. destruct (HmT Hty) as (mT & HmT'). apply (IH (Uses T)) with (m := mT); [|exact HmT'].
    eapply before_trans; [exact Hnd| |eapply request_order; try eassumption; left; exact Hty].
    destruct (written_sorted _ _ _ Hwritten) as (mss' & Hs' & E). rewrite E. eapply uses_declared; eassumption.
  Qed.
End Instance.

Lemma generated_schema limit request hs s m lengths :
  protoc_ok request -> supported request -> generate limit request = Some hs -> message request s m ->
  exists t, (forall t', declared request lengths s t' <-> t' = t)
    /\ forall c, generated hs s c -> forall t', instance hs (generate_code request) s (map lengths (c_params c)) t' <-> t' = t.
Proof.
  intros (Hl & Hi & Hrf & _) (Hcl & He & Hrec & Hno & H1 & H2) Hgen Hm. destruct (generate_written _ _ _ Hgen) as (mss & st & Hs & (Hr & Hma) & Hw).
  eapply (all_agree limit request hs st mss Hl Hi Hrf Hcl He Hgen Hs Hr Hma Hw Hrec Hno H1); [| |exact Hm|exact Hm]; intros; eapply H2; eassumption.
Qed.

(** ** The type is one that the properties of the messages are about *)

Lemma NoDup_concat_disjoint {A} (ls : list (list A)) : Forall (@NoDup A) ls -> (forall l1 l2 i j x, nth_error ls i = Some l1 -> nth_error ls j = Some l2 -> In x l1 -> In x l2 -> i = j) ->
  NoDup (concat ls).
Proof.
  induction ls as [|l ls IH]; intros Hf Hd; [constructor|]. cbn. inversion Hf as [|? ? Hl Hls]; subst. apply NoDup_app; [exact Hl| |].
  - apply IH; [exact Hls|]. intros l1 l2 i j x H1 H2 Hx1 Hx2. specialize (Hd l1 l2 (S i) (S j) x H1 H2 Hx1 Hx2). lia.
  - intros x Hx Hc. apply in_concat in Hc. destruct Hc as (l2 & Hl2 & Hx2). apply In_nth_error in Hl2. destruct Hl2 as (j & Hj).
    specialize (Hd l l2 0%nat (S j) x eq_refl Hj Hx Hx2). discriminate.
Qed.
Lemma NoDup_filter_concat {A} (l : list (list A)) (q : list A -> bool) : NoDup (concat l) -> NoDup (concat (filter q l)).
Proof.
  induction l as [|a l IH]; intros H; [exact H|]. cbn in H. cbn [filter]. destruct (q a).
  - cbn. apply NoDup_app; [eapply NoDup_app_remove_r; exact H|apply IH; eapply NoDup_app_remove_l; exact H|].
    intros x Hx Hc. assert (Hin : In x (concat l)).
    { apply in_concat in Hc. destruct Hc as (y & Hy & Hxy). apply filter_In in Hy. apply in_concat. exists y. split; [apply Hy|exact Hxy]. }
    clear - H Hx Hin. induction a as [|y a IHa]; [destruct Hx|]. cbn in H. inversion H; subst. destruct Hx as [->|Hx]; [apply H2; apply in_or_app; right; exact Hin|auto].
  - apply IH. eapply NoDup_app_remove_l. exact H.
Qed.
Lemma fields_nodup request s m : legal request -> message request s m -> NoDup (filter direct (m_fields m) ++ concat (oneof_groups m)).
Proof.
  intros Hl Hm. pose proof (legal_names _ (legal_message _ _ _ Hl Hm)) as Hn. apply NoDup_map_inv in Hn. set (fields := m_fields m) in *.
  apply NoDup_app.
  - apply NoDup_filter. exact Hn.
  - apply NoDup_filter_concat. apply NoDup_concat_disjoint.
    + apply Forall_forall. intros l H. apply in_map_iff in H. destruct H as (i & <- & _). apply NoDup_filter. exact Hn.
    + intros l1 l2 i j x H1 H2 Hx1 Hx2. apply nth_error_In in H1 as H1'. apply nth_error_In in H2 as H2'.
      assert (Hlt : forall k l, nth_error (map (fun i => filter (in_oneof i) fields) (seq 0 (oneof_count m))) k = Some l -> l = filter (in_oneof k) fields).
      { intros k l Hk. assert (Hk' : (k < oneof_count m)%nat) by (rewrite <- (seq_length (oneof_count m) 0), <- (map_length (fun i => filter (in_oneof i) fields)); apply nth_error_Some; congruence).
        erewrite map_nth_error in Hk; [injection Hk as <-; reflexivity|]. rewrite (nth_error_nth' _ 0%nat) by (rewrite seq_length; exact Hk'). rewrite seq_nth by exact Hk'. reflexivity. }
      rewrite (Hlt _ _ H1) in Hx1. rewrite (Hlt _ _ H2) in Hx2. apply filter_In in Hx1, Hx2. destruct Hx1 as [_ Hx1], Hx2 as [_ Hx2]. unfold in_oneof in *.
      destruct (pf_oneof x); [|discriminate]. lia.
  - intros x H1 H2. apply filter_In in H1. destruct H1 as [_ H1]. apply in_concat in H2. destruct H2 as (l & H2 & Hx). unfold oneof_groups in H2.
    apply filter_In in H2. destruct H2 as [H2 _]. apply in_map_iff in H2. destruct H2 as (i & <- & _). apply filter_In in Hx. destruct Hx as [_ Hx].
    unfold direct, in_oneof in *. destruct (pf_oneof x); [|discriminate]. rewrite H1 in Hx. lia.
Qed.
Lemma group_in m l g : In l (oneof_groups m) -> In g l -> In g (m_fields m).
Proof.
  intros Hl Hg. unfold oneof_groups in Hl. apply filter_In in Hl. destruct Hl as [Hl _]. apply in_map_iff in Hl. destruct Hl as (i & <- & _).
  apply filter_In in Hg. apply Hg.
Qed.

Lemma declared_numbers request lengths s m fs os :
  Forall2 (declared_field (declared request) lengths s m) (filter direct (m_fields m)) fs ->
  Forall2 (Forall2 (declared_member (declared request) lengths m)) (oneof_groups m) os ->
  field_numbers fs os = map pf_number (filter direct (m_fields m) ++ concat (oneof_groups m)).
Proof.
  intros Hf Ho. unfold field_numbers. rewrite map_app. f_equal.
  - induction Hf as [|g d l l' Hd Hl IH]; [reflexivity|]. cbn [map]. rewrite IH. f_equal. inversion Hd; reflexivity.
  - induction Ho as [|g d l l' Hd Hl IH]; [reflexivity|]. cbn [flat_map concat]. rewrite map_app, IH. f_equal. clear - Hd.
    induction Hd as [|a b l l' Ha Hl IH]; [reflexivity|]. cbn [map]. rewrite IH. f_equal. inversion Ha; reflexivity.
Qed.

Lemma declared_ok request : protoc_ok request -> forall t lengths s, (forall p, capacity_ok (lengths p)) -> declared request lengths s t -> desc_ok t.
Proof.
  intros (Hl & _ & _ & Hnum & Hlen). induction t as [sc|st max|fs os Hf Ho] using ety_ind'; intros lengths s Hcap Hd; [exact I|inversion Hd|].
  inversion Hd as [lengths' s' m fs' os' Hm Hfs Hos]; subst. cbn [desc_ok].
  assert (Hgiven : forall g what, In g (m_fields m) -> capacity_ok (length_given lengths m g what)).
  { intros g what Hg. unfold length_given. pose proof (Hlen _ _ _ Hm Hg) as H. destruct (pf_max g =? 0) eqn:E; [apply Hcap|unfold capacity_ok; lia]. }
  assert (Htype : forall g e, In g (m_fields m) -> declared_type (declared request) lengths m g e ->
            (forall lengths' s', (forall p, capacity_ok (lengths' p)) -> declared request lengths' s' e -> desc_ok e) -> desc_ok e).
  { intros g e Hg He IH. inversion He; subst; try exact I; try (apply Hgiven; exact Hg). eapply IH; [|eassumption]. intros p. apply Hcap. }
  split; [|split; [|split]].
  - rewrite (declared_numbers _ _ _ _ _ _ Hfs Hos). destruct (Hnum _ _ Hm) as [Hn _]. pose proof (fields_nodup _ _ _ Hl Hm) as Hnd.
    assert (Hin : incl (filter direct (m_fields m) ++ concat (oneof_groups m)) (m_fields m)).
    { intros x Hx. apply in_app_or in Hx. destruct Hx as [Hx|Hx]; [apply filter_In in Hx; apply Hx|]. apply in_concat in Hx. destruct Hx as (l & Hx & Hxl). eapply group_in; eassumption. }
    clear - Hn Hnd Hin. induction (filter direct (m_fields m) ++ concat (oneof_groups m)) as [|x l IH]; [constructor|]. cbn. inversion Hnd as [|? ? Hx Hl]; subst.
    constructor; [|apply IH; [exact Hl|intros y Hy; apply Hin; right; exact Hy]]. intros H. apply in_map_iff in H. destruct H as (y & E & Hy).
    assert (y = x); [|subst y; contradiction]. assert (Hx' : In x (m_fields m)) by (apply Hin; left; reflexivity). assert (Hy' : In y (m_fields m)) by (apply Hin; right; exact Hy).
    clear - Hn Hx' Hy' E. induction (m_fields m) as [|a l IH]; [destruct Hx'|]. cbn in Hn. inversion Hn as [|? ? Ha Hl]; subst. destruct Hx' as [->|Hx'], Hy' as [->|Hy'].
    + reflexivity.
    + exfalso. apply Ha. rewrite <- E. apply in_map. exact Hy'.
    + exfalso. apply Ha. rewrite E. apply in_map. exact Hx'.
    + apply IH; assumption.
  - rewrite (declared_numbers _ _ _ _ _ _ Hfs Hos). apply all_Forall. destruct (Hnum _ _ Hm) as [_ Hn]. rewrite Forall_forall in Hn. apply Forall_forall.
    intros x Hx. apply in_map_iff in Hx. destruct Hx as (g & <- & Hg). apply Hn. apply in_app_or in Hg. destruct Hg as [Hg|Hg]; [apply filter_In in Hg; apply Hg|].
    apply in_concat in Hg. destruct Hg as (l & Hg & Hgl). eapply group_in; eassumption.
  - apply all_Forall. apply Forall_forall. intros [[num k] e] Hin. destruct (Forall2_In_r _ _ _ _ Hfs Hin) as (g & Hg & Hdf). apply filter_In in Hg. destruct Hg as [Hg _].
    rewrite Forall_forall in Hf. pose proof (Hf _ Hin) as IH. cbn in IH. inversion Hdf; subst.
    + split; [|exact I]. cbn. split; [constructor|]. auto.
    + split; [eapply Htype; eassumption|]. apply Hgiven. exact Hg.
    + split; [eapply Htype; eassumption|]. destruct (pf_optional g); exact I.
  - apply all_Forall. apply Forall_forall. intros l Hin. apply all_Forall. apply Forall_forall. intros [num e] Hl'.
    destruct (Forall2_In_r _ _ _ _ Hos Hin) as (gs & Hgs & Hdl). destruct (Forall2_In_r _ _ _ _ Hdl Hl') as (g & Hg & Hdm). inversion Hdm; subst.
    rewrite Forall_forall in Ho. pose proof (Ho _ Hin) as IH. rewrite Forall_forall in IH. specialize (IH _ Hl'). cbn in IH.
    eapply Htype; [eapply group_in; eassumption|eassumption|exact IH].
Qed.

(** ** From the .proto file to the bytes *)

Lemma instance_declared limit request hs s c lengths t :
  protoc_ok request -> supported request -> generate limit request = Some hs -> generated hs s c -> (forall p, capacity_ok (lengths p)) ->
  instance hs (generate_code request) s (map lengths (c_params c)) t -> declared request lengths s t /\ desc_ok t.
Proof.
  intros Hp Hs Hgen Hg Hcap Hi. destruct (generate_written _ _ _ Hgen) as (mss & st & _ & _ & Hw).
  destruct (generated_message _ _ _ _ _ Hw Hg) as (m & Hm & _).
  destruct (generated_schema limit request hs s m lengths Hp Hs Hgen Hm) as (t0 & H1 & H2). apply (H2 c Hg) in Hi. subst t0.
  pose proof (proj2 (H1 t) eq_refl) as Hd. split; [exact Hd|]. eapply declared_ok; eassumption.
Qed.
