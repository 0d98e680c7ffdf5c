(** * GenTypes: template parameters and the types of the member variables. *)
From Coq Require Import String.
From Verif Require Import Base Schema Printf Generator SpecGenerator GenOrder GenSort GenReg GenRender.
From Coq Require Import List Permutation ZifyBool ZifyNat Lia.

Definition below (t t' : path -> option (list text)) : Prop := forall p ps, t p = Some ps -> t' p = Some ps.

Lemma class_params_below t t' f c ps : below t t' -> class_params t f c = Some ps -> class_params t' f c = Some ps.
Proof.
  intros Hb. revert ps. induction c as [sc|max|max|ref|ref|max c IH|]; cbn [class_params]; intros ps H; try exact H.
  - destruct (t ref) as [qs|] eqn:E; [|discriminate]. rewrite (Hb _ _ E). exact H.
  - destruct (class_params t f c) as [qs|] eqn:E; [|discriminate]. rewrite (IH _ eq_refl). exact H.
Qed.
Lemma templates_S limit st : below (templates limit st) (templates (S limit) st).
Proof.
  induction limit as [|limit IH]; intros p ps H; [discriminate|]. cbn [templates] in H |- *.
  destruct (sequence _) as [pss|] eqn:E in H; [|discriminate]. apply sequence_map in E.
  assert (E' : sequence (map (fun f => class_params (templates (S limit) st) f (f_class f)) (registered (st p))) = Some pss).
  { apply sequence_spec. clear H. induction E as [|f qs fs qss Hq E IHE]; [reflexivity|]. cbn. f_equal; [|exact IHE].
    eapply class_params_below; [exact IH|exact Hq]. }
  cbn [templates] in E'. rewrite E'. exact H.
Qed.

(** What a field uses, it declares. *)
Lemma class_type_params t t' scope f c ps ty : below t t' -> class_params t f c = Some ps -> class_type t' scope f c = Some ty ->
  incl (params_used ty) ps.
Proof.
  intros Hb. revert ps ty. induction c as [sc|max|max|ref|ref|max c IH|]; cbn [class_params class_type]; intros ps ty Hp Ht.
  - injection Ht as <-. apply incl_nil_l.
  - injection Ht as <-. injection Hp as <-. unfold length_of. destruct (max =? 0); apply incl_refl.
  - injection Ht as <-. injection Hp as <-. unfold length_of. destruct (max =? 0); apply incl_refl.
  - destruct (enum_scopes_ok t' ref scope); [|discriminate]. injection Ht as <-. apply incl_nil_l.
  - destruct (t ref) as [qs|] eqn:E; [|discriminate]. rewrite (Hb _ _ E) in Ht. cbn in Ht, Hp. injection Ht as <-. injection Hp as <-. apply incl_refl.
  - destruct (class_params t f c) as [qs|]; [|discriminate]. destruct (class_type t' scope f c) as [e|]; [|discriminate].
    cbn in Ht, Hp. injection Ht as <-. injection Hp as <-. cbn [params_used]. apply incl_app.
    + apply incl_appr. apply IH; reflexivity.
    + apply incl_appl. unfold length_of. destruct (max =? 0); apply incl_refl.
  - discriminate.
Qed.

Lemma class_member t s m c f : class_of t s m c -> In f (msg_fields s m) -> f_class f <> FieldErrorRecursive ->
  exists ty, class_type t s f (f_class f) = Some ty /\ In (f_name f, ty) (c_members c).
Proof.
  intros (_ & _ & mss & Hm & ->) Hf Hr. apply sequence_map in Hm. destruct (Forall2_In_l _ _ _ _ Hm Hf) as (ms & Hi & E).
  unfold member in E. destruct (f_class f) eqn:Ec; try contradiction;
    (destruct (class_type t s f _) as [ty|]; [|discriminate]; cbn in E; injection E as <-;
     exists ty; split; [reflexivity|]; apply in_concat; eexists; split; [exact Hi|left; reflexivity]).
Qed.
Lemma member_class t s m c n ty : class_of t s m c -> In (n, ty) (c_members c) ->
  exists f, In f (msg_fields s m) /\ n = f_name f /\ f_class f <> FieldErrorRecursive /\ class_type t s f (f_class f) = Some ty.
Proof.
  intros (_ & _ & mss & Hm & ->) Hi. apply in_concat in Hi. destruct Hi as (ms & Hms & Hi). apply sequence_map in Hm.
  destruct (Forall2_In_r _ _ _ _ Hm Hms) as (f & Hf & E). exists f. split; [exact Hf|]. unfold member in E.
  destruct (f_class f) eqn:Ec; try (injection E as <-; destruct Hi; fail);
    (destruct (class_type t s f _) as [ty'|]; [|discriminate]; cbn in E; injection E as <-;
     destruct Hi as [Hi|[]]; injection Hi as <- <-; repeat split; discriminate).
Qed.

Lemma msg_legal_inside p m s m' : inside p m s m' -> msg_legal m -> msg_legal m'.
Proof.
  induction 1 as [p m|p n nested enums fields oneofs a s m' Ha H IH]; intros Hl; [exact Hl|].
  apply IH. cbn [msg_legal] in Hl. destruct Hl as (_ & _ & _ & _ & _ & Hl). clear - Hl Ha.
  induction nested as [|b l IHl]; [destruct Ha|]. destruct Hl as [H1 H2]. destruct Ha as [->|Ha]; [exact H1|apply IHl; assumption].
Qed.
Lemma legal_message request s m : legal request -> message request s m -> msg_legal m.
Proof.
  intros (H & _) (f & Hf & top & Ht & Hi). rewrite Forall_forall in H. destruct (H f Hf) as (_ & _ & Hm).
  rewrite Forall_forall in Hm. eapply msg_legal_inside; [exact Hi|apply Hm; exact Ht].
Qed.
Lemma legal_oneofs m : msg_legal m -> oneofs_ok (m_fields m) (m_oneofs m).
Proof. destruct m. cbn. intuition. Qed.
Lemma legal_names m : msg_legal m -> NoDup (map pf_name (m_fields m)).
Proof. destruct m. cbn. intuition. Qed.
Lemma field_in request s m g : legal request -> message request s m -> In g (m_fields m) -> In (factory s g) (msg_fields s m).
Proof.
  intros Hl Hm Hg. rewrite <- (message_scope _ _ _ Hm). apply msg_fields_In; [apply legal_oneofs; eapply legal_message; eassumption|].
  exists g. split; [exact Hg|reflexivity].
Qed.
Lemma in_field request s m f : message request s m -> In f (msg_fields s m) -> exists g, In g (m_fields m) /\ f = factory s g.
Proof. intros Hm Hf. apply d_fields_sub in Hf. rewrite (message_scope _ _ _ Hm) in Hf. exact Hf. Qed.
Lemma refers_to_spec g s : refers_to g s = true <-> refers g s.
Proof.
  unfold refers_to, refers. destruct (pf_type g) as [sc| | |r|r]; try (split; [discriminate|intros [H|H]; discriminate]); rewrite path_eqb_eq; split.
  - intros ->. right. reflexivity.
  - intros [H|H]; congruence.
  - intros ->. left. reflexivity.
  - intros [H|H]; congruence.
Qed.
Lemma factory_plain s g : ~ refers g s -> f_class (factory s g) = if pf_repeated g then FieldRepeated (pf_max g) (single_factory g) else single_factory g.
Proof. intros H. unfold factory. cbn [f_class]. rewrite <- refers_to_spec in H. destruct (refers_to g s); [contradiction|reflexivity]. Qed.
Lemma factory_recursive s g : refers g s -> f_class (factory s g) = FieldErrorRecursive.
Proof. intros H. unfold factory. cbn [f_class]. apply refers_to_spec in H. rewrite H. reflexivity. Qed.
Lemma class_params_prefix t f c ps : class_params t f c = Some ps -> Forall (fun x => exists r, x = param_prefix f ++ r) ps.
Proof.
  revert ps. induction c as [sc|max|max|ref|ref|max c IH|]; cbn [class_params]; intros ps H; try (injection H as <-; constructor; fail).
  - injection H as <-. destruct (max =? 0); [constructor; [eexists; reflexivity|constructor]|constructor].
  - injection H as <-. destruct (max =? 0); [constructor; [eexists; reflexivity|constructor]|constructor].
  - destruct (t ref) as [qs|]; [|discriminate]. cbn in H. injection H as <-. apply Forall_forall. intros x Hx. apply in_map_iff in Hx.
    destruct Hx as (y & <- & _). eexists. reflexivity.
  - destruct (class_params t f c) as [qs|]; [|discriminate]. cbn in H. injection H as <-. apply Forall_app. split; [|apply IH; reflexivity].
    destruct (max =? 0); [constructor; [eexists; reflexivity|constructor]|constructor].
Qed.

Section Request.
  Variables (limit : nat) (request : list pfile) (hs : list header) (st : regs) (mss : list (list pmsg)).
  Let t := templates limit st.
  Let ds := concat (map (fun '(f, ms) => map (define (p_package f)) ms) (combine request mss)).
  Hypothesis Hlegal : legal request.
  Hypothesis Hsorted : Forall2 sorted_file request mss.
  Hypothesis Hruns : runs ds no_regs st.
  Hypothesis Hmatch : Forall (fun d => match_all (concat (map all_messages ds))
                            (concat (map (fun f => map (fun e => p_package f ++ [e]) (p_enums f)) request) ++ concat (map all_enums ds)) d = true) ds.
  Hypothesis Hwritten : Forall2 (written t) request hs.

  Lemma reg_of s m : message request s m -> let fs := filter (needs_in s st) (msg_fields s m) in
    st s = {| all_registered := true; contains_templates := some fs; registered := fs |}.
  Proof. exact (registered_all request mss st Hlegal Hsorted Hruns s m). Qed.

  Lemma all_messages_message p : In p (concat (map all_messages ds)) -> exists m, message request p m.
  Proof.
    intros H. apply in_concat in H. destruct H as (l & Hl & H). apply in_map_iff in Hl. destruct Hl as (d & <- & Hd).
    rewrite all_messages_defs in H. apply in_map_iff in H. destruct H as (d' & <- & Hd').
    destruct (sorted_def _ _ Hsorted _ _ Hd Hd') as (s & m & order & Hm & ->). exists m.
    rewrite d_scope_define, sort_pmsg_name, (message_scope _ _ _ Hm). exact Hm.
  Qed.

  Lemma match_all_defs messages enums d : match_all messages enums d = true -> forall d', In d' (all_defs d) ->
    forall f, In f (d_fields d') -> matches messages enums (f_class f) = true.
  Proof.
    induction d as [scope nested es fields oneofs IH] using mdef_induction. cbn [match_all all_defs]. intros H d' Hd' f Hf.
    apply andb_true_iff in H. destruct H as [H1 H2]. rewrite forallb_forall in H1, H2. rewrite Forall_forall in IH.
    apply in_app_or in Hd'. destruct Hd' as [Hd'|[<-|[]]].
    - apply in_concat in Hd'. destruct Hd' as (l & Hl & Hd'). apply in_map_iff in Hl. destruct Hl as (a & <- & Ha). eapply IH; eauto.
    - apply H2. exact Hf.
  Qed.
  Lemma field_matches s m f : message request s m -> In f (msg_fields s m) ->
    matches (concat (map all_messages ds)) (concat (map (fun f => map (fun e => p_package f ++ [e]) (p_enums f)) request) ++ concat (map all_enums ds)) (f_class f) = true.
  Proof.
    intros Hm Hf. destruct (def_sorted _ _ Hsorted _ _ Hm) as (order & Hd). fold ds in Hd. apply in_concat in Hd.
    destruct Hd as (l & Hl & Hd). apply in_map_iff in Hl. destruct Hl as (d & <- & Hd0). rewrite Forall_forall in Hmatch.
    eapply match_all_defs; [apply Hmatch; exact Hd0|exact Hd|].
    change (In f (msg_fields s (sort_pmsg order (removelast s) m))). rewrite msg_fields_sorted. exact Hf.
  Qed.
  Lemma matched_message s m f ref : message request s m -> In f (msg_fields s m) ->
    f_class f = FieldMessage ref \/ (exists max, f_class f = FieldRepeated max (FieldMessage ref)) -> exists m', message request ref m'.
  Proof.
    intros Hm Hf Hc. pose proof (field_matches s m f Hm Hf) as H.
    assert (H' : existsb (path_eqb ref) (concat (map all_messages ds)) = true) by (destruct Hc as [Hc|[max Hc]]; rewrite Hc in H; exact H).
    apply existsb_exists in H'. destruct H' as (p & Hp & E). apply path_eqb_eq in E. subst p. apply all_messages_message. exact Hp.
  Qed.

  Lemma params_of s m c : message request s m -> class_of t s m c ->
    exists l pss, limit = S l /\ c_params c = concat pss
      /\ Forall2 (fun f ps => class_params (templates l st) f (f_class f) = Some ps) (filter (needs_in s st) (msg_fields s m)) pss.
  Proof.
    intros Hm (Hp & _). unfold t in Hp. destruct limit as [|l]; [discriminate|]. cbn [templates] in Hp.
    rewrite (reg_of s m Hm) in Hp. cbn [registered] in Hp. destruct (sequence _) as [pss|] eqn:E; [|discriminate].
    cbn in Hp. injection Hp as Hp. apply sequence_map in E. exists l, pss. split; [reflexivity|]. split; [symmetry; exact Hp|exact E].
  Qed.
  Lemma no_templates ref m : message request ref m -> contains_templates (st ref) = false -> forall ps, t ref = Some ps -> ps = [].
  Proof.
    intros Hm Hc ps Hp. unfold t in Hp. destruct limit as [|l]; [discriminate|]. cbn [templates] in Hp.
    rewrite (reg_of ref m Hm) in Hp, Hc. cbn [registered contains_templates] in Hp, Hc.
    destruct (filter (needs_in ref st) (msg_fields ref m)); [|discriminate]. cbn in Hp. congruence.
  Qed.

  Lemma t_message s m : message request s m -> exists c, generated hs s c /\ class_of t s m c /\ t s = Some (c_params c).
  Proof.
    intros Hm. destruct (message_generated _ _ _ _ _ Hwritten Hm) as (c & Hg & Hc). exists c. split; [exact Hg|]. split; [exact Hc|].
    apply Hc.
  Qed.
  Lemma params_nonempty s m f : message request s m -> In f (msg_fields s m) -> needs_in s st f = true ->
    (forall l ps, limit = S l -> class_params (templates l st) f (f_class f) = Some ps -> ps <> []) ->
    forall ps, t s = Some ps -> ps <> [].
  Proof.
    intros Hm Hf Hn Hne ps Hps. destruct (t_message s m Hm) as (c & _ & Hc & Et). rewrite Hps in Et. injection Et as ->.
    destruct (params_of s m c Hm Hc) as (l & pss & El & -> & Hp).
    assert (Hin : In f (filter (needs_in s st) (msg_fields s m))) by (apply filter_In; split; assumption).
    destruct (Forall2_In_l _ _ _ _ Hp Hin) as (qs & Hq & Eq). pose proof (Hne l qs El Eq) as Hqs.
    intros E. apply Hqs. destruct qs as [|q qs]; [reflexivity|]. exfalso. apply (in_nil (a := q)). rewrite <- E. apply in_concat.
    eexists. split; [exact Hq|left; reflexivity].
  Qed.
  Lemma templated_params s : templated request s -> forall ps, t s = Some ps -> ps <> [].
  Proof.
    induction 1 as [s m g Hm Hg Hmax Hr Hty|s m g T Hm Hg Hrep Hty HT Htm IH].
    - apply (params_nonempty s m (factory s g) Hm (field_in _ _ _ _ Hlegal Hm Hg)).
      + unfold needs_in, needs. rewrite (factory_plain _ _ Hr). unfold single_factory. destruct (pf_repeated g).
        * rewrite Hmax. reflexivity.
        * destruct Hty as [->|[->|H]]; [rewrite Hmax; reflexivity|rewrite Hmax; reflexivity|discriminate].
      + intros l ps _ E. rewrite (factory_plain _ _ Hr) in E. unfold single_factory in E. destruct (pf_repeated g).
        * cbn [class_params] in E. rewrite Hmax in E. destruct (class_params _ _ _); [|discriminate]. cbn in E. injection E as <-. discriminate.
        * destruct Hty as [Ht|[Ht|H]]; [| |discriminate]; rewrite Ht in E; cbn [class_params] in E; rewrite Hmax in E; injection E as <-; discriminate.
    - assert (HTs : T <> s) by (intros ->; apply HT, prefix_refl). assert (Hr : ~ refers g s) by (intros [H|H]; congruence).
      pose proof (factory_plain _ _ Hr) as Ec. rewrite Hrep in Ec. unfold single_factory in Ec. rewrite Hty in Ec.
      pose proof (field_in _ _ _ _ Hlegal Hm Hg) as Hf.
      destruct (matched_message s m _ T Hm Hf (or_introl Ec)) as [m' Hm'].
      destruct (t_message T m' Hm') as (c' & _ & _ & Et).
      apply (params_nonempty s m (factory s g) Hm Hf).
      + unfold needs_in. rewrite Ec. assert (Hno : around T s = false) by (destruct (around T s) eqn:Ea; [exfalso; apply HT, around_spec; exact Ea|reflexivity]).
        rewrite Hno. destruct (contains_templates (st T)) eqn:E; [reflexivity|].
        exfalso. apply (IH _ Et). apply (no_templates T m' Hm' E). exact Et.
      + intros l ps El E. rewrite Ec in E. cbn [class_params] in E. destruct (templates l st T) as [qs|] eqn:Eq; [|discriminate].
        cbn in E. injection E as <-. assert (Hq : t T = Some qs) by (unfold t; rewrite El; apply templates_S; exact Eq).
        apply IH in Hq. destruct qs; [contradiction|discriminate].
  Qed.
  Lemma params_templated : forall l s m ps, message request s m -> templates l st s = Some ps -> ps <> [] -> templated request s.
  Proof.
    induction l as [|l IH]; intros s m ps Hm Hps Hne; [discriminate|]. cbn [templates] in Hps.
    rewrite (reg_of s m Hm) in Hps. cbn [registered] in Hps. destruct (sequence _) as [pss|] eqn:E; [|discriminate].
    cbn in Hps. injection Hps as <-. apply sequence_map in E.
    assert (Hx : exists x, In x (concat pss)) by (destruct (concat pss) as [|x l']; [contradiction|exists x; left; reflexivity]).
    destruct Hx as [x Hx]. apply in_concat in Hx. destruct Hx as (qs & Hq & Hx).
    destruct (Forall2_In_r _ _ _ _ E Hq) as (f & Hf & Ef). apply filter_In in Hf. destruct Hf as [Hf Hn].
    pose proof (matched_message s m f) as Hmm. specialize (fun ref => Hmm ref Hm Hf).
    destruct (in_field _ _ _ _ Hm Hf) as (g & Hg & Eg). subst f.
    assert (Hr : ~ refers g s) by (intros Hr; rewrite (factory_recursive _ _ Hr) in Ef; cbn in Ef; injection Ef as <-; destruct Hx).
    unfold needs_in, needs in Hn. rewrite (factory_plain _ _ Hr) in *. destruct (pf_repeated g) eqn:Erep.
    - apply (templated_length request s m g Hm Hg); [lia|exact Hr|auto].
    - unfold single_factory in *. destruct (pf_type g) as [sc| | |ref|ref] eqn:Ety; try discriminate.
      + apply (templated_length request s m g Hm Hg); [lia|exact Hr|auto].
      + apply (templated_length request s m g Hm Hg); [lia|exact Hr|auto].
      + destruct (Hmm ref (or_introl eq_refl)) as [m' Hm']. cbn [class_params] in Ef.
        destruct (templates l st ref) as [rs|] eqn:Er; [|discriminate]. cbn in Ef. injection Ef as <-.
        apply andb_true_iff in Hn. destruct Hn as [Hn _]. apply (templated_field request s m g ref Hm Hg Erep Ety); [intros Hp; apply around_spec in Hp; rewrite Hp in Hn; discriminate|].
        apply (IH ref m' rs Hm' Er). destruct rs; [destruct Hx|discriminate].
  Qed.
  Lemma template_iff s c : generated hs s c -> (c_params c <> [] <-> templated request s).
  Proof.
    intros Hg. destruct (generated_message _ _ _ _ _ Hwritten Hg) as (m & Hm & Hc). destruct Hc as (Et & _). split; intros H.
    - apply (params_templated limit s m _ Hm Et H).
    - apply (templated_params s H _ Et).
  Qed.

  Lemma params_declared s m c f ty : message request s m -> class_of t s m c -> In f (msg_fields s m) ->
    class_type t s f (f_class f) = Some ty -> (forall n a args max, ty <> TyRep (TyMsg n (a :: args)) (LConst max)) ->
    (forall ref, f_class f = FieldMessage ref -> templated request ref -> ~ prefix ref s) -> incl (params_used ty) (c_params c).
  Proof.
    intros Hm Hc Hf Ht Hex Hout. destruct (params_of s m c Hm Hc) as (l & pss & El & -> & Hp).
    assert (Hbelow : below (templates l st) t) by (unfold t; rewrite El; apply templates_S).
    destruct (needs_in s st f) eqn:En.
    - assert (Hin : In f (filter (needs_in s st) (msg_fields s m))) by (apply filter_In; split; assumption).
      destruct (Forall2_In_l _ _ _ _ Hp Hin) as (ps & Hps & Ep).
      intros x Hx. apply in_concat. exists ps. split; [exact Hps|]. eapply class_type_params; eassumption.
    - assert (Hnil : params_used ty = []); [|rewrite Hnil; apply incl_nil_l].
      pose proof (matched_message s m f) as Hmm. specialize (fun ref => Hmm ref Hm Hf).
      unfold needs_in, needs in En. apply (d_fields_sub (removelast s) m) in Hf. destruct Hf as (g & Hg & Ef).
      destruct (f_class f) as [sc|max|max|ref|ref|max c'|] eqn:Ec; cbn [class_type] in Ht.
      + injection Ht as <-. reflexivity.
      + injection Ht as <-. unfold length_of. rewrite En. reflexivity.
      + injection Ht as <-. unfold length_of. rewrite En. reflexivity.
      + destruct (enum_scopes_ok t ref s); [|discriminate]. injection Ht as <-. reflexivity.
      + cbn [class_params] in Ht. destruct (t ref) as [ps|] eqn:Er; [|discriminate]. cbn in Ht. injection Ht as <-.
        destruct (Hmm ref (or_introl eq_refl)) as [m' Hm'].
        assert (Hps : ps = []); [|rewrite Hps; reflexivity]. destruct (around ref s) eqn:Ea; cbn [negb andb] in En.
        * destruct ps as [|p0 ps]; [reflexivity|]. exfalso. apply (Hout ref eq_refl); [|apply around_spec; exact Ea].
          apply (params_templated limit ref m' _ Hm' Er). discriminate.
        * exact (no_templates ref m' Hm' En ps Er).
      + destruct (class_type t s f c') as [e|] eqn:Ee; [|discriminate]. cbn in Ht. unfold length_of in Ht. rewrite En in Ht. injection Ht as <-.
        cbn [params_used length_params]. rewrite app_nil_r.
        assert (Hc' : c' = single_factory g /\ pf_max g = max).
        { rewrite Ef in Ec. unfold factory in Ec. cbn [f_class] in Ec. destruct (refers_to g _); [discriminate|].
          destruct (pf_repeated g); [injection Ec as <- <-; split; reflexivity|]. unfold single_factory in Ec. destruct (pf_type g); discriminate. }
        destruct Hc' as [-> Hmax]. unfold single_factory in Ee. rewrite Hmax in Ee.
        destruct (pf_type g) as [sc| | |ref|ref]; cbn [class_type] in Ee.
        * injection Ee as <-. reflexivity.
        * injection Ee as <-. unfold length_of. rewrite En. reflexivity.
        * injection Ee as <-. unfold length_of. rewrite En. reflexivity.
        * destruct (enum_scopes_ok t ref s); [|discriminate]. injection Ee as <-. reflexivity.
        * destruct (class_params t f (FieldMessage ref)) as [args|]; [|discriminate]. cbn in Ee. injection Ee as <-.
          destruct args as [|a args]; [reflexivity|]. exfalso. eapply Hex. reflexivity.
      + discriminate.
  Qed.

  (** *** Arguments *)

  Lemma arguments s m g T : message request s m -> In g (m_fields m) -> pf_type g = PMessage T -> T <> s ->
    exists c cT args, generated hs s c /\ class_of t s m c /\ generated hs T cT
      /\ args = map (app (param_prefix (factory s g))) (c_params cT)
      /\ In (pf_name g, if pf_repeated g then TyRep (TyMsg (reduced_scope T s) args) (length_of (factory s g) (pf_max g) (chars "REP_LENGTH"))
                        else TyMsg (reduced_scope T s) args) (c_members c).
  Proof.
    intros Hm Hg Hty HT. assert (Hr : ~ refers g s) by (intros [H|H]; congruence).
    pose proof (field_in _ _ _ _ Hlegal Hm Hg) as Hf. pose proof (factory_plain _ _ Hr) as Ec. unfold single_factory in Ec. rewrite Hty in Ec.
    destruct (t_message s m Hm) as (c & Hgc & Hc & _).
    assert (Hmm : exists m', message request T m').
    { apply (matched_message s m (factory s g) T Hm Hf). destruct (pf_repeated g); [right; eexists; exact Ec|left; exact Ec]. }
    destruct Hmm as [m' Hm']. destruct (t_message T m' Hm') as (cT & HgT & _ & Et).
    destruct (class_member t s m c (factory s g) Hc Hf) as (ty & Hty' & Hin); [rewrite Ec; destruct (pf_repeated g); discriminate|].
    exists c, cT, (map (app (param_prefix (factory s g))) (c_params cT)). split; [exact Hgc|]. split; [exact Hc|]. split; [exact HgT|]. split; [reflexivity|].
    rewrite Ec in Hty'. destruct (pf_repeated g); cbn [class_type class_params] in Hty'; rewrite Et in Hty'; cbn in Hty'; injection Hty' as <-; exact Hin.
  Qed.

  Lemma undeclared s m g T : message request s m -> In g (m_fields m) ->
    (pf_repeated g = true /\ pf_max g <> 0 \/ pf_repeated g = false /\ prefix T s) ->
    pf_type g = PMessage T -> T <> s -> templated request T -> no_clash m ->
    exists c ty p, generated hs s c /\ In (pf_name g, ty) (c_members c) /\ In p (params_used ty) /\ ~ In p (c_params c).
  Proof.
    intros Hm Hg Hcase Hty HT Htm Hcl. destruct (arguments s m g T Hm Hg Hty HT) as (c & cT & args & Hgc & Hc & HgT & Ea & Hin).
    pose proof (proj2 (template_iff T cT HgT) Htm) as Hne.
    destruct (c_params cT) as [|q qs] eqn:Eq; [contradiction|].
    eexists c, _, (param_prefix (factory s g) ++ q). split; [exact Hgc|]. split; [exact Hin|]. split.
    - destruct (pf_repeated g); cbn [params_used]; [apply in_or_app; left|]; rewrite Ea; left; reflexivity.
    - intros Hp. destruct (params_of s m c Hm Hc) as (l & pss & El & E & HF). rewrite E in Hp. apply in_concat in Hp.
      destruct Hp as (ps & Hps & Hp). destruct (Forall2_In_r _ _ _ _ HF Hps) as (f & Hf & Ef). apply filter_In in Hf. destruct Hf as [Hf Hn].
      apply class_params_prefix in Ef. rewrite Forall_forall in Ef. destruct (Ef _ Hp) as [r Er].
      destruct (in_field _ _ _ _ Hm Hf) as (g' & Hg' & ->).
      unfold param_prefix, factory in Er. cbn [f_parent f_name] in Er. rewrite <- !app_assoc in Er. apply app_inv_head in Er. apply app_inv_head in Er.
      assert (En : pf_name g = pf_name g').
      { rewrite !app_assoc in Er. apply app_eq_app in Er. destruct Er as (w & [[E1 _]|[E1 _]]).
        - symmetry. apply (Hcl g' g w Hg' Hg). rewrite E1, <- app_assoc. reflexivity.
        - apply (Hcl g g' w Hg Hg'). rewrite E1, <- app_assoc. reflexivity. }
      assert (Egg : g = g').
      { pose proof (legal_names m (legal_message _ _ _ Hlegal Hm)) as Hnd. clear - Hnd Hg Hg' En. induction (m_fields m) as [|x l IH]; [destruct Hg|].
        cbn in Hnd. inversion Hnd as [|? ? Hx Hl]; subst. destruct Hg as [->|Hg], Hg' as [->|Hg']; [reflexivity| | |auto].
        - exfalso. apply Hx. rewrite En. apply in_map. exact Hg'.
        - exfalso. apply Hx. rewrite <- En. apply in_map. exact Hg. }
      subst g'. unfold needs_in, needs in Hn. assert (Hr : ~ refers g s) by (intros [H|H]; congruence).
      rewrite (factory_plain _ _ Hr) in Hn. destruct Hcase as [[Hrep Hmax]|[Hrep Hpre]]; rewrite Hrep in Hn; [lia|].
      unfold single_factory in Hn. rewrite Hty in Hn. apply around_spec in Hpre. rewrite Hpre in Hn. discriminate.
  Qed.
End Request.
