(** * GenInstanceSamples: a request for the examples beside the theorems of PropertiesInstance. *)
From Coq Require Import String.
From Verif Require Import Base Schema Spec Printf Generator GenCode SpecGenerator SpecInstance GenOrder GenTypes GenProps GenSamples.
From Coq Require Import List ZifyBool ZifyNat Lia.
Local Open Scope string_scope.

Definition field_no (n : string) (num : Z) (t : ptype) (rep : bool) (max : Z) : pfield :=
  {| pf_name := chars n; pf_number := num; pf_type := t; pf_repeated := rep; pf_optional := false; pf_oneof := None; pf_max := max |}.
Definition field_in_oneof (n : string) (num : Z) (t : ptype) (opt : bool) (i : nat) (max : Z) : pfield :=
  {| pf_name := chars n; pf_number := num; pf_type := t; pf_repeated := false; pf_optional := opt; pf_oneof := Some i; pf_max := max |}.

(** package lib; enum Color; message Name { string text = 1; } message Point { sint32 x = 3; } *)
Definition lib_file : pfile :=
  {| p_package := pa ["lib"]; p_enums := [chars "Color"];
     p_msgs := [msg "Name" [] [field_no "text" 1 PString false 0]; msg "Point" [] [field_no "x" 3 (PScalar SInt32) false 0]] |}.
(** package app;
    message Screen {
      message Row { enum Kind; Kind kind = 1; Label label = 2; }
      repeated Row rows = 1; oneof head { Label title = 2; bytes id = 3 [maxLength = 8]; }
      optional double zoom = 4; repeated lib.Point corner = 5 [maxLength = 4]; Screen parent = 6; }
    message Label { lib.Name name = 1; repeated lib.Color color = 20; } *)
Definition app_file : pfile :=
  {| p_package := pa ["app"]; p_enums := [];
     p_msgs :=
       [PMsg (chars "Screen")
          [PMsg (chars "Row") [] [chars "Kind"]
             [field_no "kind" 1 (PEnum (pa ["app"; "Screen"; "Row"; "Kind"])) false 0;
              field_no "label" 2 (PMessage (pa ["app"; "Label"])) false 0] []]
          [] [field_no "rows" 1 (PMessage (pa ["app"; "Screen"; "Row"])) true 0;
              field_in_oneof "title" 2 (PMessage (pa ["app"; "Label"])) false 0 0;
              field_in_oneof "id" 3 PBytes false 0 8;
              field_in_oneof "zoom" 4 (PScalar DoubleFixed) true 1 0;
              field_no "corner" 5 (PMessage (pa ["lib"; "Point"])) true 4;
              field_no "parent" 6 (PMessage (pa ["app"; "Screen"])) false 0]
          [chars "head"; chars "_zoom"];
        msg "Label" [] [field_no "name" 1 (PMessage (pa ["lib"; "Name"])) false 0; field_no "color" 20 (PEnum (pa ["lib"; "Color"])) true 0]] |}.
Definition screens : list pfile := [lib_file; app_file].
Definition screen_headers : list header := match generate 10 screens with Some hs => hs | None => [] end.
Lemma screens_generated : generate 10 screens = Some screen_headers. Proof. vm_compute. reflexivity. Qed.

Definition screens_legal : legal screens. Proof. apply legalb_spec. vm_compute. reflexivity. Qed.
Lemma screens_protoc : protoc_ok screens.
Proof.
  split; [exact screens_legal|]. split; [apply imports_firstb_spec; vm_compute; reflexivity|].
  split; [apply referencesb_spec; vm_compute; reflexivity|]. split.
  - intros s m Hm. apply messages_spec in Hm. vm_compute in Hm.
    repeat (destruct Hm as [Hm|Hm]; [injection Hm as <- <-; split; [cbn; repeat constructor; cbn; intuition discriminate|repeat constructor; cbn; lia]|]). destruct Hm.
  - intros s m g Hm Hg. apply messages_spec in Hm. vm_compute in Hm.
    repeat (destruct Hm as [Hm|Hm]; [injection Hm as <- <-; cbn in Hg; repeat (destruct Hg as [<-|Hg]; [cbn; lia|]); destruct Hg|]). destruct Hm.
Qed.

Definition plainb (request : list pfile) (hs : list header) (x : path) : bool :=
  match find_class hs x with
  | Some c => match c_params c with [] => true | _ => false end
  | None => negb (inb x (map fst (messages request)))
  end.
Lemma plainb_spec limit request hs x : legal request -> no_enclosing request -> generate limit request = Some hs ->
  plainb request hs x = true -> ~ templated request x.
Proof.
  intros Hl He Hg H Ht. unfold plainb in H. destruct (find_class hs x) as [c|] eqn:E.
  - apply find_class_spec in E. apply (generated_template limit request hs x c Hl Hg E) in Ht. destruct (c_params c); [contradiction|discriminate].
  - assert (Hm : exists m, message request x m) by (destruct Ht as [s m g Hm _ _ _ _|s m g T Hm _ _ _ _ _]; exists m; exact Hm).
    destruct Hm as [m Hm]. apply messages_spec in Hm. apply negb_true_iff in H. rewrite (proj2 (inb_spec _ _)) in H; [discriminate|].
    apply in_map_iff. exists (x, m). split; [reflexivity|exact Hm].
Qed.
Definition plain_scopesb (request : list pfile) (hs : list header) (s T : path) : bool :=
  forallb (fun k => prefixb (firstn k T) s || plainb request hs (firstn k T)) (seq 0 (length T)).
Lemma plain_scopesb_spec limit request hs s T : legal request -> no_enclosing request -> generate limit request = Some hs ->
  plain_scopesb request hs s T = true -> ~ templated_scope request s T.
Proof.
  intros Hl He Hg H (x & [r E] & HxT & Hxs & Ht). unfold plain_scopesb in H. rewrite forallb_forall in H.
  assert (Hr : r <> []) by (intros ->; apply HxT; rewrite E, app_nil_r; reflexivity).
  assert (Hk : In (length x) (seq 0 (length T))) by (apply in_seq; rewrite E, app_length; destruct r; [contradiction|cbn; lia]).
  apply H in Hk. rewrite E, firstn_app, firstn_all, Nat.sub_diag in Hk. cbn [firstn] in Hk. rewrite app_nil_r in Hk.
  apply orb_true_iff in Hk. destruct Hk as [Hk|Hk]; [apply Hxs, prefixb_spec; exact Hk|]. eapply plainb_spec; eassumption.
Qed.

Definition supportedb (request : list pfile) (hs : list header) : bool :=
  forallb (fun '(s, _, g, T) =>
    (if path_eqb T s then match pf_oneof g with None => true | Some _ => false end
     else not_shadowedb request s T && plain_scopesb request hs s T
          && (negb (pf_repeated g) || (pf_max g =? 0)%Z || plainb request hs T))%bool) (request_uses request).
Lemma supportedb_spec limit request hs : legal request -> no_enclosing request -> generate limit request = Some hs ->
  supportedb request hs = true -> Forall clear_names request -> (forall s m, message request s m -> no_clash m) -> supported request.
Proof.
  intros Hl He Hg H Hc Hn. unfold supportedb in H. rewrite forallb_forall in H.
  assert (Hu : forall s m g T, message request s m -> In g (m_fields m) -> refers g T ->
            (if path_eqb T s then match pf_oneof g with None => true | Some _ => false end
             else not_shadowedb request s T && plain_scopesb request hs s T
                  && (negb (pf_repeated g) || (pf_max g =? 0)%Z || plainb request hs T))%bool = true).
  { intros s m g T Hm Hi Hr. exact (H (s, m, g, T) (request_uses_spec _ _ _ _ _ Hm Hi Hr)). }
  split; [exact Hc|]. split; [exact He|]. split; [|split; [exact Hn|split]].
  - intros s m g Hm Hi Hr. specialize (Hu s m g s Hm Hi Hr). rewrite (proj2 (path_eqb_eq s s) eq_refl) in Hu. destruct (pf_oneof g); [discriminate|reflexivity].
  - intros s m g T Hm Hi Hr HT. specialize (Hu s m g T Hm Hi Hr). destruct (path_eqb T s) eqn:E; [apply path_eqb_eq in E; contradiction|].
    apply andb_true_iff in Hu. destruct Hu as [Hu _]. apply andb_true_iff in Hu. apply not_shadowedb_spec. apply Hu.
  - intros s m g T Hm Hi Hty HT. specialize (Hu s m g T Hm Hi (or_introl Hty)). destruct (path_eqb T s) eqn:E; [apply path_eqb_eq in E; contradiction|].
    apply andb_true_iff in Hu. destruct Hu as [Hu1 Hu2]. apply andb_true_iff in Hu1. split; [eapply plain_scopesb_spec; try eassumption; apply Hu1|].
    intros Hrep Hmax. rewrite Hrep in Hu2. assert (Hz : (pf_max g =? 0)%Z = false) by lia. rewrite Hz in Hu2. eapply plainb_spec; eassumption.
Qed.
Lemma screens_supported : supported screens.
Proof.
  apply (supportedb_spec 10 screens screen_headers).
  - exact screens_legal.
  - apply no_enclosingb_spec. vm_compute. reflexivity.
  - exact screens_generated.
  - vm_compute. reflexivity.
  - repeat (constructor; [apply clear_namesb_spec; vm_compute; reflexivity|]). constructor.
  - intros s m Hm f g r Hf Hg E. apply messages_spec in Hm. vm_compute in Hm.
    repeat (destruct Hm as [Hm|Hm]; [injection Hm as <- <-; cbn [m_fields In] in Hf, Hg;
      repeat (destruct Hf as [<-|Hf]); try (now destruct Hf); repeat (destruct Hg as [<-|Hg]); try (now destruct Hg);
      first [reflexivity|vm_compute in E; discriminate]|]). destruct Hm.
Qed.

(** Every parameter gets the number of characters in its name as value. *)
Definition name_length (p : text) : Z := Z.of_nat (length p).
Definition Label_type (text_max color_max : Z) : ety :=
  EMsg [(1, KPlain, EMsg [(1, KPlain, EBytes true text_max)] []); (20, KRep color_max, EScalar Enumeration)] [].
Definition Screen_type : ety :=
  EMsg [(1, KRep 22, EMsg [(1, KPlain, EScalar Enumeration); (2, KPlain, Label_type 49 44)] []);
        (4, KOpt, EScalar DoubleFixed);
        (5, KRep 4, EMsg [(3, KPlain, EScalar SInt32)] []);
        (6, KRecursive, EMsg [] [])]
       [[(2, Label_type 40 35); (3, EBytes false 8)]].
Lemma screen_declared : declared screens name_length (pa ["app"; "Screen"]) Screen_type.
Proof.
  assert (H : exists t, declared screens name_length (pa ["app"; "Screen"]) t /\ t = Screen_type); [|destruct H as (t & H & <-); exact H].
  assert (Hcl : forall s m, In (s, m) (messages screens) -> message screens s m) by (intros; apply messages_spec; assumption).
  eexists. split.
  - repeat first
      [ apply Forall2_nil
      | apply Forall2_cons
      | eapply declared_as; [apply Hcl; vm_compute; repeat (first [left; reflexivity|right])|..]
      | apply declared_recursive; left; reflexivity
      | apply declared_repeated; [intros [?|?]; discriminate|reflexivity|]
      | apply declared_single; [intros [?|?]; discriminate|reflexivity|]
      | apply declared_in_oneof
      | apply declared_scalar; reflexivity
      | apply declared_string; reflexivity
      | apply declared_bytes; reflexivity
      | eapply declared_enum; reflexivity
      | eapply declared_message; [reflexivity|]
      | progress cbn [filter direct m_fields] ].
  - vm_compute. reflexivity.
Qed.
