(** * GenSamples: sample requests for the generator.

    The first part decides the predicates of SpecGenerator.v for a given request. *)
From Coq Require Import String.
From Verif Require Import Base Schema Printf Generator SpecGenerator GenOrder GenSort GenNames.
From Coq Require Import List Lia.

(** ** Deciding *)

Fixpoint messages_in (p : path) (m : pmsg) : list (path * pmsg) :=
  match m with PMsg n nested _ _ _ => (p ++ [n], m) :: concat (map (messages_in (p ++ [n])) nested) end.
Definition file_messages (f : pfile) : list (path * pmsg) := concat (map (messages_in (p_package f)) (p_msgs f)).
Definition messages (request : list pfile) : list (path * pmsg) := concat (map file_messages request).

Lemma messages_in_spec m : forall p s m', In (s, m') (messages_in p m) <-> inside p m s m'.
Proof.
  induction m as [n nested enums fields oneofs IH] using pmsg_induction. intros p s m'. rewrite Forall_forall in IH. cbn [messages_in]. split.
  - intros [H|H]; [injection H as <- <-; apply (inside_self p (PMsg n nested enums fields oneofs))|].
    apply in_concat in H. destruct H as (l & Hl & H). apply in_map_iff in Hl. destruct Hl as (a & <- & Ha).
    eapply inside_nested; [exact Ha|]. apply IH; assumption.
  - intros H. apply inside_inv in H. cbn [p_name p_nested] in H. destruct H as [[-> ->]|(a & Ha & H)]; [left; reflexivity|right].
    apply in_concat. eexists. split; [apply in_map; exact Ha|]. apply IH; assumption.
Qed.
Lemma file_messages_spec f s m : In (s, m) (file_messages f) <-> file_message f s m.
Proof.
  unfold file_messages, file_message. split.
  - intros H. apply in_concat in H. destruct H as (l & Hl & H). apply in_map_iff in Hl. destruct Hl as (a & <- & Ha). exists a.
    split; [exact Ha|apply messages_in_spec; exact H].
  - intros (a & Ha & H). apply in_concat. eexists. split; [apply in_map; exact Ha|apply messages_in_spec; exact H].
Qed.
Lemma messages_spec request s m : In (s, m) (messages request) <-> message request s m.
Proof.
  unfold messages, message. split.
  - intros H. apply in_concat in H. destruct H as (l & Hl & H). apply in_map_iff in Hl. destruct Hl as (f & <- & Hf). exists f.
    split; [exact Hf|apply file_messages_spec; exact H].
  - intros (f & Hf & H). apply in_concat. eexists. split; [apply in_map; exact Hf|apply file_messages_spec; exact H].
Qed.

Definition ref_of (g : pfield) : list path := match pf_type g with PMessage T | PEnum T => [T] | _ => [] end.
Lemma ref_of_spec g T : In T (ref_of g) <-> refers g T.
Proof.
  unfold ref_of, refers. destruct (pf_type g); cbn; split; intros H;
    repeat match goal with H : _ \/ _ |- _ => destruct H | H : False |- _ => destruct H end; try discriminate;
    try (injection H as <-); subst; auto.
Qed.
Definition file_refs (f : pfile) : list path := concat (map (fun sm => concat (map ref_of (m_fields (snd sm)))) (file_messages f)).
Lemma file_refs_spec f T : file_ref f T -> In T (file_refs f).
Proof.
  intros (s & m & g & Hm & Hg & Hr). apply in_concat. eexists. split; [apply in_map, file_messages_spec; exact Hm|]. cbn [snd].
  apply in_concat. exists (ref_of g). split; [apply in_map; exact Hg|apply ref_of_spec; exact Hr].
Qed.
(** Every use of a type: the message, the field, the type. *)
Definition uses (f : pfile) : list (path * pmsg * pfield * path) :=
  concat (map (fun '(s, m) => concat (map (fun g => map (fun T => (s, m, g, T)) (ref_of g)) (m_fields m))) (file_messages f)).
Lemma uses_spec f s m g T : file_message f s m -> In g (m_fields m) -> refers g T -> In (s, m, g, T) (uses f).
Proof.
  intros Hm Hg Hr. apply in_concat. exists (concat (map (fun g => map (fun T => (s, m, g, T)) (ref_of g)) (m_fields m))). split.
  - apply in_map_iff. exists (s, m). split; [reflexivity|apply file_messages_spec; exact Hm].
  - apply in_concat. eexists. split; [apply in_map_iff; exists g; split; [reflexivity|exact Hg]|]. apply in_map_iff. exists T.
    split; [reflexivity|apply ref_of_spec; exact Hr].
Qed.

Fixpoint prefixb (q p : path) : bool :=
  match q, p with
  | [], _ => true
  | x :: q', y :: p' => text_eqb x y && prefixb q' p'
  | _ :: _, [] => false
  end.
Lemma prefixb_spec q : forall p, prefixb q p = true <-> prefix q p.
Proof.
  induction q as [|x q IH]; intros p; [split; [exists p; reflexivity|reflexivity]|]. destruct p as [|y p]; cbn.
  - split; [discriminate|]. intros [r H]. discriminate.
  - rewrite andb_true_iff, IH, text_eqb_eq. split.
    + intros [-> [r ->]]. exists r. reflexivity.
    + intros [r H]. injection H as -> ->. split; [reflexivity|exists r; reflexivity].
Qed.
Fixpoint nodupb {A} (eqb : A -> A -> bool) (l : list A) : bool :=
  match l with [] => true | x :: l' => negb (existsb (eqb x) l') && nodupb eqb l' end.
Lemma nodupb_spec {A} (eqb : A -> A -> bool) l : (forall x y, eqb x y = true <-> x = y) -> nodupb eqb l = true -> NoDup l.
Proof.
  intros He. induction l as [|x l IH]; cbn; intros H; constructor; apply andb_true_iff in H; destruct H as [H1 H2].
  - intros Hx. apply negb_true_iff in H1. assert (existsb (eqb x) l = true); [|congruence]. apply existsb_exists. exists x. split; [exact Hx|apply He; reflexivity].
  - apply IH. exact H2.
Qed.
Definition inb (p : path) (l : list path) : bool := existsb (path_eqb p) l.
Lemma inb_spec p l : inb p l = true <-> In p l.
Proof.
  unfold inb. rewrite existsb_exists. split; [intros (x & Hx & E); apply path_eqb_eq in E; subst; exact Hx|].
  intros H. exists p. split; [exact H|apply path_eqb_eq; reflexivity].
Qed.
Definition identifierb (n : text) : bool := match n with [] => false | _ => negb (existsb (Z.eqb 46) n) end.
Lemma identifierb_spec n : identifierb n = true -> identifier n.
Proof.
  unfold identifierb, identifier. destruct n as [|x n]; [discriminate|]. intros H. apply negb_true_iff in H. split; [discriminate|].
  intros Hi. assert (existsb (Z.eqb 46) (x :: n) = true); [|congruence]. apply existsb_exists. exists 46. split; [exact Hi|reflexivity].
Qed.
Lemma forallb_impl {A} (g : A -> bool) (P : A -> Prop) l : (forall x, In x l -> g x = true -> P x) -> forallb g l = true -> Forall P l.
Proof. intros H Hg. apply Forall_forall. intros x Hx. apply H; [exact Hx|]. rewrite forallb_forall in Hg. apply Hg. exact Hx. Qed.

(** No two fields of a oneof when one is optional: by the names of the fields, which are different. *)
Definition oneofs_okb (fields : list pfield) (oneofs : list text) : bool :=
  forallb (fun f => match pf_oneof f with
    | None => true
    | Some i => Nat.ltb i (length oneofs) && (negb (pf_optional f)
        || Nat.eqb 1 (length (filter (fun g => match pf_oneof g with Some j => Nat.eqb i j | None => false end) fields)))
    end) fields.
Lemma oneofs_okb_spec fields oneofs : oneofs_okb fields oneofs = true -> oneofs_ok fields oneofs.
Proof.
  intros H f i Hf Hi. unfold oneofs_okb in H. rewrite forallb_forall in H. specialize (H f Hf). rewrite Hi in H. apply andb_true_iff in H. destruct H as [H1 H2].
  apply Nat.ltb_lt in H1. split; [exact H1|]. intros Ho g Hg Hgi. rewrite Ho in H2. cbn [negb orb] in H2. apply Nat.eqb_eq in H2.
  set (P := fun g => match pf_oneof g with Some j => Nat.eqb i j | None => false end) in H2.
  assert (H : forall h, In h fields -> pf_oneof h = Some i -> In h (filter P fields)).
  { intros h Hh Eh. apply filter_In. split; [exact Hh|]. unfold P. rewrite Eh. apply Nat.eqb_refl. }
  pose proof (H f Hf Hi) as Ha. pose proof (H g Hg Hgi) as Hb. destruct (filter P fields) as [|x [|y l]]; try discriminate.
  destruct Ha as [<-|[]], Hb as [<-|[]]. reflexivity.
Qed.
Fixpoint msg_legalb (m : pmsg) : bool :=
  match m with
  | PMsg n nested enums fields oneofs =>
      identifierb n && forallb identifierb enums && nodupb text_eqb (map pf_name fields) && oneofs_okb fields oneofs
      && forallb (fun f => negb (pf_repeated f) || match pf_oneof f with None => true | _ => false end) fields && forallb msg_legalb nested
  end.
Lemma msg_legalb_spec m : msg_legalb m = true -> msg_legal m.
Proof.
  induction m as [n nested enums fields oneofs IH] using pmsg_induction. cbn [msg_legalb msg_legal]. intros H.
  repeat (apply andb_true_iff in H; let H' := fresh in destruct H as [H H']).
  split; [apply identifierb_spec; exact H|]. split; [eapply forallb_impl; [|eassumption]; intros; apply identifierb_spec; assumption|].
  split; [eapply nodupb_spec; [|eassumption]; apply text_eqb_eq|]. split; [apply oneofs_okb_spec; assumption|]. split.
  - match goal with H : forallb (fun f => _ || _) fields = true |- _ => eapply forallb_impl; [|exact H] end. intros x _ Hx Hr. cbv beta in Hx. rewrite Hr in Hx. cbn in Hx. destruct (pf_oneof x); [discriminate|reflexivity].
  - clear - IH H0. induction nested as [|a l IHl]; [exact I|]. inversion IH; subst. cbn in H0. apply andb_true_iff in H0. destruct H0. split; [auto|apply IHl; assumption].
Qed.
Definition legalb (request : list pfile) : bool :=
  let names := concat (map file_type_names request) in
  forallb (fun f => forallb identifierb (p_package f) && forallb identifierb (p_enums f) && forallb msg_legalb (p_msgs f)
                    && forallb (fun p => negb (prefixb p (p_package f))) names) request
  && nodupb path_eqb names.
Lemma legalb_spec request : legalb request = true -> legal request.
Proof.
  unfold legalb, legal. intros H. apply andb_true_iff in H. destruct H as [H Hn]. split; [|split].
  - eapply forallb_impl; [|exact H]. intros f _ Hf. repeat (apply andb_true_iff in Hf; let H' := fresh in destruct Hf as [Hf H']).
    split; [eapply forallb_impl; [|eassumption]; intros; apply identifierb_spec; assumption|].
    split; (eapply forallb_impl; [|eassumption]); intros; [apply identifierb_spec|apply msg_legalb_spec]; assumption.
  - eapply nodupb_spec; [|exact Hn]. apply path_eqb_eq.
  - intros f p Hf Hp Hpre. rewrite forallb_forall in H. specialize (H f Hf). apply andb_true_iff in H. destruct H as [_ H].
    rewrite forallb_forall in H. specialize (H p Hp). apply negb_true_iff in H. apply prefixb_spec in Hpre. congruence.
Qed.

Definition clear_namesb (f : pfile) : bool :=
  let used := file_type_names f ++ file_refs f in
  forallb (fun '(s, _) => forallb (fun T => negb (starts_with (dotted s) (dotted T)) || prefixb s T) used) (file_messages f)
  && (match p_package f with [] => forallb (fun m => forallb (fun T => negb (text_eqb (concat T) (p_name m)) || path_eqb T [p_name m]) used) (p_msgs f) | _ => true end)
  && forallb (nodupb text_eqb) used
  && forallb (fun '(_, m) => negb (text_eqb (p_name m) (chars "FieldErrorRecursive"))) (file_messages f).
Lemma clear_namesb_spec f : clear_namesb f = true -> clear_names f.
Proof.
  unfold clear_namesb, clear_names. intros H. repeat (apply andb_true_iff in H; let H' := fresh in destruct H as [H H']).
  assert (Hu : forall T, In T (file_type_names f) \/ file_ref f T -> In T (file_type_names f ++ file_refs f)).
  { intros T [HT|HT]; apply in_or_app; [left; exact HT|right; apply file_refs_spec; exact HT]. }
  rewrite forallb_forall in H, H0, H1. split; [|split; [|split]].
  - intros s m T Hm HT Hs. apply file_messages_spec in Hm. specialize (H _ Hm). cbn in H. rewrite forallb_forall in H. specialize (H T (Hu T HT)).
    change full_name with dotted in Hs. rewrite (proj2 (starts_with_spec _ _) Hs) in H. cbn in H. apply prefixb_spec. exact H.
  - intros Ep m T Hm HT E. rewrite Ep in H2. rewrite forallb_forall in H2. specialize (H2 m Hm). rewrite forallb_forall in H2. specialize (H2 T (Hu T HT)).
    rewrite E in H2. rewrite (proj2 (text_eqb_eq _ _) eq_refl) in H2. cbn in H2. apply path_eqb_eq. exact H2.
  - intros T HT. eapply nodupb_spec; [apply text_eqb_eq|]. apply H1, Hu, HT.
  - intros s m Hm E. apply file_messages_spec in Hm. specialize (H0 _ Hm). cbn in H0. rewrite E in H0. discriminate.
Qed.

Definition request_uses (request : list pfile) := concat (map uses request).
Lemma request_uses_spec request s m g T : message request s m -> In g (m_fields m) -> refers g T -> In (s, m, g, T) (request_uses request).
Proof. intros (f & Hf & Hm) Hg Hr. apply in_concat. exists (uses f). split; [apply in_map; exact Hf|apply uses_spec; assumption]. Qed.

Definition no_enclosingb (request : list pfile) : bool := forallb (fun '(s, _, _, T) => negb (prefixb T s) || path_eqb T s) (request_uses request).
Lemma no_enclosingb_spec request : no_enclosingb request = true -> no_enclosing request.
Proof.
  intros H s m g T Hm Hg Hr Hp. unfold no_enclosingb in H. rewrite forallb_forall in H. specialize (H _ (request_uses_spec _ _ _ _ _ Hm Hg Hr)). cbn in H.
  rewrite (proj2 (prefixb_spec _ _) Hp) in H. cbn in H. apply path_eqb_eq. exact H.
Qed.

Fixpoint imports_firstb (known : list path) (request : list pfile) : bool :=
  match request with
  | [] => true
  | f :: rest => let known' := known ++ file_type_names f in forallb (fun '(_, _, _, T) => inb T known') (uses f) && imports_firstb known' rest
  end.
Lemma imports_firstb_spec request : imports_firstb [] request = true -> imports_first request.
Proof.
  assert (H : forall known, imports_firstb known request = true -> forall l1 f l2 s m g T, request = l1 ++ f :: l2 -> file_message f s m -> In g (m_fields m) ->
    refers g T -> In T (known ++ concat (map file_type_names (l1 ++ [f])))).
  { induction request as [|f0 rest IH]; intros known H l1 f l2 s m g T E Hm Hg Hr; [destruct l1; discriminate|].
    cbn in H. apply andb_true_iff in H. destruct H as [H1 H2]. destruct l1 as [|f1 l1]; cbn in E; injection E as -> E.
    - cbn. rewrite app_nil_r. rewrite forallb_forall in H1. specialize (H1 _ (uses_spec _ _ _ _ _ Hm Hg Hr)). cbn in H1. apply inb_spec in H1. exact H1.
    - cbn. rewrite app_assoc. eapply IH; eassumption. }
  intros Hi l1 f l2 s m g T. apply (H [] Hi).
Qed.

Definition referencesb (request : list pfile) : bool :=
  let ms := map fst (messages request) in
  let names := concat (map file_type_names request) in
  forallb (fun '(_, _, g, _) => match pf_type g with
    | PMessage T => inb T ms
    | PEnum T => inb T names && negb (inb T ms)
    | _ => true end) (request_uses request).
Lemma referencesb_spec request : referencesb request = true -> references request.
Proof.
  intros H s m g T Hm Hg. unfold referencesb in H. rewrite forallb_forall in H. split; intros Et.
  - specialize (H _ (request_uses_spec _ _ _ g T Hm Hg (or_introl Et))). cbn in H. rewrite Et in H. apply inb_spec in H.
    apply in_map_iff in H. destruct H as ([s' m'] & E & Hi). cbn in E. subst s'. exists m'. apply messages_spec. exact Hi.
  - specialize (H _ (request_uses_spec _ _ _ g T Hm Hg (or_intror Et))). cbn in H. rewrite Et in H. apply andb_true_iff in H. destruct H as [H1 H2].
    split; [apply inb_spec; exact H1|]. intros [mT HmT]. apply negb_true_iff in H2. apply messages_spec in HmT.
    rewrite (proj2 (inb_spec _ _)) in H2; [discriminate|]. apply in_map_iff. exists (T, mT). split; [reflexivity|exact HmT].
Qed.

(** The ranks of the types by a list of names in order. *)
Fixpoint position (l : list path) (p : path) : nat := match l with [] => O | q :: l' => if path_dec q p then O else S (position l' p) end.
Definition orderableb (order : list path) (f : pfile) : bool :=
  forallb (fun '(s, _, _, T) => negb (inb T (file_type_names f)) ||
    let n := common s T in
    match skipn n s, skipn n T with
    | a :: _, b :: _ => Nat.ltb (position order (firstn n s ++ [b])) (position order (firstn n s ++ [a]))
    | _, _ => true
    end) (uses f).
Lemma common_diverge (c : path) a b x y : a <> b -> common (c ++ a :: x) (c ++ b :: y) = length c.
Proof.
  intros Hne. induction c as [|z c IH]; cbn.
  - destruct (text_dec a b); [contradiction|reflexivity].
  - destruct (text_dec z z); [f_equal; exact IH|contradiction].
Qed.
Lemma orderableb_spec order f : orderableb order f = true -> orderable f.
Proof.
  intros H. exists (position order). intros s m g T c a b x y Hm Hg Hr HT -> -> Hne. unfold orderableb in H. rewrite forallb_forall in H.
  specialize (H _ (uses_spec _ _ _ _ _ Hm Hg Hr)). cbv beta iota zeta in H. rewrite (proj2 (inb_spec _ _) HT), (common_diverge _ _ _ _ _ Hne) in H. cbn [negb orb] in H.
  rewrite !skipn_app, !skipn_all, Nat.sub_diag, firstn_app, firstn_all, Nat.sub_diag in H. cbn [skipn app firstn] in H. rewrite app_nil_r in H. apply Nat.ltb_lt. exact H.
Qed.
Definition no_deepb (f : pfile) : bool :=
  forallb (fun '(s, _, _, T) => negb (inb T (file_type_names f)) || negb (prefixb s T) || Nat.leb (length T) (S (length s))) (uses f).
Lemma no_deepb_spec f : no_deepb f = true -> no_deep f.
Proof.
  intros H s m g T a b r Hm Hg Hr HT E. unfold no_deepb in H. rewrite forallb_forall in H. specialize (H _ (uses_spec _ _ _ _ _ Hm Hg Hr)). cbv beta iota in H.
  rewrite (proj2 (inb_spec _ _) HT), (proj2 (prefixb_spec s T)) in H by (exists (a :: b :: r); exact E). cbn [negb orb] in H. apply Nat.leb_le in H.
  rewrite E, app_length in H. cbn in H. lia.
Qed.

Definition declaredb (request : list pfile) (p : path) : bool :=
  inb p (concat (map file_type_names request)) || existsb (fun f => prefixb p (p_package f)) request.
(** Decides a little more: also longer ways than to the shared scopes. *)
Definition not_shadowedb (request : list pfile) (s T : path) : bool :=
  forallb (fun j => negb (prefixb (firstn j T) s)
    || match skipn j T with
       | a :: _ => forallb (fun k => Nat.leb k j || negb (declaredb request (firstn k s ++ [a]))) (seq 0 (S (length s)))
       | [] => true
       end) (seq 0 (length T)).
Lemma not_shadowedb_spec request s T : not_shadowedb request s T = true -> ~ shadowed request s T.
Proof.
  intros H (c & a & rest & d1 & d2 & E1 & E2 & _ & Hd & Hdec). unfold not_shadowedb in H. rewrite forallb_forall in H.
  assert (Hj : In (length c) (seq 0 (length T))) by (apply in_seq; rewrite E1, app_length; cbn; lia).
  specialize (H _ Hj). rewrite E1 in H at 2. rewrite skipn_app, skipn_all, Nat.sub_diag in H. cbn [skipn app] in H.
  rewrite (proj2 (prefixb_spec _ _)) in H.
  2:{ rewrite E1, firstn_app, firstn_all, Nat.sub_diag. cbn. rewrite app_nil_r. exists (d1 ++ d2). exact E2. }
  cbn [negb orb] in H. rewrite forallb_forall in H. specialize (H (length (c ++ d1))).
  assert (Hk : In (length (c ++ d1)) (seq 0 (S (length s)))) by (apply in_seq; rewrite E2, !app_length; lia).
  specialize (H Hk). rewrite app_assoc in E2. rewrite E2, firstn_app, firstn_all, Nat.sub_diag in H. cbn [firstn] in H. rewrite app_nil_r in H.
  apply orb_true_iff in H. destruct H as [H|H].
  - apply Nat.leb_le in H. rewrite app_length in H. destruct d1; [contradiction|cbn in H; lia].
  - apply negb_true_iff in H. unfold declaredb in H. apply orb_false_iff in H. destruct H as [H1 H2]. rewrite <- app_assoc in *. destruct Hdec as [Hdec|(_ & f & Hf & Hp)].
    + apply inb_spec in Hdec. congruence.
    + assert (existsb (fun f => prefixb (c ++ d1 ++ [a]) (p_package f)) request = true); [|congruence]. apply existsb_exists. exists f.
      split; [exact Hf|apply prefixb_spec; exact Hp].
Qed.

Fixpoint classes_in (p : path) (c : class) : list (path * class) :=
  match c with Class _ n _ nested _ => (p ++ [n], c) :: concat (map (classes_in (p ++ [n])) nested) end.
Definition all_classes (hs : list header) : list (path * class) :=
  concat (map (fun h => concat (map (classes_in (h_package h)) (h_classes h))) hs).
Lemma class_induction (P : class -> Prop) :
  (forall ps n es nested ms, Forall P nested -> P (Class ps n es nested ms)) -> forall c, P c.
Proof.
  intros H. fix IH 1. intros [ps n es nested ms]. apply H.
  induction nested as [|c l IHl]; constructor; [apply IH|exact IHl].
Qed.
Lemma classes_in_spec c : forall p s c', In (s, c') (classes_in p c) -> class_inside p c s c'.
Proof.
  induction c as [ps n es nested ms IH] using class_induction. intros p s c' H. rewrite Forall_forall in IH. cbn [classes_in] in H.
  destruct H as [H|H]; [injection H as <- <-; apply (class_self p (Class ps n es nested ms))|].
  apply in_concat in H. destruct H as (l & Hl & H). apply in_map_iff in Hl. destruct Hl as (a & <- & Ha).
  eapply class_nested; [exact Ha|]. apply IH; assumption.
Qed.
Definition find_class (hs : list header) (s : path) : option class :=
  option_map snd (find (fun '(p, _) => path_eqb p s) (all_classes hs)).
Lemma find_class_spec hs s c : find_class hs s = Some c -> generated hs s c.
Proof.
  unfold find_class. destruct (find _ _) as [[p c']|] eqn:E; [|discriminate]. cbn. intros H. injection H as ->.
  apply find_some in E. destruct E as [Hi E]. apply path_eqb_eq in E. subst p. apply in_concat in Hi. destruct Hi as (l & Hl & Hi).
  apply in_map_iff in Hl. destruct Hl as (h & <- & Hh). apply in_concat in Hi. destruct Hi as (l & Hl & Hi).
  apply in_map_iff in Hl. destruct Hl as (top & <- & Ht). exists h, top. split; [exact Hh|]. split; [exact Ht|apply classes_in_spec; exact Hi].
Qed.

Definition event_eqb (x y : event) : bool :=
  match x, y with Declared p, Declared q | Uses p, Uses q => path_eqb p q | _, _ => false end.
Lemma event_eqb_eq x y : event_eqb x y = true <-> x = y.
Proof.
  destruct x, y; cbn; try (split; [discriminate|discriminate]); rewrite path_eqb_eq; (split; [intros ->; reflexivity|intros H; injection H as ->; reflexivity]).
Qed.
Fixpoint beforeb (l : list event) (x y : event) : bool :=
  match l with [] => false | z :: l' => (event_eqb z x && existsb (event_eqb y) l') || beforeb l' x y end.
Lemma beforeb_spec l x y : beforeb l x y = true <-> before l x y.
Proof.
  induction l as [|z l IH]; cbn.
  - split; [discriminate|]. intros (l1 & l2 & l3 & E). destruct l1; discriminate.
  - rewrite orb_true_iff, andb_true_iff, event_eqb_eq, existsb_exists, IH. split.
    + intros [[-> (w & Hw & E)]|(l1 & l2 & l3 & ->)].
      * apply event_eqb_eq in E. subst w. apply in_split in Hw. destruct Hw as (l2 & l3 & ->). exists [], l2, l3. reflexivity.
      * exists (z :: l1), l2, l3. reflexivity.
    + intros (l1 & l2 & l3 & E). destruct l1 as [|w l1]; injection E as -> ->.
      * left. split; [reflexivity|]. exists y. split; [apply in_or_app; right; left; reflexivity|apply event_eqb_eq; reflexivity].
      * right. exists l1, l2, l3. reflexivity.
Qed.

(** ** The requests *)

Local Open Scope string_scope.
Definition fld (n : string) (t : ptype) (rep : bool) (max : Z) : pfield :=
  {| pf_name := chars n; pf_number := 1; pf_type := t; pf_repeated := rep; pf_optional := false; pf_oneof := None; pf_max := max |}.
Definition msg (n : string) (nested : list pmsg) (fields : list pfield) : pmsg := PMsg (chars n) nested [] fields [].
Definition pa (l : list string) : path := map chars l.
Definition file (ms : list pmsg) : list pfile := [{| p_package := []; p_enums := []; p_msgs := ms |}].

(** package lib; enum Color; message Name { string text; } message Point { sint32 x; } *)
Definition lib_proto : pfile :=
  {| p_package := pa ["lib"]; p_enums := [chars "Color"];
     p_msgs := [msg "Name" [] [fld "text" PString false 0]; msg "Point" [] [fld "x" (PScalar SInt32) false 0]] |}.
(** package app.ui; messages that use messages defined after them and in the other file; a nested message and
    enum, a oneof, an optional field, a recursive field. *)
Definition app_proto : pfile :=
  {| p_package := pa ["app"; "ui"]; p_enums := [];
     p_msgs :=
       [PMsg (chars "Screen")
          [PMsg (chars "Row") [] [chars "Kind"]
             [fld "kind" (PEnum (pa ["app"; "ui"; "Screen"; "Row"; "Kind"])) false 0;
              fld "label" (PMessage (pa ["app"; "ui"; "Label"])) false 0] []]
          [] [fld "rows" (PMessage (pa ["app"; "ui"; "Screen"; "Row"])) true 0;
              {| pf_name := chars "title"; pf_number := 2; pf_type := PMessage (pa ["app"; "ui"; "Label"]); pf_repeated := false;
                 pf_optional := false; pf_oneof := Some 0%nat; pf_max := 0 |};
              {| pf_name := chars "id"; pf_number := 3; pf_type := PBytes; pf_repeated := false;
                 pf_optional := false; pf_oneof := Some 0%nat; pf_max := 8 |};
              {| pf_name := chars "zoom"; pf_number := 4; pf_type := PScalar DoubleFixed; pf_repeated := false;
                 pf_optional := true; pf_oneof := Some 1%nat; pf_max := 0 |};
              fld "corner" (PMessage (pa ["lib"; "Point"])) true 4;
              fld "parent" (PMessage (pa ["app"; "ui"; "Screen"])) false 0]
          [chars "head"; chars "_zoom"];
        msg "Label" [] [fld "name" (PMessage (pa ["lib"; "Name"])) false 0; fld "color" (PEnum (pa ["lib"; "Color"])) true 0]] |}.
Definition good : list pfile := [lib_proto; app_proto].
Definition good_headers : list header := match generate 10 good with Some hs => hs | None => [] end.
Lemma good_generated : generate 10 good = Some good_headers. Proof. vm_compute. reflexivity. Qed.
Lemma good_legal : legal good. Proof. apply legalb_spec. vm_compute. reflexivity. Qed.
Lemma good_imports : imports_first good. Proof. apply imports_firstb_spec. vm_compute. reflexivity. Qed.
Lemma good_references : references good. Proof. apply referencesb_spec. vm_compute. reflexivity. Qed.
Lemma good_clear : Forall clear_names good.
Proof. repeat (constructor; [apply clear_namesb_spec; vm_compute; reflexivity|]). constructor. Qed.
Lemma good_enclosing : no_enclosing good. Proof. apply no_enclosingb_spec. vm_compute. reflexivity. Qed.

(** message C { repeated D d = 1 [maxLength 5]; } message D { string s = 1; } *)
Definition fixed_repeated := file [msg "C" [] [fld "d" (PMessage (pa ["D"])) true 5]; msg "D" [] [fld "s" PString false 0]].
(** message M { repeated sint32 a = 1; string a_REP = 2; } *)
Definition clashing := file [msg "M" [] [fld "a" (PScalar SInt32) true 0; fld "a_REP" PString false 0]].
(** message A { message B { A a = 1; } B b = 1; string s = 2; } *)
Definition enclosing := file [msg "A" [msg "B" [] [fld "a" (PMessage (pa ["A"])) false 0]] [fld "b" (PMessage (pa ["A"; "B"])) false 0; fld "s" PString false 0]].
(** message A { message X { AB b = 1; } } message AB {}, and with a repeated field. *)
Definition longer_name rep := file [msg "A" [msg "X" [] [fld "b" (PMessage (pa ["AB"])) rep 0]] []; msg "AB" [] []].
(** message C { repeated ZB b = 1; } message Z { message B {} } message ZB {} *)
Definition joined_name := file [msg "C" [] [fld "b" (PMessage (pa ["ZB"])) true 0]; msg "Z" [msg "B" [] []] []; msg "ZB" [] []].
(** message A { message B {} .B b = 1; } message B {} *)
Definition shadow := file [msg "A" [msg "B" [] []] [fld "b" (PMessage (pa ["B"])) false 0]; msg "B" [] []].
(** message A { message B {} string s = 1; } message C { A.B b = 1; } *)
Definition in_template := file [msg "A" [msg "B" [] []] [fld "s" PString false 0]; msg "C" [] [fld "b" (PMessage (pa ["A"; "B"])) false 0]].
(** message A { message B { message C {} } B.C c = 1; } *)
Definition two_levels := file [msg "A" [msg "B" [msg "C" [] []] []] [fld "c" (PMessage (pa ["A"; "B"; "C"])) false 0]].
(** message A { B b = 1; } message B { A a = 1; } *)
Definition cyclic := file [msg "A" [] [fld "b" (PMessage (pa ["B"])) false 0]; msg "B" [] [fld "a" (PMessage (pa ["A"])) false 0]].
Definition headers_of (r : list pfile) : list header := match generate 10 r with Some hs => hs | None => [] end.
