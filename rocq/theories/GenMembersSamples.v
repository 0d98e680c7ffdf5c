(** * GenMembersSamples: deciding whether a class has correct names, and messages to try it on. *)
From Coq Require Import String.
From Verif Require Import Base Schema Printf Generator SpecGenerator GenMembers SpecMembers GenOrder GenSamples.
From Coq Require Import List ZifyBool Lia.

(** ** Decision procedures *)

Definition mem_text (n : text) (l : list text) : bool := existsb (text_eqb n) l.
Lemma mem_text_spec n l : mem_text n l = true <-> In n l.
Proof.
  unfold mem_text. rewrite existsb_exists. split; [intros (x & Hx & E); apply text_eqb_eq in E; subst; exact Hx|].
  intros H. exists n. split; [exact H|apply text_eqb_eq; reflexivity].
Qed.
Lemma mem_text_not n l : mem_text n l = false <-> ~ In n l.
Proof. rewrite <- mem_text_spec. destruct (mem_text n l); split; congruence. Qed.
Lemma text_eqb_neq a b : text_eqb a b = false <-> a <> b.
Proof. rewrite <- text_eqb_eq. destruct (text_eqb a b); split; congruence. Qed.

Definition dkind_dec (a b : dkind) : {a = b} + {a <> b}.
Proof. decide equality; [apply Bool.bool_dec|apply path_dec]. Defined.
Definition declb (x : decl) (l : list decl) : bool := existsb (fun y => text_eqb (fst x) (fst y) && if dkind_dec (snd x) (snd y) then true else false) l.
Lemma declb_spec x l : declb x l = true <-> In x l.
Proof.
  unfold declb. rewrite existsb_exists. split.
  - intros (y & Hy & E). apply andb_true_iff in E. destruct E as [E1 E2]. apply text_eqb_eq in E1. destruct (dkind_dec (snd x) (snd y)); [|discriminate].
    destruct x, y; cbn [fst snd] in *; subst. exact Hy.
  - intros H. exists x. split; [exact H|]. rewrite (proj2 (text_eqb_eq _ _) eq_refl). destruct (dkind_dec (snd x) (snd x)); [reflexivity|congruence].
Qed.

Definition compatibleb (a b : decl) : bool :=
  negb (text_eqb (fst a) (fst b))
  || match snd a, snd b with
     | DFun ps c, DFun qs d => negb (path_eqb ps qs) || negb (Bool.eqb c d)
     | DType, DVar | DType, DFun _ _ | DVar, DType | DFun _ _, DType => true
     | _, _ => false
     end.
Lemma compatibleb_spec a b : compatibleb a b = true -> compatible a b.
Proof.
  unfold compatibleb, compatible. intros H E. rewrite (proj2 (text_eqb_eq _ _) E) in H. cbn [negb orb] in H.
  destruct (snd a) as [|ps c|], (snd b) as [|qs d|]; try exact I; try discriminate. unfold path_eqb in H.
  destruct (path_dec ps qs) as [->|Hne]; [|left; exact Hne]. cbn [negb orb] in H. right. intros ->. rewrite Bool.eqb_reflx in H. discriminate.
Qed.
Fixpoint pairsb (l : list decl) : bool := match l with [] => true | x :: l' => forallb (compatibleb x) l' && pairsb l' end.
Lemma pairsb_spec l : pairsb l = true -> ForallOrdPairs compatible l.
Proof.
  induction l as [|x l IH]; intros H; constructor; apply andb_true_iff in H; destruct H as [H1 H2]; [|apply IH; exact H2].
  eapply forallb_impl; [|exact H1]. intros y _. apply compatibleb_spec.
Qed.

Definition may_declareb (class : text) (params : list text) (n : text) : bool :=
  negb (mem_text n keywords) && negb (text_eqb n class) && negb (mem_text n params).
Lemma may_declareb_spec class params n : may_declareb class params n = true -> may_declare class params n.
Proof.
  unfold may_declareb, may_declare. rewrite !andb_true_iff, !negb_true_iff. intros [[H1 H2] H3].
  split; [apply mem_text_not; exact H1|]. split; [apply text_eqb_neq; exact H2|apply mem_text_not; exact H3].
Qed.

Definition foundb (decls : list decl) (unions : list (text * list text)) (u : use) : bool :=
  match u with
  | Calls on_const n k => existsb (fun x : decl => text_eqb n (fst x) &&
      match snd x with DFun ps c => Nat.eqb (length ps) k && (negb on_const || c) | _ => false end) decls
  | Reads n => declb (n, DVar) decls
  | Selects o n => existsb (fun x : text * list text => text_eqb o (fst x) && mem_text n (snd x)) unions
  | Names n => declb (n, DType) decls && forallb (fun x : decl => negb (text_eqb n (fst x)) || match snd x with DType => true | _ => false end) decls
  | Outside n => negb (mem_text n (map fst decls))
  end.
Lemma foundb_spec decls unions u : foundb decls unions u = true -> found decls unions u.
Proof.
  destruct u as [oc n k|n|o n|n|n]; cbn [foundb found].
  - intros H. apply existsb_exists in H. destruct H as ([n' kd] & Hx & H). cbn [fst snd] in H. apply andb_true_iff in H. destruct H as [E H]. apply text_eqb_eq in E. subst n'.
    destruct kd as [|ps c|]; try discriminate. apply andb_true_iff in H. destruct H as [H1 H2]. apply Nat.eqb_eq in H1. exists ps, c. split; [exact Hx|]. split; [exact H1|].
    intros ->. destruct c; [reflexivity|discriminate].
  - apply declb_spec.
  - intros H. apply existsb_exists in H. destruct H as ([o' ms] & Hx & H). cbn [fst snd] in H. apply andb_true_iff in H. destruct H as [E H]. apply text_eqb_eq in E. subst o'.
    exists ms. split; [exact Hx|apply mem_text_spec; exact H].
  - intros H. apply andb_true_iff in H. destruct H as [H1 H2]. split; [apply declb_spec; exact H1|]. rewrite forallb_forall in H2. intros k Hk. specialize (H2 _ Hk).
    cbn [fst snd] in H2. rewrite (proj2 (text_eqb_eq n n) eq_refl) in H2. destruct k; [discriminate|discriminate|reflexivity].
  - rewrite negb_true_iff. apply mem_text_not.
Qed.

Definition well_formedb (params : list text) (d : mdef) : bool :=
  match d with
  | MDef _ _ _ _ oneofs =>
      pairsb (class_decls d) && forallb (may_declareb (d_name d) params) (map fst (class_decls d))
      && nodupb text_eqb (field_numbers d) && nodupb text_eqb (presence_fields d)
      && forallb (fun o => nodupb text_eqb (union_members o) && negb (mem_text (fst o) (union_members o))) oneofs
      && forallb (foundb (class_decls d) (map (fun o => (fst o, union_members o)) oneofs)) (named_uses d)
  end.
Lemma well_formedb_spec params d : well_formedb params d = true -> well_formed params d.
Proof.
  destruct d as [scope nested enums fields oneofs]. unfold well_formedb, well_formed. rewrite !andb_true_iff. intros [[[[[H1 H2] H3] H4] H5] H6].
  split; [apply pairsb_spec; exact H1|]. split; [eapply forallb_impl; [|exact H2]; intros x _; apply may_declareb_spec|].
  split; [eapply nodupb_spec; [|exact H3]; apply text_eqb_eq|]. split; [eapply nodupb_spec; [|exact H4]; apply text_eqb_eq|]. split.
  - eapply forallb_impl; [|exact H5]. intros x _ H. apply andb_true_iff in H. destruct H as [H H']. split; [eapply nodupb_spec; [|exact H]; apply text_eqb_eq|].
    apply negb_true_iff in H'. apply mem_text_not. exact H'.
  - eapply forallb_impl; [|exact H6]. intros x _. apply foundb_spec.
Qed.

Definition clear_membersb (params : list text) (m : pmsg) : bool :=
  let all := all_names m ++ params in
  nodupb text_eqb (all_names m) && nodupb text_eqb (map upper (field_names m)) && negb (mem_text (chars "NOT_SET") (map upper (field_names m)))
  && forallb (fun a => negb (text_eqb a []) && negb (mem_text a keywords) && negb (mem_text a params)) (all_names m)
  && forallb (fun a => negb (mem_text a taken) && negb (last a 0 =? 95)) all
  && forallb (fun a => forallb (fun b => forallb (fun p => negb (text_eqb a (p ++ b))) prefixes) (field_names m ++ oneof_names m)) all
  && forallb (fun a => forallb (fun b => negb (text_eqb a (upper b ++ chars "_NAME"))) (field_names m)) all.
Lemma clear_membersb_spec params m : clear_membersb params m = true -> clear_members params m.
Proof.
  unfold clear_membersb, clear_members. rewrite !andb_true_iff. intros [[[[[[H1 H2] H3] H4] H5] H6] H7]. rewrite !forallb_forall in *.
  split; [eapply nodupb_spec; [|exact H1]; apply text_eqb_eq|]. split; [eapply nodupb_spec; [|exact H2]; apply text_eqb_eq|].
  split; [apply mem_text_not; apply negb_true_iff; exact H3|]. split; [|split; [|split; [|split]]].
  - intros a Ha. specialize (H4 a Ha). rewrite !andb_true_iff, !negb_true_iff in H4. destruct H4 as [[A B] C].
    split; [apply text_eqb_neq; exact A|]. split; apply mem_text_not; assumption.
  - intros a Ha. specialize (H5 a Ha). rewrite !andb_true_iff, !negb_true_iff in H5. apply mem_text_not. apply H5.
  - intros a Ha r ->. specialize (H5 _ Ha). rewrite !andb_true_iff, !negb_true_iff in H5. destruct H5 as [_ H5].
    change (chars "_") with [95] in H5. rewrite last_last in H5. discriminate.
  - intros a b p Ha Hb Hp. specialize (H6 a Ha). rewrite forallb_forall in H6. specialize (H6 b Hb). rewrite forallb_forall in H6. specialize (H6 p Hp).
    apply negb_true_iff in H6. apply text_eqb_neq. exact H6.
  - intros a b Ha Hb. specialize (H7 a Ha). rewrite forallb_forall in H7. specialize (H7 b Hb). apply negb_true_iff in H7. apply text_eqb_neq. exact H7.
Qed.

Definition no_recursive_presenceb (parent : path) (m : pmsg) : bool :=
  forallb (fun f => negb (pf_optional f || match pf_oneof f with Some _ => true | None => false end)
    || (negb (pf_repeated f) && negb (inb (parent ++ [p_name m]) (ref_of f)))) (m_fields m).
Lemma no_recursive_presenceb_spec parent m : no_recursive_presenceb parent m = true -> no_recursive_presence parent m.
Proof.
  unfold no_recursive_presenceb, no_recursive_presence. rewrite forallb_forall. intros H f Hf Hp. specialize (H f Hf).
  assert (E : pf_optional f || match pf_oneof f with Some _ => true | None => false end = true).
  { destruct Hp as [->|Hp]; [reflexivity|]. destruct (pf_oneof f); [apply orb_true_r|congruence]. }
  rewrite E in H. cbn [negb orb] in H. apply andb_true_iff in H. destruct H as [H1 H2]. apply negb_true_iff in H1, H2. split; [exact H1|].
  intros Hr. apply ref_of_spec in Hr. apply inb_spec in Hr. congruence.
Qed.

(** ** Messages *)

Local Open Scope string_scope.
Definition field_of (n : string) (t : ptype) (rep opt : bool) (oneof : option nat) : pfield :=
  {| pf_name := chars n; pf_number := 1; pf_type := t; pf_repeated := rep; pf_optional := opt; pf_oneof := oneof; pf_max := 0 |}.
Definition int_field (n : string) : pfield := field_of n (PScalar Int32) false false None.
(** message of fields; "Node" can refer to itself by [node]. *)
Definition node : path := pa ["lib"; "Node"].
Definition node_of (fields : list pfield) (oneofs : list string) : pmsg := PMsg (chars "Node") [] [] fields (map chars oneofs).

(** All kinds of fields: repeated, optional, of the message itself, in a oneof, nested types. *)
Definition full : pmsg :=
  PMsg (chars "Node") [msg "Item" [] [int_field "x"]] [chars "Kind"]
    [field_of "values" (PScalar UInt32) true false None; field_of "zoom" (PScalar DoubleFixed) false true (Some 1%nat);
     field_of "title" PString false false None; field_of "parent" (PMessage node) false false None;
     field_of "kind" (PEnum (pa ["lib"; "Node"; "Kind"])) false false None;
     field_of "item" (PMessage (pa ["lib"; "Node"; "Item"])) false false (Some 0%nat);
     field_of "raw" PBytes false false (Some 0%nat)]
    [chars "head"; chars "_zoom"].
Definition full_params : list text := map chars ["Node_values_REP_LENGTH"; "Node_title_LENGTH"; "Node_raw_LENGTH"].
