(** * GenMemberKeys: how the names declared in a class are made, and that different names stay different. *)
From Coq Require Import String.
From Verif Require Import Base Schema Printf Generator SpecGenerator GenMembers SpecMembers GenOrder GenSort.
From Coq Require Import List ZifyBool ZifyNat Lia.

(** A declared name: from a name of the message and how it is made. *)
Inductive tag : Type := TPlain | TConst | TVar | TWhich | TPre (p : text).
Definition spell (t : tag) (b : text) : text :=
  match t with
  | TPlain => b
  | TConst => upper b ++ chars "_NAME"
  | TVar => b ++ chars "_"
  | TWhich => chars "which_" ++ b ++ chars "_"
  | TPre p => p ++ b
  end.
Definition key : Type := tag * text * dkind.
Definition decl_of (k : key) : decl := let '(t, b, d) := k in (spell t b, d).

Definition function_prefixes : list text := map chars
  ["has_"; "clear_"; "set_"; "mutable_"; "get_"; "add_"; "get_which_"; "init_"; "deserialize_"; "to_string_"]%string.
Definition declared_taken : list text := map chars
  ["FieldNumber"; "serialize"; "deserialize"; "clear"; "field_number_to_name"; "to_string"; "presence"]%string.

(** The names of the fields, oneofs, nested types, the class and its parameters. *)
Definition neat (F O N : list text) (class : text) (params : list text) : Prop :=
  NoDup (class :: F ++ O ++ N)
  /\ NoDup (map upper F) /\ ~ In (chars "NOT_SET") (map upper F)
  /\ (forall a, In a (class :: F ++ O ++ N) -> a <> [] /\ ~ In a keywords /\ ~ In a params)
  /\ (forall a, In a (class :: F ++ O ++ N ++ params) -> ~ In a taken)
  /\ (forall a, In a (class :: F ++ O ++ N ++ params) -> forall r, a <> r ++ chars "_")
  /\ (forall a b p, In a (class :: F ++ O ++ N ++ params) -> In b (F ++ O) -> In p prefixes -> a <> p ++ b)
  /\ (forall a b, In a (class :: F ++ O ++ N ++ params) -> In b F -> a <> upper b ++ chars "_NAME").

Definition valid (F O N : list text) (t : tag) (b : text) : Prop :=
  match t with
  | TPlain => In b (F ++ O ++ N ++ declared_taken)
  | TConst => In b F
  | TVar => In b (F ++ O ++ [chars "presence"])
  | TWhich => In b O
  | TPre p => In p function_prefixes /\ In b (F ++ O)
  end.

(** ** Beginnings and ends of names *)

Lemma ends_other (r1 r2 s1 s2 : text) : r1 ++ s1 = r2 ++ s2 -> length s1 = length s2 -> s1 = s2.
Proof.
  intros H Hl. assert (E : rev s1 ++ rev r1 = rev s2 ++ rev r2) by (rewrite <- !rev_app_distr; f_equal; exact H).
  rewrite <- (rev_involutive s1), <- (rev_involutive s2). f_equal.
  assert (Hl' : length (rev s1) = length (rev s2)) by (rewrite !rev_length; exact Hl).
  clear - E Hl'. revert E Hl'. generalize (rev s1) (rev s2). intros l1. induction l1 as [|x l1 IH]; intros [|y l2] E Hl; try discriminate; [reflexivity|].
  injection E as -> E. f_equal. apply IH; [exact E|]. now injection Hl.
Qed.
Lemma not_end (l r : text) c : l <> [] -> last l 0 <> c -> l <> r ++ [c].
Proof. intros _ H ->. apply H. apply last_last. Qed.
Lemma last_app (r s : text) : s <> [] -> last (r ++ s) 0 = last s 0.
Proof.
  intros H. induction r as [|x r IH]; [reflexivity|]. cbn [app]. rewrite <- IH. destruct (r ++ s) eqn:E; [|reflexivity].
  destruct s; [congruence|]. destruct r; discriminate.
Qed.
Lemma end_underscore (b : text) : b <> [] -> last b 0 = 95 -> exists r, b = r ++ chars "_".
Proof. intros Hb H. exists (removelast b). change (chars "_") with [95]. rewrite <- H. apply app_removelast_last. exact Hb. Qed.

Lemma last_const b : last (upper b ++ chars "_NAME") 0 = 69.
Proof. rewrite last_app; [reflexivity|discriminate]. Qed.
Lemma last_var b : last (b ++ chars "_") 0 = 95.
Proof. rewrite last_app; [reflexivity|discriminate]. Qed.
Lemma last_which b : last (chars "which_" ++ b ++ chars "_") 0 = 95.
Proof. rewrite app_assoc. apply last_var. Qed.
Lemma upper_first c : ~ 97 <= upper_char c <= 122.
Proof. unfold upper_char. destruct ((97 <=? c) && (c <=? 122)) eqn:E; lia. Qed.
Lemma const_not_pre b p b' : In p function_prefixes -> upper b ++ chars "_NAME" <> p ++ b'.
Proof.
  intros Hp H. assert (Hf : exists c r, upper b ++ chars "_NAME" = c :: r /\ ~ 97 <= c <= 122).
  { destruct b as [|c b]; [exists 95, (chars "NAME"); split; [reflexivity|lia]|]. cbn [upper map app]. eexists _, _. split; [reflexivity|apply upper_first]. }
  destruct Hf as (c & r & E & Hc). rewrite E in H. clear E. unfold function_prefixes in Hp. cbn [map In] in Hp.
  repeat (destruct Hp as [<-|Hp]; [vm_compute in H; injection H as E _; apply Hc; rewrite E; split; discriminate|]). destruct Hp.
Qed.

Ltac in_cases H := cbn [map In] in H; repeat (destruct H as [<-|H]); [..|destruct H].

(** Names that are fixed: none is made from another name. *)
Definition odd_name (a : text) : Prop :=
  last a 0 <> 95 /\ (forall b p, In p function_prefixes -> a <> p ++ b) /\ (forall r, a <> r ++ chars "_NAME").
Lemma odd_names : Forall odd_name (declared_taken ++ taken ++ keywords).
Proof.
  assert (Hsuf : forall a, firstn 5 (rev a) <> rev (chars "_NAME") -> forall r, a <> r ++ chars "_NAME").
  { intros a H r ->. apply H. rewrite rev_app_distr. reflexivity. }
  assert (Hpre : forall a p b : text, firstn (length p) a <> p -> a <> p ++ b).
  { intros a p b H ->. apply H. rewrite firstn_app, Nat.sub_diag, firstn_all. cbn. apply app_nil_r. }
  set (test := fun a => negb (last a 0 =? 95) && forallb (fun p => negb (text_eqb (firstn (length p) a) p)) function_prefixes
                        && negb (text_eqb (firstn 5 (rev a)) (rev (chars "_NAME")))).
  assert (Ht : forallb test (declared_taken ++ taken ++ keywords) = true) by (vm_compute; reflexivity).
  rewrite forallb_forall in Ht. apply Forall_forall. intros a Ha. specialize (Ht a Ha). unfold test in Ht.
  rewrite !andb_true_iff in Ht. destruct Ht as [[H1 H2] H3]. rewrite forallb_forall in H2.
  assert (Hneq : forall x y, negb (text_eqb x y) = true -> x <> y).
  { intros x y. unfold text_eqb. destruct (text_dec x y); [discriminate|auto]. }
  split; [lia|]. split.
  - intros b p Hp. apply Hpre. apply Hneq. apply H2. exact Hp.
  - apply Hsuf. apply Hneq. exact H3.
Qed.

Lemma prefixes_incl p : In p function_prefixes -> In p prefixes.
Proof. unfold function_prefixes, prefixes. cbn [map In]. tauto. Qed.

Lemma pre_pre F O N class params p1 p2 b1 b2 : neat F O N class params -> In p1 function_prefixes -> In p2 function_prefixes ->
  In b1 (F ++ O) -> In b2 (F ++ O) -> p1 ++ b1 = p2 ++ b2 -> p1 = p2 /\ b1 = b2.
Proof.
  intros (_ & _ & _ & _ & _ & _ & Hp & _) Hp1 Hp2 Hb1 Hb2 H.
  assert (Hw : forall a b, In a (F ++ O) -> In b (F ++ O) -> a <> chars "which_" ++ b).
  { intros a b Ha Hb. apply Hp; [right; rewrite app_assoc; apply in_or_app; left; exact Ha|exact Hb|unfold prefixes; cbn [map In]; tauto]. }
  unfold function_prefixes in Hp1, Hp2. in_cases Hp1; in_cases Hp2;
    first [ apply app_inv_head in H; split; [reflexivity|exact H]
          | discriminate H
          | exfalso; cbn in H; injection H as H; first [apply (Hw _ _ Hb1 Hb2 H)|apply (Hw _ _ Hb2 Hb1 (eq_sym H))] ].
Qed.

(** ** Different names are written differently *)

Lemma NoDup_map_eq {A B} (f : A -> B) l x y : NoDup (map f l) -> In x l -> In y l -> f x = f y -> x = y.
Proof.
  induction l as [|a l IH]; intros Hn Hx Hy E; [destruct Hx|]. cbn in Hn. inversion Hn as [|? ? Ha Hl]; subst.
  destruct Hx as [->|Hx], Hy as [->|Hy]; [reflexivity| | |auto].
  - exfalso. apply Ha. rewrite E. apply in_map. exact Hy.
  - exfalso. apply Ha. rewrite <- E. apply in_map. exact Hx.
Qed.

(** A name from outside the class or a parameter is not made from a name of the message. *)
Definition apart (F O : list text) (a : text) : Prop :=
  last a 0 <> 95 /\ (forall b p, In p function_prefixes -> In b (F ++ O) -> a <> p ++ b) /\ (forall b, In b F -> a <> upper b ++ chars "_NAME")
  /\ (forall o, In o O -> a <> chars "which_" ++ o).
Lemma apart_names F O N class params a : neat F O N class params -> In a (class :: F ++ O ++ N ++ params) -> a <> [] -> apart F O a.
Proof.
  intros (_ & _ & _ & _ & _ & He & Hp & Hc) Ha Hne. split; [|split; [|split]].
  - intros H. destruct (end_underscore a Hne H) as [r E]. apply (He a Ha r E).
  - intros b p Hip Hb. apply Hp; [exact Ha|exact Hb|apply prefixes_incl; exact Hip].
  - intros b Hb. apply Hc; assumption.
  - intros o Ho. apply Hp; [exact Ha|apply in_or_app; right; exact Ho|unfold prefixes; cbn [map In]; tauto].
Qed.
Lemma apart_odd F O a : In a (declared_taken ++ taken ++ keywords) -> apart F O a.
Proof.
  intros Ha. pose proof odd_names as H. rewrite Forall_forall in H. destruct (H a Ha) as (H1 & H2 & H3).
  split; [exact H1|]. split; [intros b p Hp _; apply H2; exact Hp|]. split; [intros b _; apply H3|].
  intros o _ E. unfold declared_taken, taken, keywords in Ha. rewrite !in_app_iff in Ha.
  destruct Ha as [Ha|[Ha|Ha]]; in_cases Ha; discriminate E.
Qed.
Lemma apart_spell F O N class params a t b : neat F O N class params -> apart F O a -> valid F O N t b -> spell t b = a -> t = TPlain.
Proof.
  intros Hn (H1 & H2 & H3 & H4) Hv E. destruct t as [| | | |p]; cbn [spell valid] in *; [reflexivity| | | |]; exfalso.
  - apply (H3 b Hv). congruence.
  - apply H1. rewrite <- E. apply last_var.
  - apply H1. rewrite <- E. apply last_which.
  - destruct Hv as [Hp Hb]. apply (H2 b p Hp Hb). congruence.
Qed.
Lemma valid_plain_apart F O N class params b : neat F O N class params -> valid F O N TPlain b -> apart F O b.
Proof.
  intros Hn Hv. cbn [valid] in Hv. rewrite !app_assoc in Hv. apply in_app_or in Hv. destruct Hv as [Hv|Hv].
  - eapply apart_names; [exact Hn|right; rewrite !app_assoc; apply in_or_app; left; exact Hv|].
    destruct Hn as (_ & _ & _ & H & _). apply H. right. rewrite app_assoc. exact Hv.
  - apply apart_odd. apply in_or_app. left. exact Hv.
Qed.

Lemma base_apart F O N class params b : neat F O N class params -> In b (F ++ O ++ [chars "presence"]) -> apart F O b.
Proof.
  intros Hn Hb. eapply valid_plain_apart; [exact Hn|]. cbn [valid]. rewrite !in_app_iff in *. destruct Hb as [Hb|[Hb|[<-|[]]]]; [tauto|tauto|].
  right. right. right. unfold declared_taken. cbn [map In]. tauto.
Qed.
Lemma base_nonempty F O N class params b : neat F O N class params -> In b (F ++ O) -> b <> [].
Proof. intros (_ & _ & _ & H & _) Hb. apply H. right. rewrite app_assoc. apply in_or_app. left. exact Hb. Qed.

Lemma spell_inj F O N class params t1 b1 t2 b2 : neat F O N class params -> valid F O N t1 b1 -> valid F O N t2 b2 ->
  spell t1 b1 = spell t2 b2 -> t1 = t2 /\ b1 = b2.
Proof.
  intros Hn.
  assert (Hhalf : forall t1 b1 t2 b2, valid F O N t1 b1 -> valid F O N t2 b2 -> spell t1 b1 = spell t2 b2 ->
    match t1, t2 with
    | TPlain, TPlain | TConst, TConst | TVar, TVar | TWhich, TWhich | TPre _, TPre _ => t1 = t2 /\ b1 = b2
    | TPlain, _ | TConst, TVar | TConst, TWhich | TConst, TPre _ | TVar, TWhich | TVar, TPre _ | TWhich, TPre _ => False
    | _, _ => True
    end).
  { clear t1 b1 t2 b2. intros t1 b1 t2 b2 H1 H2 E.
    destruct t1 as [| | | |p1], t2 as [| | | |p2]; try exact I;
      try (pose proof (apart_spell _ _ _ _ _ b1 _ b2 Hn (valid_plain_apart _ _ _ _ _ _ Hn H1) H2 (eq_sym E)); discriminate).
    - split; [reflexivity|exact E].
    - cbn [spell valid] in *. split; [reflexivity|]. apply app_inv_tail in E. destruct Hn as (_ & Hu & _). eapply NoDup_map_eq; eassumption.
    - cbn [spell] in E. pose proof (last_const b1) as L. rewrite E, last_var in L. discriminate.
    - cbn [spell] in E. pose proof (last_const b1) as L. rewrite E, last_which in L. discriminate.
    - cbn [spell valid] in *. apply (const_not_pre b1 p2 b2); [apply H2|exact E].
    - cbn [spell] in E. apply app_inv_tail in E. split; [reflexivity|exact E].
    - cbn [spell valid] in *. rewrite app_assoc in E. apply app_inv_tail in E.
      destruct (base_apart _ _ _ _ _ _ Hn H1) as (_ & _ & _ & Hw). exact (Hw b2 H2 E).
    - cbn [spell valid] in *. destruct H2 as [_ Hb]. pose proof (last_var b1) as L. rewrite E, last_app in L by (eapply base_nonempty; eassumption).
      assert (H2 : In b2 (F ++ O ++ [chars "presence"])) by (rewrite app_assoc; apply in_or_app; left; exact Hb).
      apply (base_apart _ _ _ _ _ _ Hn H2). exact L.
    - cbn [spell] in E. rewrite !app_assoc in E. apply app_inv_tail, app_inv_head in E. split; [reflexivity|exact E].
    - cbn [spell valid] in *. destruct H2 as [_ Hb]. pose proof (last_which b1) as L. rewrite E, last_app in L by (eapply base_nonempty; eassumption).
      assert (H2 : In b2 (F ++ O ++ [chars "presence"])) by (rewrite app_assoc; apply in_or_app; left; exact Hb).
      apply (base_apart _ _ _ _ _ _ Hn H2). exact L.
    - cbn [spell valid] in *. destruct H1 as [Hp1 Hb1], H2 as [Hp2 Hb2]. destruct (pre_pre _ _ _ _ _ _ _ _ _ Hn Hp1 Hp2 Hb1 Hb2 E) as [-> ->].
      split; reflexivity. }
  intros H1 H2 E. pose proof (Hhalf _ _ _ _ H1 H2 E) as A. pose proof (Hhalf _ _ _ _ H2 H1 (eq_sym E)) as B.
  destruct t1, t2; try contradiction; assumption.
Qed.
