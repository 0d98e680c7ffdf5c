(** * GenMembersProofs: the declarations and uses of names in a generated class. *)
From Coq Require Import String.
From Verif Require Import Base Schema Printf Generator SpecGenerator GenMembers SpecMembers GenOrder GenSort GenReg GenRender GenTypes GenOnce GenProps GenMemberKeys.
From Coq Require Import List ZifyBool ZifyNat Lia.

(** ** The declarations with how their names are made *)

Definition pre (p : string) (params : list string) (const : bool) : tag * dkind := (TPre (chars p), DFun (map chars params) const).
Definition plain_ (params : list string) : tag * dkind := (TPlain, DFun (map chars params) true).

Definition shapes (oneof : bool) (f : field) : list (tag * dkind) :=
  let has := pre "has_" [] true in
  let clear := pre "clear_" [] false in
  let set := pre "set_" ["const T&"%string] false in
  let moved := pre "set_" ["const T&&"%string] false in
  let mut := pre "mutable_" [] false in
  let at_set := [pre "set_" ["uint32_t"; "const T&"]%string false; pre "set_" ["uint32_t"; "const T&&"]%string false;
                 pre "set_" ["const L&"%string] false; pre "add_" ["const T&"%string] false] in
  (TConst, DVar)
  :: match f_class f with
     | FieldBasic _ => if oneof then [has; clear; set; moved] else if f_optional f then [has; clear; set; moved; mut] else [clear; set; moved; mut]
     | FieldEnum _ => if oneof then [has; clear; set; moved] else if f_optional f then [has; clear; set; moved] else [clear; set; moved]
     | FieldString _ | FieldBytes _ => if oneof then [has; clear; mut; set] else if f_optional f then [has; clear; mut; set] else [clear; mut; set]
     | FieldMessage _ => if oneof then [has; clear; set; moved; mut] else if f_optional f then [has; clear; set; moved; mut] else [clear; set; moved; mut]
     | FieldRepeated _ _ =>
         if oneof then [has; clear] ++ at_set ++ [mut] else [plain_ ["uint32_t"%string]; clear] ++ at_set ++ [mut; pre "mutable_" ["uint32_t"%string] false]
     | FieldErrorRecursive => [clear; set; moved]
     end ++ [pre "get_" [] true; plain_ []].

Lemma get_set_shapes oneof f : get_set oneof f = map (fun '(t, k) => (spell t (f_name f), k)) (shapes oneof f).
Proof. unfold get_set, shapes. destruct (f_class f), oneof, (f_optional f); reflexivity. Qed.

Lemma kind_dec (a b : dkind) : {a = b} + {a <> b}.
Proof. decide equality; [apply bool_dec|apply list_eq_dec, text_dec]. Defined.
Lemma shape_dec (a b : tag * dkind) : {a = b} + {a <> b}.
Proof. decide equality; [apply kind_dec|]. decide equality. apply text_dec. Defined.
Lemma key_dec (a b : key) : {a = b} + {a <> b}.
Proof. decide equality; [apply kind_dec|]. decide equality; [apply text_dec|]. decide equality. apply text_dec. Defined.
Lemma shapes_NoDup oneof f : NoDup (shapes oneof f).
Proof.
  assert (H : forall l : list (tag * dkind), nodup shape_dec l = l -> NoDup l) by (intros l E; rewrite <- E; apply NoDup_nodup).
  unfold shapes. destruct (f_class f), oneof, (f_optional f); apply H; vm_compute; reflexivity.
Qed.

Definition shape_ok (s : tag * dkind) : Prop :=
  match s with
  | (TConst, k) => k = DVar
  | (TPlain, DFun _ c) => c = true
  | (TPre p, DFun _ c) => In p function_prefixes /\ (p = chars "get_" -> c = true) /\ p <> chars "get_which_" /\ p <> chars "init_" /\ p <> chars "deserialize_" /\ p <> chars "to_string_"
  | _ => False
  end.
Lemma shapes_ok oneof f : Forall shape_ok (shapes oneof f).
Proof.
  assert (Hp : forall p ps c, In p ["has_"; "clear_"; "set_"; "mutable_"; "get_"; "add_"]%string -> (p = "get_"%string -> c = true) -> shape_ok (pre p ps c)).
  { intros p ps c H Hg. unfold pre, shape_ok. cbn [In] in H.
    repeat (destruct H as [<-|H]; [split; [unfold function_prefixes; cbn [map In]; tauto|split; [first [discriminate|auto]|repeat split; discriminate]]|]). destruct H. }
  unfold shapes. destruct (f_class f), oneof, (f_optional f); cbn [app];
    repeat first [apply Forall_nil|apply Forall_cons]; first [reflexivity|apply Hp; [cbn [In]; tauto|first [reflexivity|discriminate]]].
Qed.

Definition own (n : text) (s : tag * dkind) : key := (fst s, n, snd s).
Definition field_keys (oneof : bool) (f : field) : list key := map (own (f_name f)) (shapes oneof f).
Lemma get_set_keys oneof f : get_set oneof f = map decl_of (field_keys oneof f).
Proof. rewrite get_set_shapes. unfold field_keys. rewrite map_map. apply map_ext. intros [t k]. reflexivity. Qed.

Definition oneof_accessor_keys (o : text * list field) : list key :=
  own (fst o) (pre "get_which_" [] true) :: concat (map (field_keys true) (snd o)).
Definition oneof_private_keys (o : text * list field) : list key :=
  map (own (fst o))
    [(TWhich, DVar); (TPlain, DType); (TVar, DVar); pre "init_" ["FieldNumber"%string] false; pre "clear_" [] false;
     pre "deserialize_" ["FieldNumber"; "ReadBufferInterface&"; "WireType"]%string false; pre "to_string_" ["string_view&"; "uint32_t"; "bool"]%string true].
Definition fixed_keys : list key := map (fun d : decl => (TPlain, fst d, snd d)) fixed_functions.
Definition presence_keys (fields : list field) : list key :=
  if existsb f_optional fields then [(TPlain, chars "presence", DType); (TVar, chars "presence", DVar)] else [].
Definition variable_keys (fields : list field) : list key :=
  map (fun f => (TVar, f_name f, DVar)) (filter (fun f => negb (recursive f)) fields).
Definition type_keys (N : list text) : list key := map (fun n => (TPlain, n, DType)) N.

Definition class_keys (d : mdef) : list key :=
  match d with
  | MDef _ nested enums fields oneofs =>
      type_keys (enums ++ map d_name nested) ++ [(TPlain, chars "FieldNumber", DType)]
      ++ concat (map (field_keys false) fields) ++ concat (map oneof_accessor_keys oneofs)
      ++ fixed_keys ++ presence_keys fields ++ variable_keys fields ++ concat (map oneof_private_keys oneofs)
  end.

Lemma concat_map_ext {A B C} (f : A -> list B) (g : A -> list C) (h : C -> B) l :
  (forall x, f x = map h (g x)) -> concat (map f l) = map h (concat (map g l)).
Proof. intros H. rewrite concat_map, map_map. f_equal. apply map_ext. exact H. Qed.
Lemma oneof_accessors_keys o : oneof_accessors o = map decl_of (oneof_accessor_keys o).
Proof. unfold oneof_accessors, oneof_accessor_keys. cbn [map]. f_equal. apply concat_map_ext. intros f. apply get_set_keys. Qed.
Lemma oneof_private_keys_eq o : oneof_private o = map decl_of (oneof_private_keys o).
Proof. reflexivity. Qed.
Lemma class_decls_keys d : class_decls d = map decl_of (class_keys d).
Proof.
  destruct d as [scope nested enums fields oneofs]. cbn [class_decls class_keys]. unfold type_keys.
  rewrite (concat_map_ext (get_set false) (field_keys false) decl_of) by apply get_set_keys.
  rewrite (concat_map_ext oneof_accessors oneof_accessor_keys decl_of) by apply oneof_accessors_keys.
  rewrite (concat_map_ext oneof_private oneof_private_keys decl_of) by apply oneof_private_keys_eq.
  replace (presence_decls fields) with (map decl_of (presence_keys fields)) by (unfold presence_decls, presence_keys; destruct (existsb f_optional fields); reflexivity).
  change fixed_functions with (map decl_of fixed_keys).
  replace (map (fun n => (n, DVar)) (concat (map member_variable fields))) with (map decl_of (variable_keys fields)).
  - rewrite !map_app, !map_map, <- !app_assoc. reflexivity.
  - unfold variable_keys. rewrite map_map. induction fields as [|f fields IH]; [reflexivity|]. cbn [map concat filter]. unfold member_variable at 1.
    destruct (recursive f); cbn [negb app map]; [exact IH|f_equal; exact IH].
Qed.

(** ** Where a key comes from *)

Definition d_plain (d : mdef) : list text := let 'MDef _ _ _ fields _ := d in map f_name fields.
Definition d_chosen (d : mdef) : list text := let 'MDef _ _ _ _ oneofs := d in map f_name (concat (map snd oneofs)).
Definition d_oneofs (d : mdef) : list text := let 'MDef _ _ _ _ oneofs := d in map fst oneofs.
Definition d_nested (d : mdef) : list text := let 'MDef _ nested enums _ _ := d in enums ++ map d_name nested.
Definition d_names (d : mdef) : list text := d_plain d ++ d_chosen d.

Definition of_field (t : tag) (k : dkind) : Prop := shape_ok (t, k).
Definition of_oneof (t : tag) (k : dkind) : Prop :=
  match t, k with
  | TWhich, DVar | TPlain, DType | TVar, DVar => True
  | TPre p, DFun _ _ => In p [chars "init_"; chars "clear_"; chars "deserialize_"; chars "to_string_"]
  | _, _ => False
  end.

Lemma In_field_keys oneof fs t b k : In (t, b, k) (concat (map (field_keys oneof) fs)) -> In b (map f_name fs) /\ of_field t k.
Proof.
  intros H. apply in_concat in H. destruct H as (l & Hl & H). apply in_map_iff in Hl. destruct Hl as (f & <- & Hf).
  unfold field_keys in H. apply in_map_iff in H. destruct H as ([t' k'] & E & H). unfold own in E. cbn [fst snd] in E. injection E as <- <- <-.
  split; [apply in_map; exact Hf|]. pose proof (shapes_ok oneof f) as Ho. rewrite Forall_forall in Ho. apply Ho. exact H.
Qed.
Lemma In_oneof_accessor_keys os t b k : In (t, b, k) (concat (map oneof_accessor_keys os)) ->
  (In b (map f_name (concat (map snd os))) /\ of_field t k) \/ (In b (map fst os) /\ t = TPre (chars "get_which_") /\ k = DFun [] true).
Proof.
  intros H. apply in_concat in H. destruct H as (l & Hl & H). apply in_map_iff in Hl. destruct Hl as (o & <- & Ho).
  destruct H as [H|H].
  - right. unfold own, pre in H. cbn [fst snd] in H. injection H as <- <- <-. split; [apply in_map; exact Ho|split; reflexivity].
  - left. apply In_field_keys in H. destruct H as [Hb H]. split; [|exact H]. apply in_map_iff in Hb. destruct Hb as (f & <- & Hf).
    apply in_map. apply in_concat. exists (snd o). split; [apply in_map; exact Ho|exact Hf].
Qed.
Lemma In_private_keys os t b k : In (t, b, k) (concat (map oneof_private_keys os)) -> In b (map fst os) /\ of_oneof t k.
Proof.
  intros H. apply in_concat in H. destruct H as (l & Hl & H). apply in_map_iff in Hl. destruct Hl as (o & <- & Ho).
  unfold oneof_private_keys, own, pre in H. cbn [map In fst snd] in H.
  repeat (destruct H as [H|H]; [injection H as <- <- <-; split; [apply in_map; exact Ho|unfold of_oneof; cbn [In]; tauto]|]). destruct H.
Qed.
Lemma In_fixed_keys t b k : In (t, b, k) fixed_keys ->
  t = TPlain /\ In b declared_taken /\ b <> chars "FieldNumber" /\ b <> chars "presence" /\ exists ps c, k = DFun ps c.
Proof.
  intros H. unfold fixed_keys, fixed_functions in H. cbn [map In fst snd prefixed] in H.
  repeat (destruct H as [H|H]; [injection H as <- <- <-; split; [reflexivity|]; split; [unfold declared_taken; cbn [map In chars]; tauto|];
    split; [discriminate|]; split; [discriminate|]; eexists _, _; reflexivity|]). destruct H.
Qed.
Lemma In_presence_keys fs t b k : In (t, b, k) (presence_keys fs) ->
  b = chars "presence" /\ (t = TPlain /\ k = DType \/ t = TVar /\ k = DVar) /\ existsb f_optional fs = true.
Proof.
  unfold presence_keys. destruct (existsb f_optional fs); [|intros []].
  intros [H|[H|[]]]; injection H as <- <- <-; (split; [reflexivity|]; split; [tauto|reflexivity]).
Qed.
Lemma In_variable_keys fs t b k : In (t, b, k) (variable_keys fs) ->
  t = TVar /\ k = DVar /\ exists f, In f fs /\ recursive f = false /\ b = f_name f.
Proof.
  unfold variable_keys. intros H. apply in_map_iff in H. destruct H as (f & E & H). injection E as <- <- <-. apply filter_In in H. destruct H as [H Hr].
  split; [reflexivity|]. split; [reflexivity|]. exists f. split; [exact H|]. split; [|reflexivity]. destruct (recursive f); [discriminate|reflexivity].
Qed.
Lemma In_type_keys N t b k : In (t, b, k) (type_keys N) -> t = TPlain /\ k = DType /\ In b N.
Proof. unfold type_keys. intros H. apply in_map_iff in H. destruct H as (n & E & H). injection E as <- <- <-. auto. Qed.

(** ** No key twice *)

Definition neat_class (params : list text) (d : mdef) : Prop := neat (d_names d) (d_oneofs d) (d_nested d) (d_name d) params.

Lemma NoDup_app_inv {A} (l1 l2 : list A) : NoDup (l1 ++ l2) -> NoDup l1 /\ NoDup l2 /\ (forall x, In x l1 -> In x l2 -> False).
Proof.
  intros H. split; [eapply NoDup_app_remove_r; exact H|]. split; [eapply NoDup_app_remove_l; exact H|].
  intros x H1 H2. induction l1 as [|y l1 IH]; [destruct H1|]. cbn in H. inversion H as [|? ? Hy Hl]; subst. destruct H1 as [->|H1]; [|auto].
  apply Hy. apply in_or_app. right. exact H2.
Qed.

Lemma NoDup_own n l : NoDup l -> NoDup (map (own n) l).
Proof.
  intros H. induction H as [|x l Hx H IH]; [constructor|]. cbn [map]. constructor; [|exact IH]. intros Hi. apply in_map_iff in Hi.
  destruct Hi as ([t k] & E & Hi). unfold own in E. cbn [fst snd] in E. destruct x as [t' k']. injection E as -> ->. contradiction.
Qed.
Lemma NoDup_field_keys oneof fs : NoDup (map f_name fs) -> NoDup (concat (map (field_keys oneof) fs)).
Proof.
  induction fs as [|f fs IH]; intros H; [constructor|]. cbn [map concat] in *. inversion H as [|? ? Hf Hl]; subst.
  apply NoDup_app; [apply NoDup_own, shapes_NoDup|auto|]. intros [[t b] k] H1 H2. apply In_field_keys in H2. destruct H2 as [Hb _].
  unfold field_keys in H1. apply in_map_iff in H1. destruct H1 as (s & E & _). injection E as _ <- _. contradiction.
Qed.

Lemma NoDup_oneof_accessors os : NoDup (map f_name (concat (map snd os)) ++ map fst os) -> NoDup (concat (map oneof_accessor_keys os)).
Proof.
  induction os as [|o os IH]; intros H; [constructor|]. cbn [map concat] in *.
  apply NoDup_app_inv in H. destruct H as (Hm & Ho & Hd). rewrite map_app in Hm. apply NoDup_app_inv in Hm. destruct Hm as (Hm1 & Hm2 & Hm).
  inversion Ho as [|? ? Ho1 Ho2]; subst.
  apply NoDup_app.
  - unfold oneof_accessor_keys. constructor; [|apply NoDup_field_keys; exact Hm1].
    intros H. apply In_field_keys in H. destruct H as [Hb _]. apply (Hd (fst o)); [rewrite map_app; apply in_or_app; left; exact Hb|left; reflexivity].
  - apply IH. apply NoDup_app; [exact Hm2|exact Ho2|]. intros x H1 H2. apply (Hd x); [rewrite map_app; apply in_or_app; right; exact H1|right; exact H2].
  - intros [[t b] k] H1 H2. apply In_oneof_accessor_keys in H2.
    assert (H1' : In b (map f_name (snd o)) \/ b = fst o).
    { destruct H1 as [H1|H1]; [right; injection H1; congruence|left; apply In_field_keys in H1; apply H1]. }
    destruct H1' as [Hb1| ->], H2 as [[Hb2 _]|[Hb2 _]].
    + apply (Hm b Hb1 Hb2).
    + apply (Hd b); [rewrite map_app; apply in_or_app; left; exact Hb1|right; exact Hb2].
    + apply (Hd (fst o)); [rewrite map_app; apply in_or_app; right; exact Hb2|left; reflexivity].
    + contradiction.
Qed.
Lemma NoDup_oneof_private os : NoDup (map fst os) -> NoDup (concat (map oneof_private_keys os)).
Proof.
  induction os as [|o os IH]; intros H; [constructor|]. cbn [map concat] in *. inversion H as [|? ? Ho Hl]; subst.
  apply NoDup_app; [|auto|].
  - apply NoDup_own. assert (Hn : forall l : list (tag * dkind), nodup shape_dec l = l -> NoDup l) by (intros l E; rewrite <- E; apply NoDup_nodup).
    apply Hn. vm_compute. reflexivity.
  - intros [[t b] k] H1 H2. apply In_private_keys in H2. destruct H2 as [Hb _]. apply in_map_iff in H1. destruct H1 as (s & E & _).
    injection E as _ <- _. contradiction.
Qed.

Lemma taken_declared b : In b declared_taken -> In b taken.
Proof. unfold declared_taken, taken. cbn [map In]. tauto. Qed.

Lemma class_keys_NoDup params d : neat_class params d -> NoDup (class_keys d).
Proof.
  destruct d as [scope nested enums fields oneofs]. set (d := MDef scope nested enums fields oneofs).
  intros Hn. pose proof Hn as (Hnd & _ & _ & _ & Ht & _).
  assert (Htk : forall b, In b (d_names d ++ d_oneofs d ++ d_nested d) -> In b declared_taken -> False).
  { intros b Hb Hi. apply (Ht b); [right; rewrite !app_assoc; apply in_or_app; left; rewrite <- app_assoc; exact Hb|apply taken_declared; exact Hi]. }
  clear Ht. inversion Hnd as [|? ? _ Hnd']; subst. apply NoDup_app_inv in Hnd'. destruct Hnd' as (HF & HON & HFON).
  apply NoDup_app_inv in HON. destruct HON as (HO & HN & HON). unfold d_names in HF. apply NoDup_app_inv in HF. destruct HF as (Hp & Hc & Hpc).
  assert (HpO : forall b, In b (d_plain d) -> In b (d_oneofs d) -> False) by (intros b H1 H2; apply (HFON b); unfold d_names; rewrite in_app_iff; tauto).
  assert (HcO : forall b, In b (d_chosen d) -> In b (d_oneofs d) -> False) by (intros b H1 H2; apply (HFON b); unfold d_names; rewrite in_app_iff; tauto).
  assert (HpN : forall b, In b (d_plain d) -> In b (d_nested d) -> False) by (intros b H1 H2; apply (HFON b); unfold d_names; rewrite in_app_iff; tauto).
  assert (HcN : forall b, In b (d_chosen d) -> In b (d_nested d) -> False) by (intros b H1 H2; apply (HFON b); unfold d_names; rewrite in_app_iff; tauto).
  assert (Tp : forall b, In b (d_plain d) -> In b declared_taken -> False) by (intros b H1 H2; apply (Htk b); unfold d_names; rewrite ?in_app_iff; tauto).
  assert (Tc : forall b, In b (d_chosen d) -> In b declared_taken -> False) by (intros b H1 H2; apply (Htk b); unfold d_names; rewrite ?in_app_iff; tauto).
  assert (TO : forall b, In b (d_oneofs d) -> In b declared_taken -> False) by (intros b H1 H2; apply (Htk b); rewrite ?in_app_iff; tauto).
  assert (TN : forall b, In b (d_nested d) -> In b declared_taken -> False) by (intros b H1 H2; apply (Htk b); rewrite ?in_app_iff; tauto).
  assert (T1 : In (chars "FieldNumber") declared_taken) by (unfold declared_taken; cbn [map In]; tauto).
  assert (T2 : In (chars "presence") declared_taken) by (unfold declared_taken; cbn [map In]; tauto).
  assert (CA : forall t b k, In (t, b, k) (type_keys (enums ++ map d_name nested)) -> t = TPlain /\ k = DType /\ In b (d_nested d)) by exact (In_type_keys (enums ++ map d_name nested)).
  assert (CB : forall t b k, In (t, b, k) [(TPlain, chars "FieldNumber", DType)] -> b = chars "FieldNumber").
  { intros t b k [H|[]]. injection H as <- <- <-. reflexivity. }
  assert (CC : forall t b k, In (t, b, k) (concat (map (field_keys false) fields)) -> In b (d_plain d) /\ of_field t k) by (intros t b k H; exact (In_field_keys _ _ _ _ _ H)).
  assert (CD : forall t b k, In (t, b, k) (concat (map oneof_accessor_keys oneofs)) -> (In b (d_chosen d) /\ of_field t k) \/ (In b (d_oneofs d) /\ t = TPre (chars "get_which_"))).
  { intros t b k H. destruct (In_oneof_accessor_keys _ _ _ _ H) as [H'|H']; [left; exact H'|right; split; apply H']. }
  assert (CE := In_fixed_keys).
  assert (CP : forall t b k, In (t, b, k) (presence_keys fields) -> b = chars "presence") by (intros t b k H; apply (In_presence_keys _ _ _ _ H)).
  assert (CV : forall t b k, In (t, b, k) (variable_keys fields) -> t = TVar /\ In b (d_plain d)).
  { intros t b k H. destruct (In_variable_keys _ _ _ _ H) as (-> & _ & f & Hf & _ & ->). split; [reflexivity|]. exact (in_map f_name _ _ Hf). }
  assert (CW : forall t b k, In (t, b, k) (concat (map oneof_private_keys oneofs)) -> In b (d_oneofs d) /\ of_oneof t k) by (intros t b k H; exact (In_private_keys _ _ _ _ H)).
  assert (HNO : forall b, In b (d_nested d) -> In b (d_oneofs d) -> False) by (intros b H1 H2; exact (HON b H2 H1)).
  assert (NP : NoDup (map f_name fields)) by exact Hp. assert (NN : NoDup (enums ++ map d_name nested)) by exact HN.
  assert (NO : NoDup (map fst oneofs)) by exact HO.
  assert (NA : NoDup (map f_name (concat (map snd oneofs)) ++ map fst oneofs)) by (apply NoDup_app; [exact Hc|exact HO|exact HcO]).
  unfold d. cbn [class_keys]. fold d. clearbody d.
  Ltac section CA CB CC CD CE CP CV CW :=
    let x := fresh in let t := fresh "t" in let b := fresh "b" in let k := fresh "k" in let H1 := fresh "H1" in let H2 := fresh "H2" in
    intros [[t b] k] H1 H2; rewrite ?in_app_iff in H2;
    repeat match goal with H : _ \/ _ |- _ => destruct H as [H|H] end;
    repeat match goal with
    | H : In (_, _, _) (type_keys _) |- _ => apply CA in H
    | H : In (_, _, _) [_] |- _ => apply CB in H
    | H : In (_, _, _) (concat (map (field_keys false) _)) |- _ => apply CC in H
    | H : In (_, _, _) (concat (map oneof_accessor_keys _)) |- _ => apply CD in H
    | H : In (_, _, _) fixed_keys |- _ => apply CE in H
    | H : In (_, _, _) (presence_keys _) |- _ => apply CP in H
    | H : In (_, _, _) (variable_keys _) |- _ => apply CV in H
    | H : In (_, _, _) (concat (map oneof_private_keys _)) |- _ => apply CW in H
    end;
    repeat match goal with H : _ \/ _ |- _ => destruct H as [H|H] end;
    repeat match goal with H : _ /\ _ |- _ => destruct H end; subst;
    try solve [eauto | discriminate | congruence
      | match goal with H : of_field TVar _ |- _ => exact H end
      | match goal with H : of_oneof (TPre _) ?k |- _ => destruct k; cbn [of_oneof In] in H; try contradiction; repeat (destruct H as [H|H]; [discriminate H|]); destruct H end ].
  repeat apply NoDup_app.
  all: try (section CA CB CC CD CE CP CV CW).
  - apply NoDup_map_inj; [intros x y E; injection E; auto|exact NN].
  - repeat constructor. intros [].
  - apply NoDup_field_keys. exact NP.
  - apply NoDup_oneof_accessors. exact NA.
  - assert (H : forall l : list key, nodup key_dec l = l -> NoDup l) by (intros l E; rewrite <- E; apply NoDup_nodup). apply H. vm_compute. reflexivity.
  - unfold presence_keys. destruct (existsb f_optional fields); repeat constructor; cbn [In]; intuition discriminate.
  - unfold variable_keys. assert (H : NoDup (map f_name (filter (fun f => negb (recursive f)) fields))) by (apply NoDup_filter_names; exact NP).
    induction (filter (fun f => negb (recursive f)) fields) as [|f l IH]; [constructor|]. cbn [map] in *. inversion H as [|? ? Hf Hl]; subst.
    constructor; [|auto]. intros Hi. apply Hf. apply in_map_iff in Hi. destruct Hi as (g & E & Hg). injection E as E. rewrite <- E. apply in_map. exact Hg.
  - apply NoDup_oneof_private. exact NO.
Qed.

(** ** Every key is valid, and of the kind its name says *)

Definition kind_ok (t : tag) (k : dkind) : Prop :=
  match t, k with
  | TPlain, DVar => False
  | TPlain, _ => True
  | TPre _, DFun _ _ => True
  | TPre _, _ => False
  | _, DVar => True
  | _, _ => False
  end.
Lemma of_field_kind t k : of_field t k -> kind_ok t k.
Proof. destruct t, k; cbn; intuition discriminate. Qed.
Lemma of_oneof_kind t k : of_oneof t k -> kind_ok t k.
Proof. destruct t, k; cbn; intuition. Qed.
Lemma of_field_valid F O N t b k : of_field t k -> In b F -> valid F O N t b.
Proof. intros H Hb. destruct t, k; cbn in *; try contradiction; try discriminate; rewrite ?in_app_iff; tauto. Qed.
Lemma of_oneof_valid F O N t b k : of_oneof t k -> In b O -> valid F O N t b.
Proof.
  intros H Hb. destruct t as [| | | |p], k; cbn [of_oneof valid] in *; try contradiction; try discriminate; rewrite ?in_app_iff; try tauto.
  split; [|tauto]. unfold function_prefixes. cbn [map In] in *. intuition subst; tauto.
Qed.

Lemma class_keys_In d t b k : In (t, b, k) (class_keys d) ->
  let 'MDef _ nested enums fields oneofs := d in
  (t = TPlain /\ k = DType /\ In b (d_nested d))
  \/ (t = TPlain /\ k = DType /\ b = chars "FieldNumber")
  \/ (In (t, b, k) (concat (map (field_keys false) fields)) /\ In b (d_plain d) /\ of_field t k)
  \/ (In b (d_chosen d) /\ of_field t k) \/ (In b (d_oneofs d) /\ t = TPre (chars "get_which_") /\ k = DFun [] true)
  \/ (t = TPlain /\ In b declared_taken /\ b <> chars "FieldNumber" /\ b <> chars "presence" /\ exists ps c, k = DFun ps c)
  \/ (b = chars "presence" /\ (t = TPlain /\ k = DType \/ t = TVar /\ k = DVar) /\ existsb f_optional fields = true)
  \/ (t = TVar /\ k = DVar /\ In b (d_plain d))
  \/ (In b (d_oneofs d) /\ of_oneof t k).
Proof.
  destruct d as [scope nested enums fields oneofs]. cbn [class_keys]. rewrite !in_app_iff.
  intros [H|[H|[H|[H|[H|[H|[H|H]]]]]]].
  - left. exact (In_type_keys _ _ _ _ H).
  - right. left. destruct H as [H|[]]. injection H as <- <- <-. tauto.
  - do 2 right. left. split; [exact H|]. exact (In_field_keys _ _ _ _ _ H).
  - do 3 right. destruct (In_oneof_accessor_keys _ _ _ _ H) as [H'|H']; [left; exact H'|right; left; exact H'].
  - do 5 right. left. exact (In_fixed_keys _ _ _ H).
  - do 6 right. left. exact (In_presence_keys _ _ _ _ H).
  - do 7 right. left. destruct (In_variable_keys _ _ _ _ H) as (-> & -> & f & Hf & _ & ->). split; [reflexivity|]. split; [reflexivity|].
    exact (in_map f_name _ _ Hf).
  - do 8 right. exact (In_private_keys _ _ _ _ H).
Qed.

Lemma class_keys_valid d t b k : In (t, b, k) (class_keys d) -> valid (d_names d) (d_oneofs d) (d_nested d) t b /\ kind_ok t k.
Proof.
  intros H. apply class_keys_In in H. destruct d as [scope nested enums fields oneofs]. set (d := MDef scope nested enums fields oneofs) in *. clearbody d.
  assert (T1 : In (chars "FieldNumber") declared_taken) by (unfold declared_taken; cbn [map In]; tauto).
  assert (T2 : In (chars "presence") declared_taken) by (unfold declared_taken; cbn [map In]; tauto).
  assert (Hp : forall b, In b (d_plain d) -> In b (d_names d)) by (intros; unfold d_names; rewrite in_app_iff; tauto).
  assert (Hc : forall b, In b (d_chosen d) -> In b (d_names d)) by (intros; unfold d_names; rewrite in_app_iff; tauto).
  destruct H as [(-> & -> & H)|[(-> & -> & ->)|[(_ & H & Hk)|[(H & Hk)|[(H & -> & ->)|[(-> & H & _ & _ & ps & c & ->)|[(-> & [(-> & ->)|(-> & ->)] & _)|[(-> & -> & H)|(H & Hk)]]]]]]]].
  - split; [|exact I]. cbn [valid]. rewrite !in_app_iff. tauto.
  - split; [|exact I]. cbn [valid]. rewrite !in_app_iff. tauto.
  - split; [eapply of_field_valid; eauto|apply of_field_kind; exact Hk].
  - split; [eapply of_field_valid; eauto|apply of_field_kind; exact Hk].
  - split; [|exact I]. cbn [valid]. split; [unfold function_prefixes; cbn [map In]; tauto|]. rewrite in_app_iff. tauto.
  - split; [|exact I]. cbn [valid]. rewrite !in_app_iff. tauto.
  - split; [|exact I]. cbn [valid]. rewrite !in_app_iff. tauto.
  - split; [|exact I]. cbn [valid]. rewrite !in_app_iff. cbn [In]. tauto.
  - split; [|exact I]. cbn [valid]. rewrite !in_app_iff. left. apply Hp. exact H.
  - split; [eapply of_oneof_valid; eauto|apply of_oneof_kind; exact Hk].
Qed.

Lemma class_decl_key d n k : In (n, k) (class_decls d) <-> exists t b, In (t, b, k) (class_keys d) /\ n = spell t b.
Proof.
  rewrite class_decls_keys, in_map_iff. split.
  - intros ([[t b] k'] & E & H). cbn [decl_of] in E. injection E as <- <-. exists t, b. auto.
  - intros (t & b & H & ->). exists (t, b, k). auto.
Qed.

(** ** The declarations go together *)

Lemma compatible_pairs params d : neat_class params d -> ForallOrdPairs compatible (class_decls d).
Proof.
  intros Hn. rewrite class_decls_keys. pose proof (class_keys_NoDup _ _ Hn) as Hnd.
  assert (Hv : forall t b k, In (t, b, k) (class_keys d) -> valid (d_names d) (d_oneofs d) (d_nested d) t b /\ kind_ok t k) by (intros; eapply class_keys_valid; eassumption).
  revert Hnd Hv. generalize (class_keys d). intros l. induction l as [|[[t b] k] l IH]; intros Hnd Hv; [constructor|].
  cbn [map]. inversion Hnd as [|? ? Hx Hl]; subst. constructor; [|apply IH; [exact Hl|intros; apply Hv; right; assumption]].
  apply Forall_forall. intros y Hy. apply in_map_iff in Hy. destruct Hy as ([[t' b'] k'] & <- & Hy). unfold compatible. cbn [decl_of fst snd]. intros E.
  destruct (Hv t b k) as [V1 K1]; [left; reflexivity|]. destruct (Hv t' b' k') as [V2 K2]; [right; exact Hy|].
  destruct (spell_inj _ _ _ _ _ _ _ _ _ Hn V1 V2 E) as [<- <-].
  assert (Hk : k <> k') by (intros ->; contradiction).
  destruct t, k, k'; cbn [kind_ok] in *; try contradiction; try exact I; try congruence;
    (destruct (list_eq_dec text_dec params0 params1) as [->|]; [right; congruence|left; assumption]).
Qed.

Lemma spelled_names params d t b a : neat_class params d -> valid (d_names d) (d_oneofs d) (d_nested d) t b -> apart (d_names d) (d_oneofs d) a ->
  spell t b = a -> In a (d_names d ++ d_oneofs d ++ d_nested d ++ declared_taken).
Proof.
  intros Hn Hv Ha E. pose proof (apart_spell _ _ _ _ _ _ _ _ Hn Ha Hv E) as ->. cbn [spell valid] in *. subst a. exact Hv.
Qed.

Lemma declarable params d n : neat_class params d -> In n (map fst (class_decls d)) -> may_declare (d_name d) params n.
Proof.
  intros Hn H. apply in_map_iff in H. destruct H as ([n' k] & <- & H). cbn [fst]. apply class_decl_key in H. destruct H as (t & b & H & ->).
  destruct (class_keys_valid _ _ _ _ H) as [Hv _]. pose proof Hn as (Hnd & _ & _ & Ha & Ht & _).
  assert (Hall : forall a, apart (d_names d) (d_oneofs d) a -> spell t b = a -> In a (d_names d ++ d_oneofs d ++ d_nested d) \/ In a declared_taken).
  { intros a Hap E. pose proof (spelled_names _ _ _ _ _ Hn Hv Hap E) as Hi. rewrite !in_app_iff in *. tauto. }
  assert (Hkt : forall a, In a keywords -> ~ In a declared_taken).
  { intros a Hk Hd. unfold declared_taken in Hd. assert (F : existsb (fun x => mem x keywords) declared_taken = false) by (vm_compute; reflexivity).
    apply Bool.not_true_iff_false in F. apply F. apply existsb_exists. exists a. split; [exact Hd|]. unfold mem. apply existsb_exists. exists a.
    split; [exact Hk|]. unfold text_eqb. destruct (text_dec a a); congruence. }
  split; [|split].
  - intros Hk. destruct (Hall _ (apart_odd _ _ _ (in_or_app _ _ _ (or_intror (in_or_app _ _ _ (or_intror Hk))))) eq_refl) as [Hi|Hi].
    + destruct (Ha (spell t b)) as (_ & Hk' & _); [right; exact Hi|contradiction].
    + exact (Hkt _ Hk Hi).
  - intros E. assert (Hc : In (d_name d) (d_name d :: d_names d ++ d_oneofs d ++ d_nested d ++ params)) by (left; reflexivity).
    destruct (Hall (d_name d)) as [Hi|Hi]; [|exact E| |].
    + eapply apart_names; [exact Hn|exact Hc|apply Ha; left; reflexivity].
    + inversion Hnd as [|? ? Hx _]; subst. contradiction.
    + apply (Ht _ Hc). apply taken_declared. exact Hi.
  - intros Hp. assert (Hc : In (spell t b) (d_name d :: d_names d ++ d_oneofs d ++ d_nested d ++ params)) by (right; rewrite !in_app_iff; tauto).
    assert (Hne : spell t b <> []).
    { destruct t as [| | | |p]; cbn [spell valid] in *.
      - rewrite !app_assoc in Hv. apply in_app_or in Hv. destruct Hv as [Hv|Hv]; [apply Ha; right; rewrite app_assoc; exact Hv|].
        unfold declared_taken in Hv. in_cases Hv; discriminate.
      - destruct (upper b); discriminate.
      - destruct b; discriminate.
      - discriminate.
      - destruct Hv as [_ Hb]. intros E. apply app_eq_nil in E. destruct E as [_ ->]. exact (base_nonempty _ _ _ _ _ _ Hn Hb eq_refl). }
    destruct (Hall (spell t b)) as [Hi|Hi]; [|reflexivity| |].
    + eapply apart_names; [exact Hn|exact Hc|exact Hne].
    + destruct (Ha (spell t b)) as (_ & _ & Hp'); [right; exact Hi|contradiction].
    + apply (Ht _ Hc). apply taken_declared. exact Hi.
Qed.
