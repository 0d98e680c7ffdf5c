(** * GenBodySound: the names in the functions of a generated class stand for what they should. *)
From Coq Require Import String.
From Verif Require Import Base Buffers Wire Schema Fields Message Api Spec BitLemmas Printf Generator GenMembers GenBody SpecBody GenOrder GenBodyRun.
From Coq Require Import List ZifyBool ZifyNat Lia.

(** ** Classes whose names are all different *)

(** The class of a field in Field.py and its type. *)
Definition fits_class (cl : fclass) (t : ety) : Prop :=
  match cl with
  | FieldBasic sc => t = EScalar sc
  | FieldEnum _ => t = EScalar Enumeration
  | FieldString _ => exists n, t = EBytes true n
  | FieldBytes _ => exists n, t = EBytes false n
  | FieldMessage _ => exists fs os, t = EMsg fs os
  | _ => False
  end.
Definition fits_field (f : field) (x : fdesc) : Prop :=
  let '(num, k, t) := x in
  f_number f = num
  /\ match f_class f with
     | FieldErrorRecursive => k = KRecursive /\ f_optional f = false
     | FieldRepeated _ _ => (exists n, k = KRep n) /\ f_optional f = false
     | cl => k = (if f_optional f then KOpt else KPlain) /\ fits_class cl t
     end.
Definition fits_member (f : field) (x : Z * ety) : Prop := f_number f = fst x /\ f_optional f = false /\ fits_class (f_class f) (snd x).
Definition fits_oneof (o : text * list field) (ms : odesc) : Prop := Forall2 fits_member (snd o) ms.

Definition cell_names (fields : list field) (oneofs : list (text * list field)) : list text :=
  map (fun f => variable_name (f_name f)) (filter (fun f => negb (recursive f)) fields)
  ++ concat (map (fun o => [which_name (fst o); variable_name (fst o)]) oneofs).

Record sound (d : mdef) (fs : list fdesc) (os : list odesc) : Prop := {
  s_fields : Forall2 fits_field (fields_of d) fs;
  s_oneofs : Forall2 fits_oneof (oneofs_of d) os;
  s_cells : NoDup (cell_names (fields_of d) (oneofs_of d));
  s_unions : Forall (fun o => NoDup (map (fun f => variable_name (f_name f)) (snd o))) (oneofs_of d);
  s_ids : NoDup (map fst (c_numbers (class_of d fs os)));
  s_numbers : NoDup (map snd (c_numbers (class_of d fs os)));
  s_presence : NoDup (presence_fields d);
  s_constants : NoDup (map fst (c_constants (class_of d fs os)));
  s_functions : NoDup (map fst (c_functions (class_of d fs os)))
}.

Lemma Forall2_nth {A B} (P : A -> B -> Prop) l1 l2 i x : Forall2 P l1 l2 -> nth_error l1 i = Some x -> exists y, nth_error l2 i = Some y /\ P x y.
Proof. intros H. revert i. induction H as [|a b l1 l2 Hab _ IH]; intros [|i] E; try discriminate; [injection E as <-; exists b; auto|apply IH; exact E]. Qed.
Lemma Forall2_nth_r {A B} (P : A -> B -> Prop) l1 l2 i y : Forall2 P l1 l2 -> nth_error l2 i = Some y -> exists x, nth_error l1 i = Some x /\ P x y.
Proof. intros H. revert i. induction H as [|a b l1 l2 Hab _ IH]; intros [|i] E; try discriminate; [injection E as <-; exists a; auto|apply IH; exact E]. Qed.

Section Sound.
Context (d : mdef) (fs : list fdesc) (os : list odesc) (Hs : sound d fs os).
Notation c := (class_of d fs os).
Notation fields := (fields_of d).
Notation oneofs := (oneofs_of d).

Lemma class_numbers : c_numbers c = numbers_of fields oneofs. Proof. destruct d; reflexivity. Qed.
Lemma class_constants : c_constants c = map (fun f => (name_constant (f_name f), f_name f)) (fields ++ concat (map snd oneofs)). Proof. destruct d; reflexivity. Qed.
Lemma class_types : c_types c = variables_of fields fs. Proof. destruct d; reflexivity. Qed.
Lemma class_unions : c_unions c = map (fun '(o, ms) => union_of o ms) (combine oneofs os). Proof. destruct d; reflexivity. Qed.
Lemma class_functions : c_functions c = functions fields oneofs. Proof. destruct d; reflexivity. Qed.
Lemma class_presence : c_presence c = map (fun f => upper (f_name f)) (filter f_optional fields). Proof. destruct d; reflexivity. Qed.

Lemma not_set_value : enum_value c (chars "NOT_SET") = Done 0.
Proof. unfold enum_value. rewrite class_numbers. reflexivity. Qed.
Lemma look_id f : In f (fields ++ concat (map snd oneofs)) -> look (id_name f) (c_numbers c) = Some (f_number f).
Proof.
  intros Hf. apply look_In; [apply (s_ids _ _ _ Hs)|]. rewrite class_numbers. unfold numbers_of. right.
  change (id_name f, f_number f) with ((fun g => (id_name g, f_number g)) f). apply in_map. exact Hf.
Qed.
Lemma id_value f : In f (fields ++ concat (map snd oneofs)) -> enum_value c (id_name f) = Done (f_number f).
Proof. intros Hf. unfold enum_value. rewrite look_id by exact Hf. reflexivity. Qed.
Lemma number_not_zero f : In f (fields ++ concat (map snd oneofs)) -> f_number f <> 0.
Proof.
  intros Hf E. pose proof (s_numbers _ _ _ Hs) as H. rewrite class_numbers in H. unfold numbers_of in H. cbn [map snd] in H. inversion H as [|? ? Hx _]; subst.
  apply Hx. rewrite map_map. cbn [snd]. rewrite <- E. apply in_map. exact Hf.
Qed.
Lemma number_inj f g : In f (fields ++ concat (map snd oneofs)) -> In g (fields ++ concat (map snd oneofs)) -> f_number f = f_number g -> f = g.
Proof.
  pose proof (s_numbers _ _ _ Hs) as H. rewrite class_numbers in H. unfold numbers_of in H. cbn [map snd] in H. inversion H as [|? ? _ Hx]; subst.
  rewrite map_map in Hx. cbn [snd] in Hx. clear - Hx. induction (fields ++ concat (map snd oneofs)) as [|a l IH]; intros Hf Hg E; [destruct Hf|].
  cbn [map] in Hx. inversion Hx as [|? ? Ha Hl]; subst. destruct Hf as [<-|Hf], Hg as [<-|Hg]; [reflexivity| | |apply IH; assumption]; exfalso; apply Ha.
  - rewrite E. apply in_map. exact Hg.
  - rewrite <- E. apply in_map. exact Hf.
Qed.
Lemma function_found k n fn : In (k, n, fn) (functions fields oneofs) -> look_function k n (c_functions c) = Some fn.
Proof. intros H. apply (look_function_In (k, n, fn)); [apply (s_functions _ _ _ Hs)|rewrite class_functions; exact H]. Qed.
Lemma constant_found f : In f (fields ++ concat (map snd oneofs)) -> look (name_constant (f_name f)) (c_constants c) = Some (f_name f).
Proof.
  intros Hf. apply look_In; [apply (s_constants _ _ _ Hs)|]. rewrite class_constants.
  change (name_constant (f_name f), f_name f) with ((fun g => (name_constant (f_name g), f_name g)) f). apply in_map. exact Hf.
Qed.

Lemma variables_names l1 l2 : Forall2 fits_field l1 l2 -> map fst (variables_of l1 l2) = map (fun f => variable_name (f_name f)) (filter (fun f => negb (recursive f)) l1).
Proof.
  induction 1 as [|f [[num k] t] l1 l2 _ _ IH]; [reflexivity|]. unfold variables_of. cbn [combine map concat filter]. destruct (recursive f); cbn [negb app map fst]; [exact IH|f_equal; exact IH].
Qed.
Lemma variables_In l1 l2 i f num k t : nth_error l1 i = Some f -> nth_error l2 i = Some (num, k, t) -> recursive f = false ->
  In (variable_name (f_name f), oty_of k t) (variables_of l1 l2).
Proof.
  revert l2 i. induction l1 as [|g l1 IH]; intros [|[[num' k'] t'] l2] [|i] H1 H2 Hr; try discriminate; unfold variables_of; cbn [combine map concat]; apply in_or_app.
  - injection H1 as ->. injection H2 as -> -> ->. rewrite Hr. left. left. reflexivity.
  - right. apply (IH l2 i); assumption.
Qed.
Lemma variable_type i f num k t : nth_error fields i = Some f -> nth_error fs i = Some (num, k, t) -> recursive f = false ->
  type_of c (place None f) = Done (oty_of k t).
Proof.
  intros H1 H2 Hr. cbn [place type_of]. rewrite class_types. rewrite (look_In _ (oty_of k t)); [reflexivity| |eapply variables_In; eassumption].
  rewrite (variables_names _ _ (s_fields _ _ _ Hs)). pose proof (s_cells _ _ _ Hs) as H. unfold cell_names in H. apply NoDup_app_remove_r in H. exact H.
Qed.

Lemma NoDup_cells_oneofs : NoDup (concat (map (fun o => [which_name (fst o); variable_name (fst o)]) oneofs)).
Proof. pose proof (s_cells _ _ _ Hs) as H. unfold cell_names in H. apply NoDup_app_remove_l in H. exact H. Qed.
Lemma unions_names (l1 : list (text * list field)) (l2 : list odesc) : length l1 = length l2 ->
  map fst (map (fun '(o, ms) => union_of o ms) (combine l1 l2)) = map (fun o => variable_name (fst o)) l1.
Proof. revert l2. induction l1 as [|o l1 IH]; intros [|ms l2] H; try discriminate; [reflexivity|]. cbn [combine map]. f_equal. apply IH. now injection H. Qed.
Lemma NoDup_second {A B} (f g : A -> B) l : NoDup (concat (map (fun o => [f o; g o]) l)) -> NoDup (map g l).
Proof.
  induction l as [|a l IH]; intros H; [constructor|]. cbn [map concat app] in *. inversion H as [|? ? _ H']; subst. inversion H' as [|? ? Hx Hl]; subst.
  constructor; [|apply IH; exact Hl]. intros Hi. apply Hx. apply in_map_iff in Hi. destruct Hi as (b & Eb & Hb). apply in_concat. exists [f b; g b].
  split; [change [f b; g b] with ((fun o => [f o; g o]) b); apply in_map; exact Hb|right; left; exact Eb].
Qed.
Lemma oneof_In j o f : nth_error oneofs j = Some o -> In f (snd o) -> In f (fields ++ concat (map snd oneofs)).
Proof. intros Ho Hf. apply in_or_app. right. apply in_concat. exists (snd o). split; [apply in_map; eapply nth_error_In; exact Ho|exact Hf]. Qed.
Lemma member_type j o ms i f num t : nth_error oneofs j = Some o -> nth_error os j = Some ms -> nth_error (snd o) i = Some f -> nth_error ms i = Some (num, t) ->
  type_of c (place (Some (fst o)) f) = Done (OElem t).
Proof.
  intros Ho Hms Hf Hm. cbn [place type_of]. rewrite class_unions.
  assert (Hlen : length oneofs = length os) by (eapply Forall2_length_eq || (pose proof (s_oneofs _ _ _ Hs) as H; clear - H; induction H; cbn; congruence)).
  rewrite (look_In _ (snd (union_of o ms))).
  - cbn [get bind union_of snd].
    assert (Hn : NoDup (map (fun g => variable_name (f_name g)) (snd o))).
    { pose proof (s_unions _ _ _ Hs) as H. rewrite Forall_forall in H. apply H. eapply nth_error_In. exact Ho. }
    destruct (Forall2_nth _ _ _ _ _ (s_oneofs _ _ _ Hs) Ho) as (ms' & E & Hfit). rewrite Hms in E. injection E as <-. red in Hfit.
    rewrite (look_In _ t); [reflexivity| |].
    + replace (map fst (map (fun '(g, (_, t0)) => (variable_name (f_name g), t0)) (combine (snd o) ms))) with (map (fun g => variable_name (f_name g)) (snd o)); [exact Hn|].
      clear - Hfit. induction Hfit as [|g [n t] l1 l2 _ _ IH]; [reflexivity|]. cbn [combine map fst]. f_equal. exact IH.
    + clear - Hf Hm. revert i ms Hf Hm. induction (snd o) as [|g l IH]; intros [|i] [|[n' t'] ms] Hf Hm; try discriminate.
      * injection Hf as ->. injection Hm as -> ->. left. reflexivity.
      * right. apply (IH i ms); assumption.
  - rewrite unions_names by exact Hlen. apply (NoDup_second (fun o => which_name (fst o))). apply NoDup_cells_oneofs.
  - change (variable_name (fst o), snd (union_of o ms)) with ((fun '(o', ms') => union_of o' ms') (o, ms)). apply in_map.
    clear - Ho Hms. revert j os Ho Hms. induction oneofs as [|o' l IH]; intros [|j] [|ms' os] Ho Hms; try discriminate.
    + injection Ho as ->. injection Hms as ->. left. reflexivity.
    + right. apply (IH j os); assumption.
Qed.

Lemma index_of_In l1 n l2 : ~ In n l1 -> index_of n (l1 ++ n :: l2) = Some (Z.of_nat (length l1)).
Proof.
  induction l1 as [|m l1 IH]; intros H; cbn [app index_of].
  - rewrite text_eqb_refl. reflexivity.
  - rewrite text_eqb_neq by (intros ->; apply H; left; reflexivity). rewrite IH by (intros Hi; apply H; right; exact Hi). cbn [option_map length]. f_equal. lia.
Qed.
Lemma fits_next f num k t z : fits_field f (num, k, t) -> next_opt k z = if f_optional f then z + 1 else z.
Proof.
  intros [_ Hf]. destruct (f_class f), (f_optional f); destruct Hf as [Hk Ho]; try discriminate Ho; try (rewrite Hk; reflexivity); destruct Hk as [n Hk]; rewrite Hk; reflexivity.
Qed.
Lemma opt_index_count l1 l2 : Forall2 fits_field l1 l2 -> forall i, (i <= length l1)%nat -> opt_index l2 i = Z.of_nat (length (filter f_optional (firstn i l1))).
Proof.
  induction 1 as [|f [[num k] t] l1 l2 Hf _ IH]; intros i Hi; [destruct i; reflexivity|]. destruct i as [|i]; [reflexivity|]. cbn [opt_index firstn filter].
  rewrite IH by (cbn in Hi; lia). rewrite (fits_next _ _ _ _ _ Hf). destruct (f_optional f); cbn [length]; lia.
Qed.
Lemma presence_index_of i f : nth_error fields i = Some f -> f_optional f = true -> presence_value c (upper (f_name f)) = Done (opt_index fs i).
Proof.
  intros Hf Ho. unfold presence_value. rewrite class_presence. pose proof (s_presence _ _ _ Hs) as Hn.
  replace (presence_fields d) with (map (fun f => upper (f_name f)) (filter f_optional fields)) in Hn by (destruct d; reflexivity).
  rewrite (opt_index_count _ _ (s_fields _ _ _ Hs)) by (apply nth_error_lt in Hf; lia).
  destruct (nth_error_split _ _ Hf) as (l1 & l2 & E & El). rewrite E in *. rewrite firstn_app, <- El, Nat.sub_diag, firstn_all. cbn [firstn]. rewrite app_nil_r.
  rewrite filter_app, map_app in *. cbn [filter] in *. rewrite Ho in *. cbn [map] in *. rewrite index_of_In; [rewrite map_length; reflexivity|].
  apply NoDup_remove_2 in Hn. intros Hi. apply Hn. apply in_or_app. left. exact Hi.
Qed.
Lemma opt_index_next i num k t : nth_error fs i = Some (num, k, t) -> opt_index fs (Datatypes.S i) = next_opt k (opt_index fs i).
Proof.
  clear. revert i. induction fs as [|[[n' k'] t'] l IH]; intros [|i] E; try discriminate.
  - injection E as -> -> ->. cbn [opt_index]. destruct k, l as [|[[? ?] ?] ?]; reflexivity.
  - cbn [nth_error] in E. specialize (IH i E). cbn [opt_index] in IH |- *.
    destruct l as [|[[n2 k2] t2] l]; [destruct i; discriminate|]. destruct i as [|i]; cbn [opt_index] in *; destruct k, k'; cbn [next_opt] in *; lia.
Qed.

(** ** Objects *)

(** The variables that a function may have changed. *)
Definition same_but (ns : list text) (ob ob' : object) : Prop :=
  ob_presence ob' = ob_presence ob /\ forall n, ~ In n ns -> look n (ob_cells ob') = look n (ob_cells ob).
Lemma same_but_refl ns ob : same_but ns ob ob.
Proof. split; [reflexivity|]. intros. reflexivity. Qed.
Lemma same_but_trans ns ob ob' ob'' : same_but ns ob ob' -> same_but ns ob' ob'' -> same_but ns ob ob''.
Proof. intros [H1 H2] [H3 H4]. split; [congruence|]. intros n Hn. rewrite H4, H2 by exact Hn. reflexivity. Qed.
Lemma same_but_cell ns ob n x : In n ns -> same_but ns ob (with_cell ob n x).
Proof. intros H. split; [reflexivity|]. intros m Hm. cbn [with_cell ob_cells]. apply look_put_other. intros ->. contradiction. Qed.

Lemma NoDup_filter_nth {A B} (g : A -> B) (q : A -> bool) l : NoDup (map g (filter q l)) -> forall i j x y, nth_error l i = Some x -> nth_error l j = Some y ->
  q x = true -> q y = true -> g x = g y -> i = j.
Proof.
  induction l as [|a l IH]; intros Hn i j x y Hi Hj Hx Hy E; [destruct i; discriminate|]. destruct i as [|i], j as [|j]; cbn [nth_error] in Hi, Hj; [reflexivity| | |].
  - exfalso. injection Hi as ->. cbn [filter] in Hn. rewrite Hx in Hn. cbn [map] in Hn. inversion Hn as [|? ? Ha _]; subst. apply Ha. rewrite E. apply in_map.
    apply filter_In. split; [eapply nth_error_In; exact Hj|exact Hy].
  - exfalso. injection Hj as ->. cbn [filter] in Hn. rewrite Hy in Hn. cbn [map] in Hn. inversion Hn as [|? ? Ha _]; subst. apply Ha. rewrite <- E. apply in_map.
    apply filter_In. split; [eapply nth_error_In; exact Hi|exact Hx].
  - f_equal. apply (IH ltac:(cbn [filter] in Hn; destruct (q a); [inversion Hn; assumption|exact Hn]) i j x y); assumption.
Qed.
Lemma cell_fields i f : nth_error fields i = Some f -> recursive f = false -> forall j g, nth_error fields j = Some g -> recursive g = false ->
  variable_name (f_name g) = variable_name (f_name f) -> i = j.
Proof.
  intros Hi Hf j g Hj Hg E. pose proof (s_cells _ _ _ Hs) as H. unfold cell_names in H. apply NoDup_app_remove_r in H.
  refine (NoDup_filter_nth _ _ _ H i j f g Hi Hj _ _ (eq_sym E)); [rewrite Hf|rewrite Hg]; reflexivity.
Qed.

Lemma NoDup_concat_nth {A} (ls : list (list A)) : NoDup (concat ls) -> forall i j l1 l2 x, nth_error ls i = Some l1 -> nth_error ls j = Some l2 -> In x l1 -> In x l2 -> i = j.
Proof.
  induction ls as [|l ls IH]; intros Hn i j l1 l2 x Hi Hj H1 H2; [destruct i; discriminate|]. cbn [concat] in Hn.
  assert (Hdis : forall y k l', In y l -> nth_error ls k = Some l' -> In y l' -> False).
  { intros y k l' Hy Hk Hy'. apply in_split in Hy. destruct Hy as (a & b & ->). rewrite <- app_assoc in Hn. cbn [app] in Hn. apply NoDup_remove_2 in Hn. apply Hn.
    apply in_or_app. right. apply in_or_app. right. apply in_concat. exists l'. split; [eapply nth_error_In; exact Hk|exact Hy']. }
  destruct i as [|i], j as [|j]; cbn [nth_error] in Hi, Hj; [reflexivity| | |].
  - injection Hi as <-. exfalso. eapply Hdis; eassumption.
  - injection Hj as <-. exfalso. eapply Hdis; [exact H2|exact Hi|exact H1].
  - f_equal. eapply IH; [eapply NoDup_app_remove_l; exact Hn| | | |]; eassumption.
Qed.
Definition oneof_cells (o : text * list field) : list text := [which_name (fst o); variable_name (fst o)].
Lemma cell_oneofs j1 j2 o1 o2 n : nth_error oneofs j1 = Some o1 -> nth_error oneofs j2 = Some o2 -> In n (oneof_cells o1) -> In n (oneof_cells o2) -> j1 = j2.
Proof.
  intros H1 H2 Hn1 Hn2. refine (NoDup_concat_nth _ NoDup_cells_oneofs j1 j2 (oneof_cells o1) (oneof_cells o2) n _ _ Hn1 Hn2);
    [apply (map_nth_error (fun o => [which_name (fst o); variable_name (fst o)]) _ _ H1)|apply (map_nth_error (fun o => [which_name (fst o); variable_name (fst o)]) _ _ H2)].
Qed.
Lemma cell_which o j : nth_error oneofs j = Some o -> which_name (fst o) <> variable_name (fst o).
Proof.
  intros Ho E. destruct (nth_error_split _ _ Ho) as (l1 & l2 & El & _). pose proof NoDup_cells_oneofs as H. rewrite El, map_app, concat_app in H.
  apply NoDup_app_remove_l in H. cbn [map concat app] in H. inversion H as [|? ? Hx _]; subst. apply Hx. left. symmetry. exact E.
Qed.
Lemma cell_field_oneof i f j o : nth_error fields i = Some f -> recursive f = false -> nth_error oneofs j = Some o -> ~ In (variable_name (f_name f)) (oneof_cells o).
Proof.
  intros Hf Hr Ho Hi. pose proof (s_cells _ _ _ Hs) as H. unfold cell_names in H.
  assert (H1 : In (variable_name (f_name f)) (map (fun g => variable_name (f_name g)) (filter (fun g => negb (recursive g)) fields))).
  { change (variable_name (f_name f)) with ((fun h => variable_name (f_name h)) f). apply in_map. apply filter_In. split; [eapply nth_error_In; exact Hf|rewrite Hr; reflexivity]. }
  apply in_split in H1. destruct H1 as (a & b & E). rewrite E, <- app_assoc in H. cbn [app] in H. apply NoDup_remove_2 in H. apply H. apply in_or_app. right. apply in_or_app. right.
  apply in_concat. exists (oneof_cells o). split; [|exact Hi]. eapply nth_error_In. apply (map_nth_error (fun o => [which_name (fst o); variable_name (fst o)]) _ _ Ho).
Qed.

Lemma Forall2_upd {A B} (P Q : A -> B -> Prop) l1 l2 j y : Forall2 P l1 l2 -> (forall i a b, nth_error l1 i = Some a -> i <> j -> P a b -> Q a b) ->
  (forall a, nth_error l1 j = Some a -> Q a y) -> Forall2 Q l1 (upd j y l2).
Proof.
  intros H. revert j. induction H as [|a b l1 l2 Hab Hl IH]; intros j H1 H2; [destruct j; constructor|]. destruct j as [|j]; cbn [upd]; constructor.
  - apply H2. reflexivity.
  - assert (Hr : forall i a b, nth_error l1 i = Some a -> P a b -> Q a b) by (intros i a' b' Hi; apply (H1 (Datatypes.S i)); [exact Hi|lia]).
    clear - Hl Hr. induction Hl as [|a' b' l1 l2 Hab _ IH]; constructor; [apply (Hr 0%nat); [reflexivity|exact Hab]|apply IH; intros i; apply (Hr (Datatypes.S i))].
  - apply (H1 0%nat); [reflexivity|lia|exact Hab].
  - apply IH; [intros i a' b' Hi Hij; apply (H1 (Datatypes.S i)); [exact Hi|lia]|intros a' Ha'; apply H2; exact Ha'].
Qed.
Lemma Forall2_weaken {A B} (P Q : A -> B -> Prop) l1 l2 : Forall2 P l1 l2 -> (forall i a b, nth_error l1 i = Some a -> P a b -> Q a b) -> Forall2 Q l1 l2.
Proof.
  intros Hl Hr. induction Hl as [|a' b' l1 l2 Hab _ IH]; constructor; [apply (Hr 0%nat); [reflexivity|exact Hab]|apply IH; intros i; apply (Hr (Datatypes.S i))].
Qed.

Lemma held_same ob ob' o w : look (which_name (fst o)) (ob_cells ob') = look (which_name (fst o)) (ob_cells ob) ->
  look (variable_name (fst o)) (ob_cells ob') = look (variable_name (fst o)) (ob_cells ob) -> oneof_held ob o w -> oneof_held ob' o w.
Proof. intros E1 E2 (H1 & a & y & H2 & H3). split; [rewrite E1; exact H1|]. exists a, y. split; [rewrite E2; exact H2|exact H3]. Qed.

Lemma hold_read ob pres vs ovs i f : holds_value d ob (VM pres vs ovs) -> nth_error fields i = Some f -> recursive f = false ->
  exists v, nth_error vs i = Some v /\ look (variable_name (f_name f)) (ob_cells ob) = Some (CField v) /\ read ob (place None f) = Done v.
Proof.
  intros (_ & Hf & _) Hi Hr. destruct (Forall2_nth _ _ _ _ _ Hf Hi) as (v & Hv & H). exists v. specialize (H Hr). split; [exact Hv|]. split; [exact H|].
  cbn [place read]. rewrite H. reflexivity.
Qed.
Lemma hold_write ob pres vs ovs i f v : holds_value d ob (VM pres vs ovs) -> nth_error fields i = Some f -> recursive f = false ->
  holds_value d (write ob (place None f) v) (VM pres (upd i v vs) ovs).
Proof.
  intros H Hi Hr. destruct (hold_read _ _ _ _ _ _ H Hi Hr) as (v0 & Hv0 & E0 & _). destruct H as (Hp & Hf & Ho). cbn [place write]. split; [exact Hp|]. split.
  - apply (Forall2_upd _ _ _ _ i v Hf).
    + intros j g x Hj Hij Hg Hrg. cbn [with_cell ob_cells]. rewrite look_put_other; [apply Hg; exact Hrg|]. intros E. apply Hij. symmetry. eapply cell_fields; eassumption.
    + intros g Hg _. rewrite Hi in Hg. injection Hg as <-. cbn [with_cell ob_cells]. eapply look_put. exact E0.
  - apply (Forall2_weaken _ _ _ _ Ho). intros j o w Hj. pose proof (cell_field_oneof _ _ _ _ Hi Hr Hj) as Hn. unfold oneof_cells in Hn. cbn [In] in Hn.
    apply held_same; cbn [with_cell ob_cells]; apply look_put_other; intros E; apply Hn; rewrite E; tauto.
Qed.
Lemma hold_presence ob pres vs ovs p : holds_value d ob (VM pres vs ovs) -> holds_value d (with_presence ob p) (VM p vs ovs).
Proof. intros (_ & Hf & Ho). split; [reflexivity|]. split; [exact Hf|exact Ho]. Qed.
Lemma hold_oneof ob ob' pres vs ovs j o w : holds_value d ob (VM pres vs ovs) -> nth_error oneofs j = Some o -> same_but (oneof_cells o) ob ob' -> oneof_held ob' o w ->
  holds_value d ob' (VM pres vs (upd j w ovs)).
Proof.
  intros (Hp & Hf & Ho) Hj (Hp' & Hs') Hw. split; [rewrite Hp'; exact Hp|]. split.
  - apply (Forall2_weaken _ _ _ _ Hf). intros i f v Hi Hv Hr. rewrite Hs'; [apply Hv; exact Hr|]. eapply cell_field_oneof; eassumption.
  - apply (Forall2_upd _ _ _ _ j w Ho).
    + intros j' o' w' Hj' Hne. apply held_same; apply Hs'; intros Hi; apply Hne; eapply cell_oneofs; [exact Hj'|exact Hj| |exact Hi| exact Hj'|exact Hj| |exact Hi]; unfold oneof_cells; cbn [In]; tauto.
    + intros o' Ho'. rewrite Hj in Ho'. injection Ho' as <-. exact Hw.
Qed.
End Sound.
