(** * GenBodyOneof: the functions that a generated class has for a oneof. *)
From Coq Require Import String.
From Verif Require Import Base Buffers Wire Schema Fields Message Api Spec BitLemmas Printf Generator GenMembers GenBody SpecBody GenOrder GenBodyRun GenBodySound DecodeProofs.
From Coq Require Import List ZifyBool ZifyNat Lia.

(** Two results that correspond. *)
Definition rel {A B} (P : A -> B -> Prop) (x : res A) (y : res B) : Prop :=
  match x, y with Done a, Done b => P a b | UB, UB => True | Fuel, Fuel => True | _, _ => False end.
Lemma rel_bind {A B A' B'} (P : A -> B -> Prop) (Q : A' -> B' -> Prop) x y f g :
  rel P x y -> (forall a b, P a b -> rel Q (f a) (g b)) -> rel Q (bind x f) (bind y g).
Proof. destruct x, y; cbn; intros H Hfg; try contradiction; auto. Qed.
Lemma rel_same {A A' B'} (Q : A' -> B' -> Prop) (x : res A) f g : (forall a, x = Done a -> rel Q (f a) (g a)) -> rel Q (bind x f) (bind x g).
Proof. destruct x; cbn; intros H; auto. Qed.
Lemma rel_weaken {A B} (P Q : A -> B -> Prop) x y : rel P x y -> (forall a b, P a b -> Q a b) -> rel Q x y.
Proof. destruct x, y; cbn; auto. Qed.

Section Oneof.
Context (d : mdef) (fs : list fdesc) (os : list odesc) (Hs : sound d fs os).
Notation c := (class_of d fs os).
Notation fields := (fields_of d).
Notation oneofs := (oneofs_of d).
Context {S : Type} (b : buffer S) (fuel : nat).
Notation call n := (invoke c b fuel n).

Lemma invoke_body n k f l fr ob s : In (k, f, Body l) (functions fields oneofs) ->
  call (Datatypes.S n) k f fr ob s = let* (_, st) := run_list c b fuel (call n) l (fr, ob, s) in Done st.
Proof. intros H. cbn [invoke]. rewrite (function_found _ _ _ Hs _ _ _ H). reflexivity. Qed.
Lemma invoke_mutable n k f l x fr ob s : In (k, f, Mutable l x) (functions fields oneofs) ->
  call (Datatypes.S n) k f fr ob s = let* (_, st) := run_list c b fuel (call n) l (fr, ob, s) in Done st.
Proof. intros H. cbn [invoke]. rewrite (function_found _ _ _ Hs _ _ _ H). reflexivity. Qed.

Lemma field_function f e : In f fields -> In e (field_functions None f) -> In e (functions fields oneofs).
Proof.
  intros Hf He. unfold functions. apply in_or_app. left. apply in_concat. exists (field_functions None f). split; [apply in_map; exact Hf|exact He].
Qed.
Lemma oneof_function j o e : nth_error oneofs j = Some o -> In e (oneof_functions o) -> In e (functions fields oneofs).
Proof.
  intros Ho He. unfold functions. apply in_or_app. right. apply in_concat. exists (oneof_functions o). split; [apply in_map; eapply nth_error_In; exact Ho|exact He].
Qed.
Lemma member_function j o f e : nth_error oneofs j = Some o -> In f (snd o) -> In e (field_functions (Some (fst o)) f) -> In e (functions fields oneofs).
Proof.
  intros Ho Hf He. apply (oneof_function _ _ _ Ho). unfold oneof_functions. right. apply in_or_app. left. apply in_concat. eexists. split; [apply in_map; exact Hf|exact He].
Qed.
Lemma which_function j o : nth_error oneofs j = Some o -> In (0%nat, pre "get_which_" (fst o), GetNumber (which_name (fst o))) (functions fields oneofs).
Proof. intros Ho. apply (oneof_function _ _ _ Ho). left. reflexivity. Qed.
Lemma init_function j o : nth_error oneofs j = Some o -> In (1%nat, pre "init_" (fst o), Body (init_body o)) (functions fields oneofs).
Proof. intros Ho. apply (oneof_function _ _ _ Ho). right. apply in_or_app. right. left. reflexivity. Qed.
Lemma clear_function j o : nth_error oneofs j = Some o -> In (0%nat, pre "clear_" (fst o), Body (clear_oneof_body o)) (functions fields oneofs).
Proof. intros Ho. apply (oneof_function _ _ _ Ho). right. apply in_or_app. right. right. left. reflexivity. Qed.
Lemma deserialize_function j o : nth_error oneofs j = Some o -> In (3%nat, pre "deserialize_" (fst o), Body (deserialize_oneof_body o)) (functions fields oneofs).
Proof. intros Ho. apply (oneof_function _ _ _ Ho). right. apply in_or_app. right. right. right. left. reflexivity. Qed.

(** ** Switches on a field number *)

Definition by_number (z : Z) (f : field) : bool := z =? f_number f.
Lemma chosen_fields (code : field -> list stmt) l z : incl l (fields ++ concat (map snd oneofs)) ->
  chosen_block c z (map (fun f => ([id_name f], code f)) l) = option_map (fun f => ([id_name f], code f)) (find (by_number z) l).
Proof.
  intros Hl. unfold chosen_block. induction l as [|f l IH]; [reflexivity|]. cbn [map find fst existsb]. unfold label at 1.
  rewrite (look_id _ _ _ Hs f) by (apply Hl; left; reflexivity). unfold by_number at 1. destruct (z =? f_number f); cbn [orb option_map]; [reflexivity|].
  apply IH. intros g Hg. apply Hl. right. exact Hg.
Qed.
Lemma run_members n k (code : field -> list stmt) l fr ob s z : incl l (fields ++ concat (map snd oneofs)) -> number_of c fr ob n = Done z ->
  (forall f, In f l -> forallb no_label (code f) = true) ->
  run c b fuel (call k) (Switch n (concat (map (fun f => Case (id_name f) :: code f ++ [Break]) l) ++ [Default; Break])) (fr, ob, s) =
  let* (_, st) := run_list c b fuel (call k) (match find (by_number z) l with Some f => code f | None => [] end) (fr, ob, s) in Done (false, st).
Proof.
  intros Hl Hn Hc. pose proof (run_blocks c b fuel (call k) n (map (fun f => ([id_name f], code f)) l) [] fr ob s z Hn) as H.
  rewrite map_map in H. cbn [block_code fst snd map app] in H. unfold block_code in H. cbn [fst snd map app] in H. rewrite H.
  - rewrite chosen_fields by exact Hl. destruct (find (by_number z) l); reflexivity.
  - apply Forall_forall. intros x Hx. apply in_map_iff in Hx. destruct Hx as (f & <- & Hf). apply Hc. exact Hf.
  - reflexivity.
Qed.

Lemma find_fits l (ms : odesc) : Forall2 fits_member l ms -> forall {X} (x : ety -> X) z,
  (exists i f t, find (by_number z) l = Some f /\ nth_error l i = Some f /\ nth_error ms i = Some (z, t) /\ f_number f = z /\ fits_class (f_class f) t
     /\ f_optional f = false /\ find_member (map (fun '(num, t) => (num, t, x t)) ms) z = Some (t, x t))
  \/ (find (by_number z) l = None /\ find_member (map (fun '(num, t) => (num, t, x t)) ms) z = None /\ forall f, In f l -> f_number f <> z).
Proof.
  intros H X x z. induction H as [|f [num t] l ms (H1 & H2 & H3) Hl IH].
  - right. split; [reflexivity|]. split; [reflexivity|]. intros f [].
  - cbn [fst snd] in *. cbn [find map find_member]. unfold by_number at 1 3. destruct (Z.eqb_spec z (f_number f)) as [E|E].
    + left. exists 0%nat, f, t. subst num z. rewrite Z.eqb_refl. repeat split; auto.
    + destruct (Z.eqb_spec num z) as [E'|_]; [congruence|]. destruct IH as [(i & g & u & Hg)|(Hg1 & Hg2 & Hg3)]; [left; exists (Datatypes.S i), g, u; exact Hg|right].
      split; [exact Hg1|]. split; [exact Hg2|]. intros g [<-|Hg]; [congruence|apply Hg3; exact Hg].
Qed.

(** ** Which member is selected *)

Definition oneof_is (ob : object) (o : text * list field) (w : Z) (a : text) (y : value) : Prop :=
  look (which_name (fst o)) (ob_cells ob) = Some (CNumber w) /\ look (variable_name (fst o)) (ob_cells ob) = Some (CUnion a y).

Lemma held_is ob o w : oneof_held ob o w -> exists a y, oneof_is ob o (fst w) a y /\ forall f, In f (snd o) -> f_number f = fst w -> in_union a y (variable_name (f_name f)) = snd w.
Proof. intros (H1 & a & y & H2 & H3). exists a, y. split; [split; assumption|exact H3]. Qed.
Lemma is_held ob o w a y : oneof_is ob o (fst w) a y -> (forall f, In f (snd o) -> f_number f = fst w -> in_union a y (variable_name (f_name f)) = snd w) -> oneof_held ob o w.
Proof. intros (H1 & H2) H3. split; [exact H1|]. exists a, y. split; [exact H2|exact H3]. Qed.
Lemma none_held j o ob a y v : nth_error oneofs j = Some o -> oneof_is ob o 0 a y -> oneof_held ob o (0, v).
Proof.
  intros Ho H. apply (is_held _ _ (0, v) a y H). intros f Hf E. exfalso. apply (number_not_zero _ _ _ Hs f); [eapply oneof_In; eassumption|exact E].
Qed.
Lemma member_held j o ob f i t v : nth_error oneofs j = Some o -> nth_error (snd o) i = Some f -> f_number f = t ->
  oneof_is ob o t (variable_name (f_name f)) v -> oneof_held ob o (t, v).
Proof.
  intros Ho Hf E H. apply (is_held _ _ (t, v) _ _ H). intros g Hg Eg. cbn [fst snd] in *.
  assert (g = f) as ->; [|unfold in_union; rewrite text_eqb_refl; reflexivity].
  apply (number_inj _ _ _ Hs); [eapply oneof_In; eassumption|eapply oneof_In; [exact Ho|eapply nth_error_In; exact Hf]|congruence].
Qed.

Lemma number_which fr ob o w a y : oneof_is ob o w a y -> number_of c fr ob (NVar (which_name (fst o))) = Done w.
Proof. intros [H _]. cbn [number_of]. unfold read_number. rewrite H. reflexivity. Qed.
Lemma set_which j o ob w a y z : nth_error oneofs j = Some o -> oneof_is ob o w a y ->
  same_but (oneof_cells o) ob (with_cell ob (which_name (fst o)) (CNumber z)) /\ oneof_is (with_cell ob (which_name (fst o)) (CNumber z)) o z a y.
Proof.
  intros Ho [H1 H2]. split; [apply same_but_cell; left; reflexivity|]. split; cbn [with_cell ob_cells].
  - eapply look_put. exact H1.
  - rewrite look_put_other; [exact H2|]. intros E. apply (cell_which _ _ _ Hs o j Ho). symmetry. exact E.
Qed.
Lemma set_member j o ob w a y f v : nth_error oneofs j = Some o -> oneof_is ob o w a y ->
  same_but (oneof_cells o) ob (write ob (place (Some (fst o)) f) v) /\ oneof_is (write ob (place (Some (fst o)) f) v) o w (variable_name (f_name f)) v.
Proof.
  intros Ho [H1 H2]. cbn [place write]. split; [apply same_but_cell; right; left; reflexivity|]. split; cbn [with_cell ob_cells].
  - rewrite look_put_other; [exact H1|]. apply (cell_which _ _ _ Hs o j Ho).
  - eapply look_put. exact H2.
Qed.
Lemma read_member o ob w a y f : oneof_is ob o w a y -> read ob (place (Some (fst o)) f) = Done (in_union a y (variable_name (f_name f))).
Proof. intros [_ H]. cbn [place read]. rewrite H. reflexivity. Qed.

Lemma members_incl j o : nth_error oneofs j = Some o -> incl (snd o) (fields ++ concat (map snd oneofs)).
Proof. intros Ho f. apply oneof_In with (j := j). exact Ho. Qed.
Lemma fits_at j o : nth_error oneofs j = Some o -> exists ms, nth_error os j = Some ms /\ Forall2 fits_member (snd o) ms.
Proof. intros Ho. apply (Forall2_nth _ _ _ _ _ (s_oneofs _ _ _ Hs) Ho). Qed.

(** clear_<oneof>(). *)
Lemma clear_oneof_run k j o fr ob s w a y : nth_error oneofs j = Some o -> oneof_is ob o w a y ->
  exists fr' ob' a' y', call (Datatypes.S k) 0 (pre "clear_" (fst o)) fr ob s = Done (fr', ob', s) /\ same_but (oneof_cells o) ob ob' /\ oneof_is ob' o 0 a' y'.
Proof.
  intros Ho Hi. rewrite (invoke_body _ _ _ _ _ _ _ (clear_function _ _ Ho)). unfold clear_oneof_body. cbn [run_list].
  destruct (fits_at _ _ Ho) as (ms & Hms & Hfit).
  set (code := fun f => [if allocation_required f then Destroy (place (Some (fst o)) f) else SetDefault (place (Some (fst o)) f)]).
  change (concat (map _ (snd o))) with (concat (map (fun f => Case (id_name f) :: code f ++ [Break]) (snd o))).
  rewrite (run_members _ _ code (snd o) fr ob s w (members_incl _ _ Ho) (number_which _ _ _ _ _ _ Hi)) by (intros f _; unfold code; destruct (allocation_required f); reflexivity).
  destruct (find_fits _ _ Hfit (fun _ => tt) w) as [(i & f & t & E & Hf & Hm & En & Hcl & Hopt & _)|(E & _ & _)]; rewrite E.
  - unfold code at 1. assert (Hrun : exists v, run_list c b fuel (call k) [if allocation_required f then Destroy (place (Some (fst o)) f) else SetDefault (place (Some (fst o)) f)] (fr, ob, s)
        = Done (false, (fr, write ob (place (Some (fst o)) f) v, s))).
    { rewrite run_list_one. destruct (allocation_required f); cbn [run]; unfold change; rewrite (member_type _ _ _ Hs _ _ _ _ _ _ _ Ho Hms Hf Hm), (read_member _ _ _ _ _ _ Hi); cbn [bind]; eexists; reflexivity. }
    destruct Hrun as [v Hrun]. rewrite Hrun. cbn [bind]. destruct (set_member _ _ _ _ _ _ f v Ho Hi) as [Hsb Hi'].
    cbn [run]. cbn [number_of]. rewrite (not_set_value _ _ _ Hs). cbn [bind]. unfold read_number. rewrite (proj1 Hi'). cbn [bind].
    destruct (set_which _ _ _ _ _ _ 0 Ho Hi') as [Hsb' Hi'']. do 4 eexists. split; [reflexivity|]. split; [eapply same_but_trans; eassumption|exact Hi''].
  - cbn [run_list bind]. cbn [run]. cbn [number_of]. rewrite (not_set_value _ _ _ Hs). cbn [bind]. unfold read_number. rewrite (proj1 Hi). cbn [bind].
    destruct (set_which _ _ _ _ _ _ 0 Ho Hi) as [Hsb' Hi'']. do 4 eexists. split; [reflexivity|]. split; [exact Hsb'|exact Hi''].
Qed.

(** init_<oneof>(field_id) of one of the members. *)
Lemma find_filter (l : list field) f : In f l -> (forall g, In g l -> f_number g = f_number f -> g = f) ->
  find (by_number (f_number f)) (filter allocation_required l) = if allocation_required f then Some f else None.
Proof.
  intros Hf Hu. destruct (find (by_number (f_number f)) (filter allocation_required l)) as [g|] eqn:E.
  - apply find_some in E. destruct E as [Hg En]. apply filter_In in Hg. destruct Hg as [Hg Ha]. unfold by_number in En. apply Z.eqb_eq in En.
    rewrite (Hu g Hg (eq_sym En)) in *. rewrite Ha. reflexivity.
  - destruct (allocation_required f) eqn:Ea; [|reflexivity]. exfalso. assert (Hi : In f (filter allocation_required l)) by (apply filter_In; split; assumption).
    pose proof (find_none _ _ E f Hi) as H. unfold by_number in H. rewrite Z.eqb_refl in H. discriminate.
Qed.
Lemma init_run k j o fr ob s w a y i f ms t : nth_error oneofs j = Some o -> nth_error os j = Some ms -> nth_error (snd o) i = Some f ->
  nth_error ms i = Some (f_number f, t) -> fr_field_id fr = f_number f -> oneof_is ob o w a y ->
  exists fr' ob' a' y', call (Datatypes.S (Datatypes.S k)) 1 (pre "init_" (fst o)) fr ob s = Done (fr', ob', s) /\ same_but (oneof_cells o) ob ob'
    /\ oneof_is ob' o (f_number f) a' y' /\ (allocation_required f = true -> in_union a' y' (variable_name (f_name f)) = placement_new t).
Proof.
  intros Ho Hms Hf Hm Hid Hi. rewrite (invoke_body _ _ _ _ _ _ _ (init_function _ _ Ho)). unfold init_body. cbn [run_list]. rewrite run_if.
  unfold true_now. cbn [holds number_of]. rewrite (not_set_value _ _ _ Hs). cbn [bind]. unfold read_number. rewrite (proj1 Hi). cbn [bind].
  assert (H1 : exists ob1 a1 y1, run_list c b fuel (call (Datatypes.S k)) (if negb (0 =? w) then [Call (pre "clear_" (fst o)) NoArgs] else []) (fr, ob, s) = Done (false, (fr, ob1, s))
            /\ same_but (oneof_cells o) ob ob1 /\ oneof_is ob1 o 0 a1 y1).
  { destruct (Z.eqb_spec 0 w) as [E|E]; cbn [negb].
    - exists ob, a, y. split; [reflexivity|]. split; [apply same_but_refl|]. subst w. exact Hi.
    - rewrite run_list_one. cbn [run bind]. destruct (clear_oneof_run k j o no_frame ob s w a y Ho Hi) as (fr' & ob' & a' & y' & Ec & Hsb & Hi'). rewrite Ec. cbn [bind].
      exists ob', a', y'. auto. }
  destruct H1 as (ob1 & a1 & y1 & Er & Hsb1 & Hi1). rewrite Er. cbn [bind]. clear Er.
  assert (Hinf : In f (snd o)) by (eapply nth_error_In; exact Hf).
  assert (H2 : exists ob2 a2 y2, run_list c b fuel (call (Datatypes.S k)) (if existsb allocation_required (snd o)
      then [Switch NFieldId (concat (map (fun f => if allocation_required f then [Case (id_name f); New (place (Some (fst o)) f); Break] else []) (snd o)) ++ [Default; Break])]
      else []) (fr, ob1, s) = Done (false, (fr, ob2, s)) /\ same_but (oneof_cells o) ob ob2 /\ oneof_is ob2 o 0 a2 y2
      /\ (allocation_required f = true -> in_union a2 y2 (variable_name (f_name f)) = placement_new t)).
  { destruct (existsb allocation_required (snd o)) eqn:Eex.
    - rewrite run_list_one. set (code := fun g => [New (place (Some (fst o)) g)]).
      replace (concat (map (fun f => if allocation_required f then [Case (id_name f); New (place (Some (fst o)) f); Break] else []) (snd o)))
        with (concat (map (fun f => Case (id_name f) :: code f ++ [Break]) (filter allocation_required (snd o)))).
      2:{ clear. induction (snd o) as [|g l IH]; [reflexivity|]. cbn [map filter concat]. destruct (allocation_required g); [cbn [map concat]; rewrite IH; reflexivity|exact IH]. }
      rewrite (run_members _ _ code _ fr ob1 s (f_number f)); [|intros g Hg; apply filter_In in Hg; eapply members_incl; [exact Ho|apply Hg]|cbn [number_of]; rewrite Hid; reflexivity|reflexivity].
      rewrite find_filter; [|exact Hinf|intros g Hg E; apply (number_inj _ _ _ Hs); [eapply members_incl; eassumption|eapply members_incl; eassumption|exact E]].
      destruct (allocation_required f) eqn:Ea.
      + unfold code. rewrite run_list_one. cbn [run]. unfold change. rewrite (member_type _ _ _ Hs _ _ _ _ _ _ _ Ho Hms Hf Hm), (read_member _ _ _ _ _ _ Hi1). cbn [bind].
        destruct (set_member _ _ _ _ _ _ f (placement_new t) Ho Hi1) as [Hsb2 Hi2]. do 3 eexists. split; [reflexivity|]. split; [eapply same_but_trans; eassumption|]. split; [exact Hi2|].
        intros _. unfold in_union. rewrite text_eqb_refl. reflexivity.
      + cbn [run_list bind]. do 3 eexists. split; [reflexivity|]. split; [exact Hsb1|]. split; [exact Hi1|discriminate].
    - cbn [run_list]. do 3 eexists. split; [reflexivity|]. split; [exact Hsb1|]. split; [exact Hi1|]. intros Ea. exfalso.
      assert (E : existsb allocation_required (snd o) = true) by (apply existsb_exists; exists f; auto). congruence. }
  destruct H2 as (ob2 & a2 & y2 & Er & Hsb2 & Hi2 & Hin). rewrite run_list_app, Er. cbn [bind run_list run number_of]. rewrite Hid. unfold read_number. rewrite (proj1 Hi2). cbn [bind].
  destruct (set_which _ _ _ _ _ _ (f_number f) Ho Hi2) as [Hsb3 Hi3]. do 4 eexists. split; [reflexivity|]. split; [eapply same_but_trans; eassumption|]. split; [exact Hi3|exact Hin].
Qed.

(** Selecting a member: the value that it has then, up to the storage of an enum that was never written. *)
Definition selected (ms : odesc) (id : Z) (w : Z * value) : Z * value := if id =? fst w then w else oneof_init (members ms) id w.
Definition has_member_value (o : text * list field) (f : field) (t : ety) (a : text) (y : value) (v : value) : Prop :=
  in_union a y (variable_name (f_name f)) = v \/ t = EScalar Enumeration.
Lemma fits_find l ms i f t : Forall2 fits_member l ms -> nth_error l i = Some f -> nth_error ms i = Some (f_number f, t) -> NoDup (map fst ms) ->
  forall {X} (x : ety -> X), find_member (map (fun '(num, t) => (num, t, x t)) ms) (f_number f) = Some (t, x t).
Proof.
  intros H Hf Hm Hn X x. revert i Hf Hm Hn. induction H as [|g [num u] l ms (H1 & H2 & H3) Hl IH]; intros i Hf Hm Hn; [destruct i; discriminate|].
  cbn [map fst] in Hn. inversion Hn as [|? ? Hx Hn']; subst. cbn [fst] in *. destruct i as [|i]; cbn [nth_error] in Hf, Hm.
  - injection Hf as ->. injection Hm as <-. subst. cbn [map find_member]. rewrite Z.eqb_refl. reflexivity.
  - cbn [map find_member]. destruct (Z.eqb_spec num (f_number f)) as [E|_]; [|eapply IH; eassumption].
    exfalso. apply Hx. rewrite E. change (f_number f) with (fst (f_number f, t)). apply in_map. eapply nth_error_In. exact Hm.
Qed.
Lemma members_NoDup j o ms : nth_error oneofs j = Some o -> nth_error os j = Some ms -> NoDup (map fst ms).
Proof.
  intros Ho Hms. destruct (fits_at _ _ Ho) as (ms' & E & Hfit). rewrite Hms in E. injection E as <-.
  replace (map fst ms) with (map f_number (snd o)) by (clear - Hfit; induction Hfit as [|f x l ms (H & _) _ IH]; [reflexivity|cbn [map]; congruence]).
  pose proof (s_numbers _ _ _ Hs) as H. rewrite (class_numbers _ _ _ Hs) in H. unfold numbers_of in H. cbn [map] in H. inversion H as [|? ? _ H']; subst. rewrite map_map in H'. cbn [snd] in H'.
  rewrite map_app in H'. apply NoDup_app_remove_l in H'. destruct (nth_error_split _ _ Ho) as (l1 & l2 & El & _). rewrite El, map_app, concat_app, map_app in H'.
  apply NoDup_app_remove_l in H'. cbn [map concat] in H'. rewrite map_app in H'. apply NoDup_app_remove_r in H'. exact H'.
Qed.
Lemma enum_class f t : fits_class (f_class f) t -> allocation_required f = false -> t = EScalar Enumeration.
Proof. unfold allocation_required. destruct (f_class f); try discriminate. intros H _. exact H. Qed.
Lemma placement_enum t : is_enum t = true -> placement_new t = VIndet.
Proof. destruct t as [[]| |]; try discriminate; reflexivity. Qed.
Lemma init_or_not k j o fr ob s w i f ms t yes : nth_error oneofs j = Some o -> nth_error os j = Some ms -> nth_error (snd o) i = Some f ->
  nth_error ms i = Some (f_number f, t) -> oneof_held ob o w -> (forall s, run_list c b fuel (call (Datatypes.S (Datatypes.S k))) yes (fr, ob, s) =
     let* (_, ob', s') := call (Datatypes.S (Datatypes.S k)) 1 (pre "init_" (fst o)) (with_field_id (f_number f) VARINT) ob s in Done (false, (fr, ob', s'))) ->
  exists ob' a' y', run_list c b fuel (call (Datatypes.S (Datatypes.S k))) (if negb (f_number f =? fst w) then yes else []) (fr, ob, s) = Done (false, (fr, ob', s))
    /\ same_but (oneof_cells o) ob ob' /\ oneof_is ob' o (f_number f) a' y' /\ has_member_value o f t a' y' (snd (selected ms (f_number f) w)) /\ fst (selected ms (f_number f) w) = f_number f.
Proof.
  intros Ho Hms Hf Hm Hh Hyes. destruct (held_is _ _ _ Hh) as (a & y & Hi & Hv). unfold selected. destruct (Z.eqb_spec (f_number f) (fst w)) as [E|E]; cbn [negb].
  - exists ob, a, y. split; [reflexivity|]. split; [apply same_but_refl|]. rewrite E. split; [exact Hi|]. split; [|reflexivity]. left. apply Hv; [eapply nth_error_In; exact Hf|exact E].
  - destruct (init_run k j o (with_field_id (f_number f) VARINT) ob s (fst w) a y i f ms t Ho Hms Hf Hm eq_refl Hi) as (fr' & ob' & a' & y' & Ec & Hsb & Hi' & Hin).
    rewrite Hyes, Ec. cbn [bind]. exists ob', a', y'. split; [reflexivity|]. split; [exact Hsb|]. split; [exact Hi'|]. unfold oneof_init, members.
    destruct (fits_at _ _ Ho) as (ms' & Ems & Hfit). rewrite Hms in Ems. injection Ems as <-.
    rewrite (fits_find _ _ _ _ _ Hfit Hf Hm (members_NoDup _ _ _ Ho Hms) (fun _ => tt)). cbn [fst snd]. split; [|reflexivity]. unfold has_member_value.
    destruct (allocation_required f) eqn:Ea; [left; rewrite Hin by reflexivity; destruct (is_enum t) eqn:Ee; [apply placement_enum; exact Ee|reflexivity]|right].
    destruct (Forall2_nth _ _ _ _ _ Hfit Hf) as (x & Ex & (_ & _ & Hcl)). rewrite Hm in Ex. injection Ex as <-. eapply enum_class; eassumption.
Qed.
Lemma select_run k j o fr ob s w i f ms t : nth_error oneofs j = Some o -> nth_error os j = Some ms -> nth_error (snd o) i = Some f ->
  nth_error ms i = Some (f_number f, t) -> oneof_held ob o w ->
  exists ob' a' y', run_list c b fuel (call (Datatypes.S (Datatypes.S k))) (select (fst o) f) (fr, ob, s) = Done (false, (fr, ob', s))
    /\ same_but (oneof_cells o) ob ob' /\ oneof_is ob' o (f_number f) a' y' /\ has_member_value o f t a' y' (snd (selected ms (f_number f) w)) /\ fst (selected ms (f_number f) w) = f_number f.
Proof.
  intros Ho Hms Hf Hm Hh. unfold select. rewrite run_list_one, run_if. unfold true_now. cbn [holds number_of].
  assert (Hin : In f (fields ++ concat (map snd oneofs))) by (eapply oneof_In; [exact Ho|eapply nth_error_In; exact Hf]).
  rewrite (id_value _ _ _ Hs f Hin). cbn [bind]. destruct (held_is _ _ _ Hh) as (a & y & Hi & _). unfold read_number. rewrite (proj1 Hi). cbn [bind].
  apply (init_or_not k j o fr ob s w i f ms t _ Ho Hms Hf Hm Hh). intros s'. rewrite run_list_one. cbn [run number_of]. rewrite (id_value _ _ _ Hs f Hin). reflexivity.
Qed.

(** After selecting: a method that does not look at an uninitialised scalar. *)
Definition ignores_scalar (m : oty -> value -> res value) : Prop := forall v v', m (OElem (EScalar Enumeration)) v = m (OElem (EScalar Enumeration)) v'.
Lemma change_member k j o fr ob s i f ms t a y v m q : nth_error oneofs j = Some o -> nth_error os j = Some ms -> nth_error (snd o) i = Some f ->
  nth_error ms i = Some (f_number f, t) -> oneof_is ob o (f_number f) a y -> has_member_value o f t a y v -> ignores_scalar m ->
  (forall fr ob s, run c b fuel (call k) q (fr, ob, s) = change c (place (Some (fst o)) f) m fr ob s) ->
  rel (fun '(br, (fr', ob', s')) v' => br = false /\ fr' = fr /\ s' = s /\ same_but (oneof_cells o) ob ob' /\ oneof_held ob' o (f_number f, v'))
    (run c b fuel (call k) q (fr, ob, s)) (m (OElem t) v).
Proof.
  intros Ho Hms Hf Hm Hi Hv Hig Hq. rewrite Hq. unfold change. rewrite (member_type _ _ _ Hs _ _ _ _ _ _ _ Ho Hms Hf Hm), (read_member _ _ _ _ _ _ Hi). cbn [bind].
  assert (E : m (OElem t) (in_union a y (variable_name (f_name f))) = m (OElem t) v) by (destruct Hv as [->| ->]; [reflexivity|apply Hig]). rewrite E.
  destruct (m (OElem t) v) as [v'| |]; cbn [bind rel]; auto. destruct (set_member _ _ _ _ _ _ f v' Ho Hi) as [Hsb Hi']. split; [reflexivity|]. split; [reflexivity|]. split; [reflexivity|].
  split; [exact Hsb|]. eapply member_held; [exact Ho|exact Hf|reflexivity|exact Hi'].
Qed.
End Oneof.

(** deserialize_<oneof>(field_id, buffer, wire_type). *)
Section Deserialize.
Context (d : mdef) (fs : list fdesc) (os : list odesc) (Hs : sound d fs os).
Notation c := (class_of d fs os).
Notation fields := (fields_of d).
Notation oneofs := (oneofs_of d).
Context {S : Type} (R : rops S) (fuel : nat).
Notation call n := (invoke c (Reading R) fuel n).

Lemma scalar_ignores w (v v' : value) (s : S) :
  match elem_deserialize_check_type (EScalar Enumeration) (deserialize fuel (EScalar Enumeration)) w S R v s with
  | Done (e, x, s1) => exists x', elem_deserialize_check_type (EScalar Enumeration) (deserialize fuel (EScalar Enumeration)) w S R v' s = Done (e, x', s1) /\ (is_ok e = true -> x = x')
  | UB => elem_deserialize_check_type (EScalar Enumeration) (deserialize fuel (EScalar Enumeration)) w S R v' s = UB
  | Fuel => elem_deserialize_check_type (EScalar Enumeration) (deserialize fuel (EScalar Enumeration)) w S R v' s = Fuel
  end.
Proof.
  unfold elem_deserialize_check_type. destruct (wt_eqb (scalar_wiretype Enumeration) w); [|exists v'; split; [reflexivity|discriminate]].
  cbn [deserialize]. unfold scalar_deserialize. cbn [scalar_deserialize_z]. destruct (DeserializeVarint R 32 s) as [[[e oz] s1]| |] eqn:E; cbn [bind]; [|reflexivity|reflexivity].
  eexists. split; [reflexivity|]. intros He. destruct oz; [reflexivity|]. exfalso. destruct e; try discriminate. eapply DeserializeVarint_some. exact E.
Qed.

Lemma deserialize_oneof_run k j o fr ob s w ms i f t : nth_error oneofs j = Some o -> nth_error os j = Some ms -> nth_error (snd o) i = Some f ->
  nth_error ms i = Some (f_number f, t) -> oneof_held ob o w -> fr_field_id fr = f_number f -> fr_return fr = NoErrors ->
  rel (fun '(fr', ob', s') '(e, w', s'') => fr_return fr' = e /\ s' = s'' /\ same_but (oneof_cells o) ob ob' /\ oneof_held ob' o w')
    (call (Datatypes.S (Datatypes.S (Datatypes.S k))) 3 (pre "deserialize_" (fst o)) fr ob s)
    (oneof_deserialize (map (fun '(num, t) => (num, t, deserialize fuel t)) ms) (f_number f) (fr_wire fr) w R s).
Proof.
  intros Ho Hms Hf Hm Hh Hid Hret. rewrite (invoke_body _ _ _ Hs _ _ _ _ _ _ _ _ _ (deserialize_function _ _ _ Ho)). unfold deserialize_oneof_body. cbn [run_list]. rewrite run_if.
  unfold true_now. cbn [holds number_of]. rewrite Hid. cbn [bind]. destruct (held_is _ _ _ Hh) as (a & y & Hi & Hv). unfold read_number. rewrite (proj1 Hi). cbn [bind].
  destruct (init_or_not _ _ _ Hs (Reading R) fuel k j o fr ob s w i f ms t [Call (pre "init_" (fst o)) (ANumber NFieldId)] Ho Hms Hf Hm Hh) as (ob1 & a1 & y1 & Er & Hsb1 & Hi1 & Hv1 & Hw1).
  { intros s0. rewrite run_list_one. cbn [run number_of]. rewrite Hid. reflexivity. }
  rewrite Er. cbn [bind]. clear Er.
  destruct (fits_at _ _ _ Hs _ _ Ho) as (ms' & Ems & Hfit). rewrite Hms in Ems. injection Ems as <-.
  pose proof (members_NoDup _ _ _ Hs _ _ _ Ho Hms) as Hnd.
  destruct (Forall2_nth _ _ _ _ _ Hfit Hf) as (x & Ex & (_ & Hopt & Hcl)). rewrite Hm in Ex. injection Ex as <-. cbn [fst snd] in Hcl.
  rewrite (run_members _ _ _ Hs _ _ (NVar (which_name (fst o))) _ (deserialize_field (Some (fst o))) (snd o) fr ob1 s (f_number f));
    [|eapply members_incl; exact Ho|eapply number_which; exact Hi1|intros g _; unfold deserialize_field; destruct (f_class g), (f_optional g); reflexivity].
  assert (Efind : find (by_number (f_number f)) (snd o) = Some f).
  { destruct (find_fits _ _ Hfit (fun _ => tt) (f_number f)) as [(i' & g & t' & E & Hg & Hm' & En & _)|(_ & _ & Hno)]; [|exfalso; apply (Hno f); [eapply nth_error_In; exact Hf|reflexivity]].
    rewrite E. f_equal. apply (number_inj _ _ _ Hs); [eapply oneof_In; [exact Ho|eapply nth_error_In; exact Hg]|eapply oneof_In; [exact Ho|eapply nth_error_In; exact Hf]|exact En]. }
  rewrite Efind. replace (deserialize_field (Some (fst o)) f) with [SetReturn (RCheckType (place (Some (fst o)) f))]
    by (unfold deserialize_field; destruct (f_class f); try contradiction; rewrite Hopt; reflexivity).
  rewrite run_list_one, run_return. cbn [result_of]. rewrite (member_type _ _ _ Hs _ _ _ _ _ _ _ Ho Hms Hf Hm), (read_member _ _ _ _ _ _ Hi1). cbn [bind var_check_type].
  unfold oneof_deserialize. replace (if f_number f =? fst w then w else oneof_init (map (fun '(num, t0) => (num, t0, deserialize fuel t0)) ms) (f_number f) w)
    with (f_number f, snd (selected ms (f_number f) w)).
  2:{ unfold selected in *. destruct (f_number f =? fst w); [destruct w; cbn [fst snd] in *; congruence|]. unfold oneof_init, members.
      rewrite (fits_find _ _ _ _ _ Hfit Hf Hm Hnd (fun _ => tt)), (fits_find _ _ _ _ _ Hfit Hf Hm Hnd (deserialize fuel)). reflexivity. }
  cbn [fst snd]. rewrite (fits_find _ _ _ _ _ Hfit Hf Hm Hnd (deserialize fuel)). set (v0 := snd (selected ms (f_number f) w)) in *. clearbody v0.
  set (u := in_union a1 y1 (variable_name (f_name f))) in *.
  assert (Hboth : rel (fun '(e, x, s1) '(e', x', s1') => e = e' /\ s1 = s1' /\ (is_ok e = true -> x = x'))
     (elem_deserialize_check_type t (deserialize fuel t) (fr_wire fr) S R u s) (elem_deserialize_check_type t (deserialize fuel t) (fr_wire fr) S R v0 s)).
  { destruct Hv1 as [<-| ->].
    - fold u. destruct (elem_deserialize_check_type t (deserialize fuel t) (fr_wire fr) S R u s) as [[[e x] s1]| |]; cbn [rel]; auto.
    - pose proof (scalar_ignores (fr_wire fr) u v0 s) as H. destruct (elem_deserialize_check_type _ _ _ S R u s) as [[[e x] s1]| |].
      + destruct H as (x' & -> & H). cbn [rel]. auto.
      + rewrite H. exact I.
      + rewrite H. exact I. }
  destruct (elem_deserialize_check_type t (deserialize fuel t) (fr_wire fr) S R u s) as [[[e x] s1]| |],
           (elem_deserialize_check_type t (deserialize fuel t) (fr_wire fr) S R v0 s) as [[[e' x'] s1']| |]; cbn [rel] in Hboth; try contradiction; cbn [bind rel]; auto.
  destruct Hboth as (<- & <- & Hx). rewrite run_if. unfold true_now. cbn [holds error_of set_return fr_return bind].
  destruct (set_member _ _ _ Hs _ _ _ _ _ _ f x Ho Hi1) as [Hsb2 Hi2].
  destruct (err_dec NoErrors e) as [<-|He].
  - cbn [run_list bind is_ok set_return fr_return]. split; [reflexivity|]. split; [reflexivity|]. split; [eapply same_but_trans; eassumption|].
    rewrite <- Hx by reflexivity. eapply member_held; [exact Hs|exact Ho|exact Hf|reflexivity|exact Hi2].
  - rewrite run_list_one. cbn [run bind].
    destruct (clear_oneof_run _ _ _ Hs (Reading R) fuel (Datatypes.S k) j o no_frame _ s1 (f_number f) _ _ Ho Hi2) as (fr' & ob' & a' & y' & Ec & Hsb & Hi').
    rewrite Ec. cbn [bind set_return fr_return]. replace (is_ok e) with false by (destruct e; [contradiction He; reflexivity|reflexivity..]).
    split; [reflexivity|]. split; [reflexivity|]. split; [eapply same_but_trans; [exact Hsb1|]; eapply same_but_trans; eassumption|].
    unfold oneof_clear. cbn [fst snd]. rewrite (fits_find _ _ _ _ _ Hfit Hf Hm Hnd (deserialize fuel)). eapply none_held; eassumption.
Qed.
End Deserialize.
