(** * GenBodyLegal: the classes of messages with clear names are ones whose names are all different. *)
From Coq Require Import String.
From Verif Require Import Base Buffers Wire Schema Fields Message Api Spec BitLemmas Printf Generator GenCode SpecGenerator GenMembers SpecMembers SpecInstance GenOrder GenSort GenReg GenRender GenTypes GenOnce GenProps GenMemberKeys GenMembersProofs GenMembersUses GenMembersProps GenInstance GenBody SpecBody GenBodyRun GenBodySound.
From Coq Require Import List ZifyBool ZifyNat Lia.

(** ** Function names *)

Definition fkey : Type := nat * text * text.
Definition key_name (k : fkey) : nat * text := let '(a, p, b) := k in (a, p ++ b).
Definition key_base (k : fkey) : text := snd k.
Definition key_prefix (k : fkey) : text := snd (fst k).

Definition field_fkeys (oneof : option text) (f : field) : list fkey :=
  let n := f_name f in
  (if has_presence oneof f then [(0%nat, chars "has_", n)] else [])
  ++ [(0%nat, chars "clear_", n); (1%nat, chars "set_", n); (0%nat, chars "get_", n)]
  ++ match f_class f with
     | FieldErrorRecursive | FieldEnum _ => []
     | FieldBasic _ => match oneof with None => [(0%nat, chars "mutable_", n)] | Some _ => [] end
     | FieldRepeated _ _ => [(0%nat, chars "mutable_", n); (2%nat, chars "set_", n); (1%nat, chars "add_", n)]
     | _ => [(0%nat, chars "mutable_", n)]
     end.
Definition oneof_fkeys (o : text * list field) : list fkey :=
  (0%nat, chars "get_which_", fst o) :: concat (map (field_fkeys (Some (fst o))) (snd o))
  ++ [(1%nat, chars "init_", fst o); (0%nat, chars "clear_", fst o); (3%nat, chars "deserialize_", fst o); (3%nat, chars "to_string_", fst o)].
Definition all_fkeys (fields : list field) (oneofs : list (text * list field)) : list fkey :=
  concat (map (field_fkeys None) fields) ++ concat (map oneof_fkeys oneofs).

Lemma field_fkeys_names oneof f : map fst (field_functions oneof f) = map key_name (field_fkeys oneof f).
Proof. unfold field_functions, field_fkeys. rewrite !map_app. destruct (has_presence oneof f), (f_class f), oneof; reflexivity. Qed.
Lemma concat_map_map {A B C} (g : B -> C) (F : A -> list B) l : map g (concat (map F l)) = concat (map (fun a => map g (F a)) l).
Proof. rewrite concat_map, map_map. reflexivity. Qed.
Lemma oneof_fkeys_names o : map fst (oneof_functions o) = map key_name (oneof_fkeys o).
Proof.
  unfold oneof_functions, oneof_fkeys. cbn [map]. f_equal. rewrite !map_app, !concat_map_map. f_equal.
  f_equal. apply map_ext. apply field_fkeys_names.
Qed.
Lemma all_fkeys_names fields oneofs : map fst (functions fields oneofs) = map key_name (all_fkeys fields oneofs).
Proof.
  unfold functions, all_fkeys. rewrite !map_app, !concat_map_map. f_equal; f_equal; apply map_ext; intros; [apply field_fkeys_names|apply oneof_fkeys_names].
Qed.

Lemma field_fkeys_base oneof f k : In k (field_fkeys oneof f) -> key_base k = f_name f /\ In (key_prefix k) function_prefixes.
Proof.
  unfold field_fkeys, function_prefixes. rewrite !in_app_iff. intros [H|[H|H]].
  - destruct (has_presence oneof f); [|destruct H]. destruct H as [<-|[]]. split; [reflexivity|cbn [key_prefix fst snd map In]; tauto].
  - destruct H as [<-|[<-|[<-|[]]]]; (split; [reflexivity|cbn [key_prefix fst snd map In]; tauto]).
  - destruct (f_class f), oneof; cbn [In] in H;
      repeat match goal with H : _ \/ _ |- _ => destruct H as [<-|H] | H : False |- _ => destruct H end; (split; [reflexivity|cbn [key_prefix fst snd map In]; tauto]).
Qed.
Lemma field_fkeys_NoDup oneof f : NoDup (field_fkeys oneof f).
Proof.
  unfold field_fkeys. destruct (has_presence oneof f), (f_class f), oneof; cbn [app];
    repeat (constructor; [cbn [In]; intros H; repeat match goal with H : _ \/ _ |- _ => destruct H as [H|H] | H : False |- _ => destruct H end; discriminate H|]); constructor.
Qed.

Lemma NoDup_groups {A B K} (F : A -> list K) (base : K -> B) (G : A -> B) l : NoDup (map G l) -> (forall a, NoDup (F a)) ->
  (forall a k, In k (F a) -> base k = G a) -> NoDup (concat (map F l)).
Proof.
  intros Hn Hf Hb. induction l as [|a l IH]; [constructor|]. cbn [map concat] in *. inversion Hn as [|? ? Hx Hl]; subst.
  apply NoDup_app; [apply Hf|apply IH; exact Hl|]. intros k H1 H2. apply Hx. apply in_concat in H2. destruct H2 as (l' & H2 & H3).
  apply in_map_iff in H2. destruct H2 as (a' & <- & Ha). rewrite <- (Hb a k H1), (Hb a' k H3). apply in_map. exact Ha.
Qed.
Lemma oneof_fkeys_base o k : In k (oneof_fkeys o) -> (key_base k = fst o \/ In (key_base k) (map f_name (snd o))) /\ In (key_prefix k) function_prefixes.
Proof.
  unfold oneof_fkeys. cbn [In]. rewrite in_app_iff. intros [<-|[H|H]].
  - split; [left; reflexivity|]. unfold function_prefixes. cbn [key_prefix fst snd map In]. tauto.
  - apply in_concat in H. destruct H as (l & Hl & H). apply in_map_iff in Hl. destruct Hl as (f & <- & Hf). apply field_fkeys_base in H. destruct H as [E H].
    split; [right; rewrite E; apply in_map; exact Hf|exact H].
  - unfold function_prefixes. destruct H as [<-|[<-|[<-|[<-|[]]]]]; (split; [left; reflexivity|cbn [key_prefix fst snd map In]; tauto]).
Qed.
Lemma oneof_fkeys_NoDup o : NoDup (fst o :: map f_name (snd o)) -> NoDup (oneof_fkeys o).
Proof.
  intros Hn. inversion Hn as [|? ? Hx Hl]; subst. unfold oneof_fkeys.
  assert (Hm : forall k, In k (concat (map (field_fkeys (Some (fst o))) (snd o))) -> key_base k <> fst o).
  { intros k H E. apply in_concat in H. destruct H as (l & H1 & H). apply in_map_iff in H1. destruct H1 as (f & <- & Hf). apply field_fkeys_base in H.
    apply Hx. rewrite <- E, (proj1 H). apply in_map. exact Hf. }
  constructor.
  - rewrite in_app_iff. intros [H|H]; [exact (Hm _ H eq_refl)|]. cbn [In] in H. intuition discriminate.
  - apply NoDup_app.
    + apply (NoDup_groups _ key_base f_name); [exact Hl|apply field_fkeys_NoDup|intros f k H; apply field_fkeys_base in H; apply H].
    + repeat (constructor; [cbn [In]; intuition discriminate|]). constructor.
    + intros k H1 H2. apply (Hm k H1). destruct H2 as [<-|[<-|[<-|[<-|[]]]]]; reflexivity.
Qed.

Lemma all_fkeys_base fields oneofs k : In k (all_fkeys fields oneofs) ->
  In (key_base k) (map f_name (fields ++ concat (map snd oneofs)) ++ map fst oneofs) /\ In (key_prefix k) function_prefixes.
Proof.
  unfold all_fkeys. rewrite in_app_iff, map_app, !in_app_iff. intros [H|H]; apply in_concat in H; destruct H as (l & H1 & H); apply in_map_iff in H1.
  - destruct H1 as (f & <- & Hf). apply field_fkeys_base in H. destruct H as [-> H]. split; [left; left; apply in_map; exact Hf|exact H].
  - destruct H1 as (o & <- & Ho). apply oneof_fkeys_base in H. destruct H as [[->|Hb] H]; (split; [|exact H]); [right; apply in_map; exact Ho|].
    left. right. apply in_map_iff in Hb. destruct Hb as (f & Ef & Hf). rewrite <- Ef. apply in_map. apply in_concat. exists (snd o). split; [apply in_map; exact Ho|exact Hf].
Qed.
Lemma all_fkeys_NoDup fields oneofs : NoDup (map f_name (fields ++ concat (map snd oneofs)) ++ map fst oneofs) -> NoDup (all_fkeys fields oneofs).
Proof.
  intros Hn. rewrite map_app in Hn. apply NoDup_app_inv in Hn. destruct Hn as (HF & HO & HFO). apply NoDup_app_inv in HF. destruct HF as (Hp & Hc & Hpc).
  unfold all_fkeys. apply NoDup_app.
  - apply (NoDup_groups _ key_base f_name); [exact Hp|apply field_fkeys_NoDup|intros f k H; apply field_fkeys_base in H; apply H].
  - assert (HFO' : forall x, In x (map f_name (concat (map snd oneofs))) -> In x (map fst oneofs) -> False) by (intros x H1 H2; apply (HFO x); [apply in_or_app; right; exact H1|exact H2]).
    clear - Hc HO HFO'. induction oneofs as [|o l IH]; [constructor|]. cbn [map concat] in *. rewrite map_app in Hc. apply NoDup_app_inv in Hc. destruct Hc as (H1 & H2 & H3).
    inversion HO as [|? ? Hx Hl]; subst. apply NoDup_app.
    + apply oneof_fkeys_NoDup. constructor; [|exact H1]. intros H. apply (HFO' (fst o)); [rewrite map_app; apply in_or_app; left; exact H|left; reflexivity].
    + apply IH; [exact H2|exact Hl|]. intros x Ha Hb. apply (HFO' x); [rewrite map_app; apply in_or_app; right; exact Ha|right; exact Hb].
    + intros k Ha Hb. apply oneof_fkeys_base in Ha. destruct Ha as [Ha _]. apply in_concat in Hb. destruct Hb as (l' & Hl' & Hb). apply in_map_iff in Hl'.
      destruct Hl' as (o' & <- & Ho'). apply oneof_fkeys_base in Hb. destruct Hb as [Hb _].
      assert (HM : In (key_base k) (map f_name (snd o')) -> In (key_base k) (map f_name (concat (map snd l)))).
      { intros H. apply in_map_iff in H. destruct H as (f & <- & Hf). apply in_map. apply in_concat. exists (snd o'). split; [apply in_map; exact Ho'|exact Hf]. }
      destruct Ha as [Ha|Ha], Hb as [Hb|Hb].
      * apply Hx. rewrite <- Ha, Hb. apply in_map. exact Ho'.
      * apply (HFO' (fst o)); [rewrite map_app; apply in_or_app; right; rewrite <- Ha; auto|left; reflexivity].
      * apply (HFO' (key_base k)); [rewrite map_app; apply in_or_app; left; exact Ha|right; rewrite Hb; apply in_map; exact Ho'].
      * apply (H3 (key_base k)); auto.
  - intros k Ha Hb. apply in_concat in Ha, Hb. destruct Ha as (l1 & Hl1 & Ha), Hb as (l2 & Hl2 & Hb). apply in_map_iff in Hl1, Hl2.
    destruct Hl1 as (f & <- & Hf), Hl2 as (o & <- & Ho). apply field_fkeys_base in Ha. apply oneof_fkeys_base in Hb. destruct Ha as [Ha _], Hb as [[Hb|Hb] _].
    + apply (HFO (f_name f)); [apply in_or_app; left; apply in_map; exact Hf|]. rewrite <- Ha, Hb. apply in_map. exact Ho.
    + apply (Hpc (f_name f)); [apply in_map; exact Hf|]. rewrite <- Ha. apply in_map_iff in Hb. destruct Hb as (g & <- & Hg). apply in_map.
      apply in_concat. exists (snd o). split; [apply in_map; exact Ho|exact Hg].
Qed.

(** ** All names *)

Lemma NoDup_map_inj {A B} (g : A -> B) l : NoDup l -> (forall x y, In x l -> In y l -> g x = g y -> x = y) -> NoDup (map g l).
Proof.
  intros Hn Hi. induction Hn as [|x l Hx Hn IH]; [constructor|]. cbn [map]. constructor.
  - intros H. apply in_map_iff in H. destruct H as (y & E & Hy). apply Hx. replace x with y; [exact Hy|]. apply Hi; [right; exact Hy|left; reflexivity|exact E].
  - apply IH. intros a b Ha Hb. apply Hi; right; assumption.
Qed.

Lemma constants_of d fs os : c_constants (class_of d fs os) = map (fun f => (name_constant (f_name f), f_name f)) (fields_of d ++ concat (map snd (oneofs_of d))).
Proof. destruct d. reflexivity. Qed.
Lemma class_numbers_of d fs os : c_numbers (class_of d fs os) = numbers_of (fields_of d) (oneofs_of d).
Proof. destruct d. reflexivity. Qed.
Lemma functions_of d fs os : c_functions (class_of d fs os) = functions (fields_of d) (oneofs_of d).
Proof. destruct d. reflexivity. Qed.

Section Neat.
Context (params : list text) (d : mdef) (Hn : neat_class params d).
Notation fields := (fields_of d).
Notation oneofs := (oneofs_of d).

Lemma names_are : d_names d = map f_name (fields ++ concat (map snd oneofs)).
Proof. destruct d. unfold d_names. cbn [d_plain d_chosen fields_of oneofs_of]. rewrite map_app. reflexivity. Qed.
Lemma oneofs_are : d_oneofs d = map fst oneofs. Proof. destruct d. reflexivity. Qed.
Lemma names_NoDup : NoDup (map f_name (fields ++ concat (map snd oneofs)) ++ map fst oneofs).
Proof.
  rewrite <- names_are, <- oneofs_are. destruct Hn as (H & _). inversion H as [|? ? _ H']; subst. rewrite app_assoc in H'. apply NoDup_app_remove_r in H'. exact H'.
Qed.
Lemma functions_NoDup : NoDup (map fst (functions fields oneofs)).
Proof.
  rewrite all_fkeys_names. apply NoDup_map_inj; [apply all_fkeys_NoDup; apply names_NoDup|].
  intros [[a1 p1] b1] [[a2 p2] b2] H1 H2 E. apply all_fkeys_base in H1, H2. cbn [key_base key_prefix fst snd key_name] in *. injection E as -> E.
  rewrite <- names_are, <- oneofs_are in H1, H2.
  destruct (pre_pre _ _ _ _ _ _ _ _ _ Hn (proj2 H1) (proj2 H2) (proj1 H1) (proj1 H2) E) as [-> ->]. reflexivity.
Qed.

Lemma cells_NoDup : NoDup (cell_names fields oneofs).
Proof.
  pose proof names_NoDup as H. apply NoDup_app_inv in H. destruct H as (HF & HO & HFO). rewrite map_app in HF. apply NoDup_app_remove_r in HF.
  set (keys := map (fun f => (TVar, f_name f)) (filter (fun f => negb (recursive f)) fields) ++ concat (map (fun o : text * list field => [(TWhich, fst o); (TVar, fst o)]) oneofs)).
  replace (cell_names fields oneofs) with (map (fun '(t, b) => spell t b) keys).
  2:{ unfold keys, cell_names. rewrite map_app, map_map, concat_map_map. reflexivity. }
  assert (Hv : forall t b, In (t, b) keys -> valid (d_names d) (d_oneofs d) (d_nested d) t b).
  { intros t b H. unfold keys in H. apply in_app_or in H. destruct H as [H|H].
    - apply in_map_iff in H. destruct H as (f & E & Hf). injection E as <- <-. apply filter_In in Hf. cbn [valid]. rewrite names_are. apply in_or_app. left.
      apply in_map. apply in_or_app. left. apply Hf.
    - apply in_concat in H. destruct H as (l & Hl & H). apply in_map_iff in Hl. destruct Hl as (o & <- & Ho).
      assert (HoO : In (fst o) (d_oneofs d)) by (rewrite oneofs_are; apply in_map; exact Ho).
      destruct H as [E|[E|[]]]; injection E as <- <-; cbn [valid]; [exact HoO|rewrite !in_app_iff; tauto]. }
  apply NoDup_map_inj.
  - unfold keys. apply NoDup_app.
    + apply NoDup_map_inj.
      * apply NoDup_map_inv with (f := f_name). apply NoDup_map_filter. exact HF.
      * intros f g Hf Hg E. injection E as E. apply filter_In in Hf, Hg. eapply NoDup_map_eq; [exact HF|apply Hf|apply Hg|exact E].
    + clear - HO. induction oneofs as [|o l IH]; [constructor|]. cbn [map concat app] in *. inversion HO as [|? ? Hx Hl]; subst.
      assert (Hr : forall t, ~ In (t, fst o) (concat (map (fun o0 : text * list field => [(TWhich, fst o0); (TVar, fst o0)]) l))).
      { intros t H. apply in_concat in H. destruct H as (l' & Hl' & H). apply in_map_iff in Hl'. destruct Hl' as (o' & <- & Ho'). apply Hx.
        destruct H as [E|[E|[]]]; injection E as _ E; rewrite <- E; apply in_map; exact Ho'. }
      constructor; [|constructor; [|apply IH; exact Hl]]; [|apply Hr]. intros [E|H]; [discriminate E|exact (Hr _ H)].
    + intros [t b] H1 H2. apply in_map_iff in H1. destruct H1 as (f & E & Hf). injection E as <- <-. apply filter_In in Hf. destruct Hf as [Hf _].
      apply in_concat in H2. destruct H2 as (l & Hl & H). apply in_map_iff in Hl. destruct Hl as (o & <- & Ho). apply (HFO (f_name f)).
      * apply in_map. apply in_or_app. left. exact Hf.
      * destruct H as [E|[E|[]]]; [discriminate E|]. injection E as E. rewrite <- E. apply in_map. exact Ho.
  - intros [t1 b1] [t2 b2] H1 H2 E. destruct (spell_inj _ _ _ _ _ _ _ _ _ Hn (Hv _ _ H1) (Hv _ _ H2) E) as [-> ->]. reflexivity.
Qed.
Lemma uppers_NoDup : NoDup (map (fun f => upper (f_name f)) (fields ++ concat (map snd oneofs))).
Proof. destruct Hn as (_ & H & _). rewrite names_are, map_map in H. exact H. Qed.
Lemma constants_NoDup fs os : NoDup (map fst (c_constants (class_of d fs os))).
Proof.
  rewrite constants_of, map_map. cbn [fst]. replace (map (fun f => name_constant (f_name f)) (fields ++ concat (map snd oneofs)))
    with (map (fun u => u ++ chars "_NAME") (map (fun f => upper (f_name f)) (fields ++ concat (map snd oneofs)))) by (rewrite map_map; reflexivity).
  apply NoDup_map_inj; [apply uppers_NoDup|]. intros x y _ _ E. apply app_inv_tail in E. exact E.
Qed.
Lemma ids_NoDup fs os : NoDup (map fst (c_numbers (class_of d fs os))).
Proof.
  rewrite class_numbers_of. unfold numbers_of. cbn [map fst]. rewrite map_map. cbn [fst]. constructor.
  - destruct Hn as (_ & _ & H & _). rewrite names_are, map_map in H. exact H.
  - apply uppers_NoDup.
Qed.
Lemma unions_NoDup : Forall (fun o => NoDup (map (fun f => variable_name (f_name f)) (snd o))) oneofs.
Proof.
  pose proof names_NoDup as H. apply NoDup_app_remove_r in H. rewrite map_app in H. apply NoDup_app_remove_l in H. rewrite concat_map, map_map in H.
  apply Forall_forall. intros o Ho. pose proof (NoDup_concat_in _ _ H (in_map (fun x => map f_name (snd x)) _ _ Ho)) as H'. cbn in H'.
  rewrite <- (map_map f_name variable_name). apply NoDup_map_inj; [exact H'|]. intros x y _ _ E. unfold variable_name in E. apply app_inv_tail in E. exact E.
Qed.
Lemma presence_NoDup : NoDup (presence_fields d).
Proof.
  pose proof uppers_NoDup as H. rewrite map_app in H. apply NoDup_app_remove_r in H. destruct d as [scope nested enums fl ol]. cbn [presence_fields fields_of] in *.
  clear - H. induction fl as [|f l IH]; [constructor|]. cbn [map filter] in *. inversion H as [|? ? Hx Hl]; subst. destruct (f_optional f); [|auto]. cbn [map]. constructor; [|auto].
  intros Hi. apply Hx. apply in_map_iff in Hi. destruct Hi as (g & <- & Hg). apply filter_In in Hg. apply (in_map (fun f => upper (f_name f))). apply Hg.
Qed.
End Neat.

(** ** The fields that are declared *)

Lemma define_groups_fields s fields names : (forall f i, In f fields -> pf_oneof f = Some i -> pf_optional f = true -> forall g, In g fields -> pf_oneof g = Some i -> g = f) ->
  forall index, map snd (define_oneofs s fields index names)
  = map (map (factory s))
      (filter (fun l => match l with [] => false | _ => true end) (map (fun i => filter (in_oneof i) fields) (seq index (length names)))).
Proof.
  intros Hok. induction names as [|n names IH]; intros index; [reflexivity|]. cbn [define_oneofs length seq map]. rewrite map_app, IH. clear IH.
  assert (Hm : forall g, In g (oneof_members fields index) <-> In g fields /\ pf_oneof g = Some index).
  { intros g. unfold oneof_members. rewrite filter_In. destruct (pf_oneof g) as [j|]; [|intuition discriminate]. rewrite Nat.eqb_eq. intuition congruence. }
  cbn [filter]. rewrite oneof_members_in. destruct (oneof_members fields index) as [|h r] eqn:E; [reflexivity|].
  destruct (pf_optional h) eqn:Eh.
  - assert (Hnil : filter (fun g => negb (pf_optional g)) (h :: r) = []); [|rewrite Hnil; reflexivity].
    assert (Hall : forall g, In g (h :: r) -> pf_optional g = true).
    { destruct (proj1 (Hm h)) as [Hh Hi]; [left; reflexivity|]. intros g Hg. apply Hm in Hg. rewrite (Hok h index Hh Hi Eh g (proj1 Hg) (proj2 Hg)). exact Eh. }
    clear - Hall. induction (h :: r) as [|g l IH]; [reflexivity|]. cbn [filter]. rewrite (Hall g (or_introl eq_refl)). cbn. apply IH.
    intros x Hx. apply Hall. right. exact Hx.
  - assert (Hid : filter (fun g => negb (pf_optional g)) (h :: r) = h :: r).
    { assert (Hall : forall g, In g (h :: r) -> pf_optional g = false).
      { intros g Hg. destruct (pf_optional g) eqn:Eg; [|reflexivity]. apply Hm in Hg. destruct (proj1 (Hm h)) as [Hh Hi]; [left; reflexivity|].
        rewrite (Hok g index (proj1 Hg) (proj2 Hg) Eg h Hh Hi) in Eh. congruence. }
      clear - Hall. induction (h :: r) as [|g l IH]; [reflexivity|]. cbn [filter]. rewrite (Hall g (or_introl eq_refl)). cbn. f_equal. apply IH.
      intros x Hx. apply Hall. right. exact Hx. }
    rewrite Hid. reflexivity.
Qed.

Lemma fields_define p m : fields_of (define p m) = map (factory (p ++ [p_name m])) (filter direct (m_fields m)).
Proof. destruct m. reflexivity. Qed.
Lemma oneofs_define p m : msg_legal m -> map snd (oneofs_of (define p m)) = map (map (factory (p ++ [p_name m]))) (oneof_groups m).
Proof.
  intros Hl. pose proof (legal_oneofs _ Hl) as Hok. destruct m as [n nested enums fields oneofs]. cbn [define oneofs_of p_name m_fields] in *. unfold oneof_groups. cbn [m_fields oneof_count].
  apply define_groups_fields. intros f i Hf Hi Ho. apply (Hok f i Hf Hi). exact Ho.
Qed.

Lemma refers_false g s : ~ refers g s -> refers_to g s = false.
Proof.
  intros H. pose proof (recursive_refers s g) as R. unfold recursive, factory in R. cbn [f_class] in R. destruct (refers_to g s) eqn:E; [|reflexivity].
  exfalso. apply H, R. reflexivity.
Qed.
Lemma refers_true g s : refers g s -> refers_to g s = true.
Proof.
  intros H. apply recursive_refers in H. unfold recursive, factory in H. cbn [f_class] in H. destruct (refers_to g s) eqn:E; [reflexivity|].
  unfold single_factory in H. destruct (pf_repeated g), (pf_type g); discriminate.
Qed.
Lemma fits_type request lengths m g e : declared_type (declared request) lengths m g e -> fits_class (single_factory g) e.
Proof.
  intros H. unfold single_factory. inversion H as [sc E|E|E|T E|T e' E Hd]; subst; rewrite E; cbn [fits_class]; try (eexists; reflexivity); try reflexivity.
  inversion Hd; subst. eexists _, _. reflexivity.
Qed.

Lemma sound_define request parent m params lengths fs os : protoc_ok request -> message request (parent ++ [p_name m]) m ->
  clear_members params m -> no_recursive_presence parent m -> declared request lengths (parent ++ [p_name m]) (EMsg fs os) ->
  sound (define parent m) fs os.
Proof.
  intros Hok Hm Hc Hr Hd. pose proof Hok as (Hl & _ & _ & Hnum & _). set (s := parent ++ [p_name m]) in *.
  pose proof (legal_message _ _ _ Hl Hm) as Hlm. pose proof (neat_define params parent m Hlm Hc) as Hn.
  inversion Hd as [lengths' s' m' fs' os' Hm' Hfs Hos]; subst. assert (m' = m) by (eapply message_unique; eassumption). subst m'.
  pose proof (oneofs_define parent m Hlm) as Eo. fold s in Eo.
  assert (Hrec : forall g, In g (m_fields m) -> pf_optional g = true \/ pf_oneof g <> None -> pf_repeated g = false /\ ~ refers g s) by exact Hr.
  constructor.
  - rewrite fields_define. fold s.
    assert (Hin : forall g, In g (filter direct (m_fields m)) -> In g (m_fields m)) by (intros g H; apply filter_In in H; apply H).
    clear - Hfs Hrec Hin. induction Hfs as [|g x l1 l2 Hg _ IH]; [constructor|]. cbn [map].
    constructor; [|apply IH; intros y Hy; apply Hin; right; exact Hy]. clear IH.
    pose proof (Hrec g (Hin g (or_introl eq_refl))) as Hrg.
    destruct Hg as [Href|e Href Hrep Ht|e Href Hrep Ht]; unfold fits_field; cbn [factory f_number f_class f_optional]; (split; [reflexivity|]).
    + rewrite (refers_true _ _ Href). split; [reflexivity|]. destruct (pf_optional g); [|reflexivity]. destruct (Hrg (or_introl eq_refl)). contradiction.
    + rewrite (refers_false _ _ Href), Hrep. split; [eexists; reflexivity|]. destruct (pf_optional g); [|reflexivity]. destruct (Hrg (or_introl eq_refl)). congruence.
    + rewrite (refers_false _ _ Href), Hrep. pose proof (fits_type _ _ _ _ _ Ht) as H. destruct (single_factory g) eqn:E; try (destruct H; fail); auto;
        unfold single_factory in E; destruct (pf_type g); discriminate.
  - assert (Hin : forall l g, In l (oneof_groups m) -> In g l -> In g (m_fields m) /\ pf_oneof g <> None /\ pf_optional g = false).
    { intros l g H1 H2. split; [eapply group_in; eassumption|]. unfold oneof_groups in H1. apply filter_In in H1. destruct H1 as [H1 _]. apply in_map_iff in H1. destruct H1 as (i & <- & _).
      apply filter_In in H2. destruct H2 as [_ H2]. unfold in_oneof in H2. destruct (pf_oneof g); [|discriminate]. split; [discriminate|]. destruct (pf_optional g); [lia|reflexivity]. }
    revert Eo. generalize (oneofs_of (define parent m)) as ol. clear - Hos Hrec Hin. intros ol. revert ol.
    induction Hos as [|gs ms l1 l2 Hg _ IH]; intros [|o ol] Eo; try discriminate; [constructor|]. cbn [map] in Eo. injection Eo as E1 E2.
    constructor; [|apply IH; [intros l g Hl; apply Hin; right; exact Hl|exact E2]]. unfold fits_oneof. rewrite E1.
    assert (Hin' : forall g, In g gs -> In g (m_fields m) /\ pf_oneof g <> None /\ pf_optional g = false) by (intros g; apply Hin; left; reflexivity).
    clear - Hg Hin' Hrec. induction Hg as [|g x l1 l2 Hg _ IH]; [constructor|]. cbn [map]. constructor; [|apply IH; intros y Hy; apply Hin'; right; exact Hy].
    destruct (Hin' g (or_introl eq_refl)) as (H1 & H2 & H3). destruct (Hrec g H1 (or_intror H2)) as [Hrep Href]. destruct Hg as [e Ht].
    split; [reflexivity|]. split; [exact H3|]. cbn [factory f_class snd]. rewrite (refers_false _ _ Href), Hrep. eapply fits_type. exact Ht.
  - eapply cells_NoDup. exact Hn.
  - eapply unions_NoDup. exact Hn.
  - eapply ids_NoDup. exact Hn.
  - rewrite class_numbers_of. unfold numbers_of. cbn [map snd]. rewrite map_map. cbn [snd].
    assert (E : map f_number (fields_of (define parent m) ++ concat (map snd (oneofs_of (define parent m)))) = map pf_number (filter direct (m_fields m) ++ concat (oneof_groups m))).
    { rewrite Eo, fields_define, <- concat_map, <- map_app, map_map. reflexivity. }
    change (map (fun x => f_number x)) with (map f_number). rewrite E. pose proof (fields_nodup _ _ _ Hl Hm) as Hnd. destruct (Hnum _ _ Hm) as [Hnn Hr'].
    assert (Hin : forall g, In g (filter direct (m_fields m) ++ concat (oneof_groups m)) -> In g (m_fields m)).
    { intros g H. apply in_app_or in H. destruct H as [H|H]; [apply filter_In in H; apply H|]. apply in_concat in H. destruct H as (l & H1 & H2). eapply group_in; eassumption. }
    constructor.
    + intros H. apply in_map_iff in H. destruct H as (g & Eg & Hg). rewrite Forall_forall in Hr'. specialize (Hr' g (Hin g Hg)). lia.
    + apply NoDup_map_inj; [exact Hnd|]. intros x y Hx Hy. eapply NoDup_map_eq; [exact Hnn| |]; auto.
  - eapply presence_NoDup. exact Hn.
  - eapply constants_NoDup. exact Hn.
  - rewrite functions_of. eapply functions_NoDup. exact Hn.
Qed.
