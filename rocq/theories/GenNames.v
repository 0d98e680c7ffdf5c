(** * GenNames: the order of the declarations and what the names in the types stand for. *)
From Coq Require Import String.
From Verif Require Import Base Schema Printf Generator SpecGenerator GenOrder GenSort GenReg GenRender GenTypes GenOnce.
From Coq Require Import List Permutation ZifyBool ZifyNat Lia.

(** ** Types of a file *)

Lemma type_names_inv m : forall p T, In T (type_names p m) -> exists X mX, inside p m X mX /\ type_in X mX T.
Proof.
  induction m as [n nested enums fields oneofs IH] using pmsg_induction. intros p T H. cbn [type_names] in H.
  destruct H as [<-|H].
  - exists (p ++ [n]), (PMsg n nested enums fields oneofs). split; [apply (inside_self p (PMsg n nested enums fields oneofs))|left; reflexivity].
  - apply in_app_or in H. destruct H as [H|H].
    + apply in_map_iff in H. destruct H as (e & <- & He). exists (p ++ [n]), (PMsg n nested enums fields oneofs).
      split; [apply (inside_self p (PMsg n nested enums fields oneofs))|]. right. exists e. split; [exact He|]. rewrite <- app_assoc. reflexivity.
    + apply in_concat in H. destruct H as (l & Hl & H). apply in_map_iff in Hl. destruct Hl as (a & <- & Ha). rewrite Forall_forall in IH.
      destruct (IH a Ha _ _ H) as (X & mX & Hi & HT). exists X, mX. split; [eapply inside_nested; eassumption|exact HT].
Qed.
Lemma file_type_names_inv f T : In T (file_type_names f) ->
  (exists e, In e (p_enums f) /\ T = p_package f ++ [e]) \/ exists X mX, file_message f X mX /\ type_in X mX T.
Proof.
  unfold file_type_names. intros H. apply in_app_or in H. destruct H as [H|H].
  - left. apply in_map_iff in H. destruct H as (e & <- & He). exists e. split; [exact He|reflexivity].
  - right. apply in_concat in H. destruct H as (l & Hl & H). apply in_map_iff in Hl. destruct Hl as (a & <- & Ha).
    destruct (type_names_inv _ _ _ H) as (X & mX & Hi & HT). exists X, mX. split; [exists a; split; assumption|exact HT].
Qed.

Lemma inside_ids p m s m' T : inside p m s m' -> Forall identifier p -> msg_legal m -> type_in s m' T -> Forall identifier T.
Proof.
  intros H. induction H as [p m|p n nested enums fields oneofs a s m' Ha H IH]; intros Hp Hl HT.
  - destruct m as [n nested enums fields oneofs]. cbn [msg_legal p_name m_enums] in *. destruct Hl as (Hn & He & _).
    assert (Hpn : Forall identifier (p ++ [n])) by (apply Forall_app; split; [exact Hp|constructor; [exact Hn|constructor]]).
    destruct HT as [->|(e & Hi & ->)]; [exact Hpn|]. apply Forall_app. split; [exact Hpn|]. constructor; [|constructor].
    rewrite Forall_forall in He. apply He. exact Hi.
  - apply IH; [| |exact HT].
    + cbn [msg_legal] in Hl. destruct Hl as (Hn & _). apply Forall_app. split; [exact Hp|constructor; [exact Hn|constructor]].
    + cbn [msg_legal] in Hl. destruct Hl as (_ & _ & _ & _ & _ & Hl). clear - Hl Ha.
      induction nested as [|b l IHl]; [destruct Ha|]. destruct Hl as [H1 H2]. destruct Ha as [->|Ha]; [exact H1|apply IHl; assumption].
Qed.
Lemma legal_ids request T : legal request -> In T (concat (map file_type_names request)) -> Forall identifier T.
Proof.
  intros (Hl & _) H. apply in_concat in H. destruct H as (l & Hf & H). apply in_map_iff in Hf. destruct Hf as (f & <- & Hf).
  rewrite Forall_forall in Hl. destruct (Hl f Hf) as (Hp & He & Hm). apply file_type_names_inv in H.
  destruct H as [(e & Hi & ->)|(X & mX & (top & Ht & Hi) & HT)].
  - apply Forall_app. split; [exact Hp|]. constructor; [|constructor]. rewrite Forall_forall in He. apply He. exact Hi.
  - rewrite Forall_forall in Hm. eapply inside_ids; [exact Hi|exact Hp|apply Hm; exact Ht|exact HT].
Qed.

(** ** The order *)

Lemma written_script t f h : written t f h -> exists ms, sorted_file f ms /\
  header_script h = map (fun e => Declared (p_package f ++ [e])) (p_enums f) ++ concat (map (pscript (p_package f)) ms).
Proof.
  intros (Ep & Ee & ms & Hs & Hc). exists ms. split; [exact Hs|]. unfold header_script. rewrite Ep, Ee. f_equal. f_equal.
  clear Hs. induction Hc as [|m c ms cs Hm Hc IH]; [reflexivity|]. cbn. f_equal; [|exact IH]. apply (render_inside _ _ _ _ Hm).
Qed.
Lemma written_uses t f h s m : written t f h -> file_message f s m -> In (Uses s) (header_script h).
Proof.
  intros Hw (top & Ht & Hi). destruct (written_script _ _ _ Hw) as (ms & (order0 & _ & ->) & ->).
  set (order := match p_package f with [] => _ | _ => _ end). clearbody order. apply in_or_app. right. apply in_concat.
  exists (pscript (p_package f) (sort_pmsg order (p_package f) top)). split; [apply in_map, sort_In, in_map; exact Ht|]. eapply pscript_uses. exact Hi.
Qed.
Lemma written_declared t f h T : written t f h -> In T (file_type_names f) -> In (Declared T) (header_script h).
Proof.
  intros Hw HT. destruct (written_script _ _ _ Hw) as (ms & (order0 & _ & ->) & ->).
  set (order := match p_package f with [] => _ | _ => _ end). clearbody order. apply in_or_app.
  apply file_type_names_inv in HT. destruct HT as [(e & He & ->)|(X & mX & (top & Ht & Hi) & HT)].
  - left. apply in_map_iff. exists e. split; [reflexivity|exact He].
  - right. apply in_concat. exists (pscript (p_package f) (sort_pmsg order (p_package f) top)).
    split; [apply in_map, sort_In, in_map; exact Ht|]. eapply pscript_declared; eassumption.
Qed.

Definition file_script (f : pfile) (ms : list pmsg) : list event :=
  map (fun e => Declared (p_package f ++ [e])) (p_enums f) ++ concat (map (pscript (p_package f)) ms).
Definition request_script (request : list pfile) (mss : list (list pmsg)) : list event :=
  concat (map (fun '(f, ms) => file_script f ms) (combine request mss)).
Lemma written_sorted t request hs : Forall2 (written t) request hs -> exists mss, Forall2 sorted_file request mss /\ script hs = request_script request mss.
Proof.
  induction 1 as [|f h fs hs Hf Hw (mss & Hs & E)]; [exists []; split; [constructor|reflexivity]|].
  destruct (written_script _ _ _ Hf) as (ms & Hm & Eh). exists (ms :: mss). split; [constructor; assumption|].
  unfold script, request_script in *. cbn [map concat combine]. rewrite E. f_equal. exact Eh.
Qed.
Lemma sorted_uses f ms s m : sorted_file f ms -> file_message f s m -> In (Uses s) (concat (map (pscript (p_package f)) ms)).
Proof.
  intros (order0 & _ & ->) (top & Ht & Hi).
  set (order := match p_package f with [] => _ | _ => _ end). clearbody order. apply in_concat.
  exists (pscript (p_package f) (sort_pmsg order (p_package f) top)). split; [apply in_map, sort_In, in_map; exact Ht|]. eapply pscript_uses. exact Hi.
Qed.
Lemma sorted_declared f ms T : sorted_file f ms -> In T (file_type_names f) -> In (Declared T) (file_script f ms).
Proof.
  intros (order0 & _ & ->) HT. unfold file_script.
  set (order := match p_package f with [] => _ | _ => _ end). clearbody order. apply in_or_app.
  apply file_type_names_inv in HT. destruct HT as [(e & He & ->)|(X & mX & (top & Ht & Hi) & HT)].
  - left. apply in_map_iff. exists e. split; [reflexivity|exact He].
  - right. apply in_concat. exists (pscript (p_package f) (sort_pmsg order (p_package f) top)).
    split; [apply in_map, sort_In, in_map; exact Ht|]. eapply pscript_declared; eassumption.
Qed.
Lemma Forall2_len {A B} (P : A -> B -> Prop) l l' : Forall2 P l l' -> length l = length l'.
Proof. induction 1; cbn; congruence. Qed.
Lemma combine_app {A B} (l1 l2 : list A) (r1 r2 : list B) : length l1 = length r1 -> combine (l1 ++ l2) (r1 ++ r2) = combine l1 r1 ++ combine l2 r2.
Proof. revert r1. induction l1 as [|a l1 IH]; intros [|b r1] E; try discriminate; [reflexivity|]. cbn. f_equal. apply IH. injection E as E. exact E. Qed.

(** What is known about the names used in a file. *)
Lemma used_ids request f : legal request -> imports_first request -> In f request ->
  forall T, In T (file_type_names f) \/ file_ref f T -> Forall identifier T.
Proof.
  intros Hl Himp Hf T HT. apply (legal_ids _ _ Hl). apply in_split in Hf. destruct Hf as (l1 & l2 & ->). destruct HT as [HT|(s & m & g & Hm & Hg & Hr)].
  - rewrite map_app, concat_app. apply in_or_app. right. cbn. apply in_or_app. left. exact HT.
  - pose proof (Himp l1 f l2 s m g T eq_refl Hm Hg Hr) as H. rewrite map_app, concat_app in H |- *.
    apply in_app_or in H. apply in_or_app. destruct H as [H|H]; [left; exact H|right]. cbn in H |- *. rewrite app_nil_r in H. apply in_or_app. left. exact H.
Qed.
Lemma file_names request f : legal request -> In f request -> NoDup (concat (map (type_names (p_package f)) (p_msgs f))).
Proof.
  intros (_ & Hnd & _) Hf. apply in_split in Hf. destruct Hf as (l1 & l2 & ->). rewrite map_app, concat_app in Hnd. apply NoDup_app_remove_l in Hnd.
  cbn in Hnd. apply NoDup_app_remove_r in Hnd. unfold file_type_names in Hnd. apply NoDup_app_remove_l in Hnd. exact Hnd.
Qed.
Lemma file_package request f : legal request -> In f request -> Forall identifier (p_package f).
Proof. intros (Hl & _) Hf. rewrite Forall_forall in Hl. apply (Hl f Hf). Qed.

Lemma sorted_outside request mss : legal request -> imports_first request -> Forall clear_names request ->
  Forall2 sorted_file request mss -> forall s m g T, message request s m -> In g (m_fields m) -> refers g T -> ~ prefix T s ->
  before (request_script request mss) (Declared T) (Uses s).
Proof.
  intros Hl Himp Hclear Hw s m g T (f & Hf & Hm) Hg Hr HT. pose proof (used_ids _ _ Hl Himp Hf) as Hused.
  pose proof (file_names _ _ Hl Hf) as Hnames. pose proof (file_package _ _ Hl Hf) as Hids. rewrite Forall_forall in Hclear. specialize (Hclear f Hf).
  pose proof Hf as HlF. apply in_split in Hf. destruct Hf as (l1 & l2 & E).
  pose proof (Himp l1 f l2 s m g T E Hm Hg Hr) as HTn. rewrite E in Hw. apply Forall2_app_inv_l in Hw.
  destruct Hw as (h1 & h2 & Hw1 & Hw2 & ->). inversion Hw2 as [|? ms ? h2' Hwf Hw2']; subst. unfold request_script.
  rewrite (combine_app _ _ _ _ (Forall2_len _ _ _ Hw1)), map_app, concat_app.
  rewrite map_app, concat_app in HTn. apply in_app_or in HTn. destruct HTn as [HTn|HTn].
  - apply before_app.
    + clear - HTn Hw1. induction Hw1 as [|f ms l1 h1 Hf Hw IH]; [destruct HTn|]. cbn in HTn |- *. apply in_app_or in HTn. apply in_or_app.
      destruct HTn as [H|H]; [left; eapply sorted_declared; eassumption|right; apply IH; exact H].
    + cbn. apply in_or_app. left. apply in_or_app. right. eapply sorted_uses; eassumption.
  - apply before_app_r. cbn [combine map concat]. apply before_app_l. cbn in HTn. rewrite app_nil_r in HTn. unfold file_script.
    apply file_type_names_inv in HTn. destruct HTn as [(e & He & ->)|(X & mX & HmX & HTX)].
    + apply before_app; [apply in_map_iff; exists e; split; [reflexivity|exact He]|]. eapply sorted_uses; eassumption.
    + apply before_app_r. destruct Hwf as (order0 & Hto & ->).
      apply (file_before f order0 Hto Hclear Hids) with (X := X) (mX := mX) (m0 := m) (g := g); try assumption.
      intros -> Hp. apply HT. exact Hp.
Qed.
Lemma sorted_order request mss : legal request -> imports_first request -> Forall clear_names request -> no_enclosing request ->
  Forall2 sorted_file request mss -> forall s m g T, message request s m -> In g (m_fields m) -> refers g T -> T <> s ->
  before (request_script request mss) (Declared T) (Uses s).
Proof.
  intros Hl Himp Hclear Henc Hw s m g T Hm Hg Hr HT. eapply sorted_outside; try eassumption. intros Hp. apply HT. eapply Henc; eassumption.
Qed.
Lemma request_outside t request hs : legal request -> imports_first request -> Forall clear_names request ->
  Forall2 (written t) request hs -> forall s m g T, message request s m -> In g (m_fields m) -> refers g T -> ~ prefix T s ->
  before (script hs) (Declared T) (Uses s).
Proof. intros Hl Himp Hclear Hw. destruct (written_sorted _ _ _ Hw) as (mss & Hs & ->). apply sorted_outside; assumption. Qed.
Lemma request_order t request hs : legal request -> imports_first request -> Forall clear_names request -> no_enclosing request ->
  Forall2 (written t) request hs -> forall s m g T, message request s m -> In g (m_fields m) -> refers g T -> T <> s ->
  before (script hs) (Declared T) (Uses s).
Proof. intros Hl Himp Hclear Henc Hw. destruct (written_sorted _ _ _ Hw) as (mss & Hs & ->). apply sorted_order; assumption. Qed.

(** ** What is declared *)

Lemma prefix_firstn p q : prefix p q -> p = firstn (length p) q.
Proof. intros [r ->]. rewrite firstn_app, Nat.sub_diag, firstn_all. cbn. rewrite app_nil_r. reflexivity. Qed.
Lemma firstn_prefix {A} k (q : list A) : exists r, q = firstn k q ++ r.
Proof. exists (skipn k q). symmetry. apply firstn_skipn. Qed.

Lemma entity_declared t request hs : Forall2 (written t) request hs -> forall p, entity hs p <-> declared_name request p.
Proof.
  intros Hw p. split.
  - intros H. destruct H as [h n Hh Hn|h e Hh He|s c Hg|s c e Hg He].
    + right. destruct (Forall2_In_r _ _ _ _ Hw Hh) as (f & Hf & (Ep & _)). rewrite Ep in *. split.
      * intros E. apply (f_equal (@length text)) in E. rewrite firstn_length in E. cbn in E. lia.
      * exists f. split; [exact Hf|]. apply firstn_prefix.
    + left. destruct (Forall2_In_r _ _ _ _ Hw Hh) as (f & Hf & (Ep & Ee & _)). apply in_concat. exists (file_type_names f).
      split; [apply in_map; exact Hf|]. unfold file_type_names. apply in_or_app. left. rewrite Ep. apply in_map_iff. exists e.
      split; [reflexivity|]. rewrite <- Ee. exact He.
    + left. destruct (generated_message _ _ _ _ _ Hw Hg) as (m & (f & Hf & Hm) & _). apply in_concat. exists (file_type_names f).
      split; [apply in_map; exact Hf|]. eapply file_message_name. exact Hm.
    + left. destruct (generated_message _ _ _ _ _ Hw Hg) as (m & (f & Hf & Hm) & (_ & Ee & _)). apply in_concat. exists (file_type_names f).
      split; [apply in_map; exact Hf|]. eapply file_type_in; [exact Hm|]. right. exists e. split; [rewrite <- Ee; exact He|reflexivity].
  - intros [H|(Hne & f & Hf & Hp)].
    + apply in_concat in H. destruct H as (l & Hl & H). apply in_map_iff in Hl. destruct Hl as (f & <- & Hf).
      apply file_type_names_inv in H. destruct H as [(e & He & ->)|(X & mX & Hm & HT)].
      * destruct (Forall2_In_l _ _ _ _ Hw Hf) as (h & Hh & (Ep & Ee & _)). rewrite <- Ep. apply en_enum; [exact Hh|]. rewrite Ee. exact He.
      * assert (Hmm : message request X mX) by (exists f; split; assumption).
        destruct (message_generated _ _ _ _ _ Hw Hmm) as (c & Hg & (_ & Ee & _)). destruct HT as [->|(e & He & ->)].
        -- eapply en_class. exact Hg.
        -- eapply en_nested_enum; [exact Hg|]. rewrite Ee. exact He.
    + destruct (Forall2_In_l _ _ _ _ Hw Hf) as (h & Hh & (Ep & _)). rewrite <- Ep in Hp. rewrite (prefix_firstn _ _ Hp). apply en_namespace; [exact Hh|].
      pose proof (prefix_length _ _ Hp). destruct p; [contradiction|]. cbn in *. lia.
Qed.

Lemma prefix_app_inv p q r : prefix p (q ++ r) -> prefix p q \/ exists p', p = q ++ p' /\ p' <> [] /\ prefix p' r.
Proof.
  intros [w E]. symmetry in E. apply app_eq_app in E. destruct E as (l & [[-> ->]|[-> E]]).
  - destruct l as [|x l].
    + left. exists []. rewrite !app_nil_r. reflexivity.
    + right. exists (x :: l). split; [reflexivity|]. split; [discriminate|]. exists w. reflexivity.
  - left. exists l. reflexivity.
Qed.
Lemma inside_prefixes p m s m' : inside p m s m' -> forall x, prefix x s -> prefix x p \/ exists mx, inside p m x mx.
Proof.
  intros H. induction H as [p m|p n nested enums fields oneofs a s m' Ha H IH]; intros x Hx.
  - apply prefix_app_inv in Hx. destruct Hx as [Hx|(x' & -> & Hne & Hx)]; [left; exact Hx|right]. exists m.
    destruct Hx as [r E]. destruct x' as [|y x']; [contradiction|]. injection E as <- E. symmetry in E. apply app_eq_nil in E. destruct E as [-> _]. apply inside_self.
  - destruct (IH x Hx) as [Hp|[mx Hi]].
    + apply prefix_app_inv in Hp. destruct Hp as [Hp|(x' & -> & Hne & Hp)]; [left; exact Hp|right].
      destruct Hp as [r E]. destruct x' as [|y x']; [contradiction|]. injection E as <- E. symmetry in E. apply app_eq_nil in E. destruct E as [-> _].
      exists (PMsg n nested enums fields oneofs). apply (inside_self p (PMsg n nested enums fields oneofs)).
    + right. exists mx. eapply inside_nested; eassumption.
Qed.
Lemma type_prefixes request T x : In T (concat (map file_type_names request)) -> prefix x T -> x <> [] -> declared_name request x.
Proof.
  intros H Hx Hne. apply in_concat in H. destruct H as (l & Hl & H). apply in_map_iff in Hl. destruct Hl as (f & <- & Hf).
  assert (Hself : forall y, In y (file_type_names f) -> declared_name request y).
  { intros y Hy. left. apply in_concat. exists (file_type_names f). split; [apply in_map; exact Hf|exact Hy]. }
  assert (Hpk : prefix x (p_package f) -> declared_name request x) by (intros Hp; right; split; [exact Hne|]; exists f; split; assumption).
  assert (Hmsg : forall X mX, file_message f X mX -> prefix x X -> declared_name request x).
  { intros X mX (top & Ht & Hi) HxX. destruct (inside_prefixes _ _ _ _ Hi x HxX) as [Hp|[mx Hix]]; [apply Hpk; exact Hp|].
    apply Hself. eapply file_message_name. exists top. split; eassumption. }
  assert (Hlast : forall q e, In (q ++ [e]) (file_type_names f) -> prefix x (q ++ [e]) -> prefix x q \/ declared_name request x).
  { intros q e Hq Hp. apply prefix_app_inv in Hp. destruct Hp as [Hp|(x' & -> & Hne' & Hp)]; [left; exact Hp|right].
    destruct Hp as [r E]. destruct x' as [|y x']; [contradiction|]. injection E as <- E. symmetry in E. apply app_eq_nil in E. destruct E as [-> _].
    apply Hself. exact Hq. }
  pose proof H as H'. apply file_type_names_inv in H. destruct H as [(e & He & ->)|(X & mX & Hm & [->|(e & He & ->)])].
  - destruct (Hlast _ _ H' Hx) as [Hp|Hd]; [apply Hpk; exact Hp|exact Hd].
  - eapply Hmsg; eassumption.
  - destruct (Hlast _ _ H' Hx) as [Hp|Hd]; [eapply Hmsg; eassumption|exact Hd].
Qed.

(** ** What the names stand for *)

Lemma common_firstn a b : firstn (common a b) a = firstn (common a b) b.
Proof.
  revert b. induction a as [|x a IH]; intros [|y b]; cbn; try reflexivity. destruct (text_dec x y) as [->|]; [|reflexivity]. cbn. f_equal. apply IH.
Qed.
Lemma common_le a b : (common a b <= length a)%nat /\ (common a b <= length b)%nat.
Proof.
  revert b. induction a as [|x a IH]; intros [|y b]; cbn; try lia. destruct (text_dec x y); [|lia]. specialize (IH b). lia.
Qed.
Lemma common_max a b : forall x r, a = firstn (common a b) a ++ x :: r -> ~ prefix (firstn (common a b) a ++ [x]) b.
Proof.
  revert b. induction a as [|y a IH]; intros [|z b] x r E; cbn in *; try (destruct (text_dec _ _)); cbn in *; try discriminate;
    try (intros [w H]; discriminate).
  - subst z. injection E as E. intros [w H]. injection H as H. apply (IH b x r E). exists w. exact H.
  - injection E as -> ->. intros [w H]. injection H as -> H. contradiction.
Qed.

(** The parts of a type name: shared with the class, the rest. *)
Lemma reduced_split T s : T <> [] -> exists c a rest d, T = c ++ a :: rest /\ s = c ++ d /\ (rest = [] \/ ~ prefix (c ++ [a]) s)
  /\ reduced_scope T s = a :: rest /\ length c = shared T s.
Proof.
  intros HT. destruct (exists_last HT) as (q & e & ->). unfold reduced_scope, shared. rewrite removelast_last.
  set (n := common q s). pose proof (common_le q s) as [L1 L2]. fold n in L1, L2.
  exists (firstn n q). destruct (skipn n (q ++ [e])) as [|a rest] eqn:E.
  { apply (f_equal (@length text)) in E. rewrite skipn_length, app_length in E. cbn in E. lia. }
  exists a, rest, (skipn n s).
  assert (Eq : firstn n (q ++ [e]) = firstn n q) by (rewrite firstn_app; replace (n - length q)%nat with 0%nat by lia; cbn; rewrite app_nil_r; reflexivity).
  split; [rewrite <- Eq, <- E; symmetry; apply firstn_skipn|]. split; [rewrite (common_firstn q s : firstn n q = firstn n s); symmetry; apply firstn_skipn|].
  split; [|split; [reflexivity|apply firstn_length_le; exact L1]].
  destruct rest as [|b rest]; [left; reflexivity|right]. apply (common_max q s a (removelast (b :: rest))).
  fold n. assert (Et : q ++ [e] = firstn n q ++ a :: b :: rest) by (rewrite <- Eq, <- E; symmetry; apply firstn_skipn).
  apply (f_equal (@removelast text)) in Et. rewrite removelast_last, removelast_app in Et by discriminate. exact Et.
Qed.
Lemma split_unique T s c a rest c' a' rest' d d' : T = c ++ a :: rest -> s = c ++ d -> (rest = [] \/ ~ prefix (c ++ [a]) s) ->
  T = c' ++ a' :: rest' -> s = c' ++ d' -> (rest' = [] \/ ~ prefix (c' ++ [a']) s) -> c = c'.
Proof.
  assert (Hlt : forall c a rest d c' a' rest' d', T = c ++ a :: rest -> s = c ++ d -> (rest = [] \/ ~ prefix (c ++ [a]) s) ->
    T = c' ++ a' :: rest' -> s = c' ++ d' -> (length c < length c')%nat -> False).
  { clear. intros c a rest d c' a' rest' d' E1 E2 H E1' E2' L.
    assert (Hp : prefix (c ++ [a]) c').
    { exists (skipn (length (c ++ [a])) c'). assert (H1 : firstn (length (c ++ [a])) c' = c ++ [a]); [|rewrite <- H1 at 1; symmetry; apply firstn_skipn].
      transitivity (firstn (length (c ++ [a])) T).
      - rewrite E1'. rewrite firstn_app. rewrite app_length. cbn [length]. replace (length c + 1 - length c')%nat with 0%nat by lia. cbn. rewrite app_nil_r. reflexivity.
      - rewrite E1. replace (c ++ a :: rest) with ((c ++ [a]) ++ rest) by (rewrite <- app_assoc; reflexivity).
        rewrite firstn_app, Nat.sub_diag, firstn_all. cbn. apply app_nil_r. }
    destruct H as [->|H].
    - apply (f_equal (@length text)) in E1'. rewrite E1, !app_length in E1'. cbn in E1'. lia.
    - apply H. destruct Hp as [r ->]. rewrite E2', <- app_assoc. eexists. reflexivity. }
  intros E1 E2 H E1' E2' H'. assert (L : length c = length c').
  { destruct (lt_eq_lt_dec (length c) (length c')) as [[L|L]|L]; [exfalso; exact (Hlt c a rest d c' a' rest' d' E1 E2 H E1' E2' L)|exact L|exfalso; exact (Hlt c' a' rest' d' c a rest d E1' E2' H' E1 E2 L)]. }
  rewrite E1 in E1'. apply (f_equal (firstn (length c))) in E1'. rewrite firstn_app, Nat.sub_diag, firstn_all in E1'.
  rewrite L, firstn_app, Nat.sub_diag, firstn_all in E1'. cbn in E1'. rewrite !app_nil_r in E1'. exact E1'.
Qed.

Lemma stands_for_iff t request hs s T : Forall2 (written t) request hs -> In T (concat (map file_type_names request)) -> T <> [] ->
  (stands_for hs s (reduced_scope T s) T <-> ~ shadowed request s T).
Proof.
  intros Hw HT Hne. destruct (reduced_split T s Hne) as (c & a & rest & d & E1 & E2 & H & Er & L). rewrite Er. split.
  - intros (n & a' & rest' & Hn & En & Ep & He & Hno) (c' & a'' & rest'' & d1 & d2 & E1' & E2' & H' & Hd1 & Hdec).
    injection En as <- <-. assert (c' = c) by (eapply split_unique; [exact E1'|exact E2'|exact H'|exact E1|exact E2|exact H]). subst c'.
    rewrite E1 in E1'. apply app_inv_head in E1'. injection E1' as <- <-.
    assert (Hlen : n = length c).
    { rewrite E1 in Ep. apply (f_equal (@length text)) in Ep. rewrite !app_length, firstn_length_le in Ep by exact Hn. lia. }
    subst n. apply (Hno (length c + length d1)%nat).
    + destruct d1; [contradiction|]. rewrite E2'. rewrite !app_length. cbn. lia.
    + apply (entity_declared _ _ _ Hw). rewrite E2'. rewrite app_assoc. replace (length c + length d1)%nat with (length (c ++ d1)) by apply app_length.
      rewrite firstn_app, Nat.sub_diag, firstn_all. cbn. rewrite app_nil_r, <- app_assoc. exact Hdec.
  - intros Hsh. assert (Ec : firstn (length c) s = c) by (rewrite E2, firstn_app, Nat.sub_diag, firstn_all; cbn; apply app_nil_r).
    exists (length c), a, rest. split; [rewrite E2, app_length; lia|]. split; [reflexivity|]. rewrite Ec. split; [exact E1|]. split.
    + apply (entity_declared _ _ _ Hw). apply (type_prefixes _ _ _ HT); [|destruct c; discriminate]. exists rest. rewrite E1, <- app_assoc. reflexivity.
    + intros k Hk He. apply Hsh. apply (entity_declared _ _ _ Hw) in He. exists c, a, rest, (firstn (k - length c) d), (skipn (k - length c) d).
      split; [exact E1|]. split; [rewrite firstn_skipn; exact E2|]. split; [exact H|].
      assert (Ek : firstn k s = c ++ firstn (k - length c) d) by (rewrite E2, firstn_app, firstn_all2 by lia; reflexivity).
      split; [|rewrite app_assoc, <- Ek; exact He]. rewrite E2, app_length in Hk. destruct d as [|y d]; [cbn in Hk; lia|].
      destruct (k - length c)%nat eqn:Ekc; [lia|discriminate].
Qed.

Lemma plain_scopes_iff hs request s T : (forall x c, generated hs x c -> (c_params c <> [] <-> templated request x)) ->
  (forall x, templated request x -> exists c, generated hs x c) -> T <> [] ->
  (plain_scopes hs (reduced_scope T s) T <-> ~ templated_scope request s T).
Proof.
  intros Hiff Hex Hne. destruct (reduced_split T s Hne) as (c & a & rest & d & E1 & E2 & H & Er & L). unfold plain_scopes. rewrite Er.
  assert (Hlen : (length T - length (a :: rest) = length c)%nat) by (rewrite E1, app_length; lia). rewrite Hlen. split.
  - intros Hpl (x & Hx & HxT & Hxs & Ht). destruct (Hex x Ht) as [cx Hg].
    assert (Hk : (length c < length x < length T)%nat).
    { split.
      - destruct (le_lt_dec (length x) (length c)) as [Hle|]; [|assumption]. exfalso. apply Hxs. rewrite (prefix_firstn _ _ Hx), E1, E2.
        exists (skipn (length x) (c ++ d)). rewrite firstn_app. replace (length x - length c)%nat with 0%nat by lia. cbn. rewrite app_nil_r.
        transitivity (firstn (length x) (c ++ d) ++ skipn (length x) (c ++ d)); [symmetry; apply firstn_skipn|]. f_equal.
        rewrite firstn_app. replace (length x - length c)%nat with 0%nat by lia. cbn. apply app_nil_r.
      - destruct Hx as [r ->]. rewrite app_length. destruct r; [exfalso; apply HxT; rewrite app_nil_r; reflexivity|cbn; lia]. }
    rewrite (prefix_firstn _ _ Hx) in Hg. specialize (Hpl _ cx Hk Hg). rewrite <- (prefix_firstn _ _ Hx) in Hg. apply (Hiff x cx Hg) in Ht. contradiction.
  - intros Hno k cx Hk Hg. destruct (c_params cx) as [|y l] eqn:Ep; [reflexivity|]. exfalso. apply Hno. exists (firstn k T).
    split; [apply firstn_prefix|]. split; [intros E; apply (f_equal (@length text)) in E; rewrite firstn_length in E; lia|]. split.
    + intros Hp. destruct H as [->|H]; [rewrite E1, app_length in Hk; cbn in Hk; lia|]. apply H. eapply prefix_trans; [|exact Hp].
      exists (skipn (length (c ++ [a])) (firstn k T)). transitivity (firstn (length (c ++ [a])) (firstn k T) ++ skipn (length (c ++ [a])) (firstn k T)); [symmetry; apply firstn_skipn|].
      f_equal. rewrite firstn_firstn. rewrite app_length in *. cbn [length] in *. replace (Nat.min (length c + 1) k) with (length c + 1)%nat by lia.
      rewrite E1. replace (c ++ a :: rest) with ((c ++ [a]) ++ rest) by (rewrite <- app_assoc; reflexivity).
      replace (length c + 1)%nat with (length (c ++ [a])) by (rewrite app_length; reflexivity). rewrite firstn_app, Nat.sub_diag, firstn_all. cbn. apply app_nil_r.
    + apply (Hiff _ cx Hg). rewrite Ep. discriminate.
Qed.
