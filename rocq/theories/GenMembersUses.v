(** * GenMembersUses: what the functions of a generated class name is declared. *)
From Coq Require Import String.
From Verif Require Import Base Schema Printf Generator SpecGenerator GenMembers SpecMembers GenOrder GenSort GenReg GenRender GenTypes GenOnce GenProps GenMemberKeys GenMembersProofs.
From Coq Require Import List ZifyBool ZifyNat Lia.

(** ** What is declared *)

Lemma field_declared d f t k : let 'MDef _ _ _ fields _ := d in
  In f fields -> In (t, k) (shapes false f) -> In (spell t (f_name f), k) (class_decls d).
Proof.
  destruct d as [scope nested enums fields oneofs]. intros Hf Hs. cbn [class_decls]. rewrite !in_app_iff. do 3 right. left.
  apply in_concat. exists (get_set false f). split; [apply in_map; exact Hf|]. rewrite get_set_shapes. apply in_map_iff. exists (t, k). auto.
Qed.
Lemma chosen_declared d o f t k : let 'MDef _ _ _ _ oneofs := d in
  In o oneofs -> In f (snd o) -> In (t, k) (shapes true f) -> In (spell t (f_name f), k) (class_decls d).
Proof.
  destruct d as [scope nested enums fields oneofs]. intros Ho Hf Hs. cbn [class_decls]. rewrite !in_app_iff. do 4 right. left.
  apply in_concat. exists (oneof_accessors o). split; [apply in_map; exact Ho|]. right.
  apply in_concat. exists (get_set true f). split; [apply in_map; exact Hf|]. rewrite get_set_shapes. apply in_map_iff. exists (t, k). auto.
Qed.
Lemma which_declared d o : let 'MDef _ _ _ _ oneofs := d in In o oneofs -> In (prefixed "get_which_" (fst o) [] true) (class_decls d).
Proof.
  destruct d as [scope nested enums fields oneofs]. intros Ho. cbn [class_decls]. rewrite !in_app_iff. do 4 right. left.
  apply in_concat. exists (oneof_accessors o). split; [apply in_map; exact Ho|]. left. reflexivity.
Qed.
Lemma private_declared d o x : let 'MDef _ _ _ _ oneofs := d in In o oneofs -> In x (oneof_private o) -> In x (class_decls d).
Proof.
  destruct d as [scope nested enums fields oneofs]. intros Ho Hx. cbn [class_decls]. rewrite !in_app_iff. do 8 right.
  apply in_concat. exists (oneof_private o). split; [apply in_map; exact Ho|exact Hx].
Qed.
Lemma variable_declared d f : let 'MDef _ _ _ fields _ := d in
  In f fields -> recursive f = false -> In (variable_name (f_name f), DVar) (class_decls d).
Proof.
  destruct d as [scope nested enums fields oneofs]. intros Hf Hr. cbn [class_decls]. rewrite !in_app_iff. do 7 right. left.
  apply (in_map (fun n => (n, DVar))). apply in_concat. exists (member_variable f). split; [apply in_map; exact Hf|].
  unfold member_variable. rewrite Hr. left. reflexivity.
Qed.
Lemma presence_declared d x : let 'MDef _ _ _ fields _ := d in
  existsb f_optional fields = true -> In x [(chars "presence", DType); (chars "presence_", DVar)] -> In x (class_decls d).
Proof.
  destruct d as [scope nested enums fields oneofs]. intros Hf Hx. cbn [class_decls]. rewrite !in_app_iff. do 6 right. left.
  unfold presence_decls. rewrite Hf. exact Hx.
Qed.

(** ** Types are not hidden *)

Lemma only_type params d n : neat_class params d -> In n (d_nested d ++ d_oneofs d ++ [chars "FieldNumber"; chars "presence"]) ->
  forall k, In (n, k) (class_decls d) -> k = DType.
Proof.
  intros Hn Hi k H. apply class_decl_key in H. destruct H as (t & b & H & ->).
  destruct (class_keys_valid _ _ _ _ H) as [Hv Hk].
  assert (Hp : valid (d_names d) (d_oneofs d) (d_nested d) TPlain (spell t b)).
  { cbn [valid]. rewrite !in_app_iff in *. cbn [In] in Hi. destruct Hi as [Hi|[Hi|[Hi|[Hi|[]]]]]; try tauto;
      rewrite <- Hi; do 3 right; unfold declared_taken; cbn [map In]; tauto. }
  destruct (spell_inj _ _ _ _ _ _ _ _ _ Hn Hv Hp eq_refl) as [-> _]. cbn [spell] in *. clear Hp.
  pose proof Hn as (Hnd & _ & _ & _ & Ht & _). inversion Hnd as [|? ? _ Hnd']; subst. apply NoDup_app_inv in Hnd'. destruct Hnd' as (_ & _ & Hd).
  assert (HF : In b (d_names d) -> False).
  { intros HF. rewrite !in_app_iff in Hi. cbn [In] in Hi. destruct Hi as [Hi|[Hi|Hi]].
    - apply (Hd b HF). apply in_or_app. right. exact Hi.
    - apply (Hd b HF). apply in_or_app. left. exact Hi.
    - apply (Ht b); [right; apply in_or_app; left; exact HF|]. apply taken_declared. destruct Hi as [<-|[<-|[]]]; unfold declared_taken; cbn [map In]; tauto. }
  assert (HT : In b declared_taken -> b = chars "FieldNumber" \/ b = chars "presence").
  { intros HT. rewrite !in_app_iff in Hi. cbn [In] in Hi. destruct Hi as [Hi|[Hi|Hi]]; [exfalso|exfalso|].
    - apply (Ht b); [right; rewrite !in_app_iff; tauto|apply taken_declared; exact HT].
    - apply (Ht b); [right; rewrite !in_app_iff; tauto|apply taken_declared; exact HT].
    - destruct Hi as [<-|[<-|[]]]; tauto. }
  apply class_keys_In in H. destruct d as [scope nested enums fields oneofs]. set (d := MDef scope nested enums fields oneofs) in *. clearbody d.
  unfold d_names in HF. rewrite in_app_iff in HF.
  destruct H as [(_ & -> & _)|[(_ & -> & _)|[(_ & H & _)|[(H & _)|[(_ & E & _)|[(_ & H & N1 & N2 & _)|[(_ & [(_ & ->)|(E & _)] & _)|[(E & _)|(_ & H)]]]]]]]];
    try reflexivity; try discriminate; try tauto.
  destruct k; cbn [of_oneof] in H; try contradiction; reflexivity.
Qed.

Lemma outside_free params d n : neat_class params d -> In n taken -> ~ In n declared_taken -> ~ In n (map fst (class_decls d)).
Proof.
  intros Hn Ht Hd H. apply in_map_iff in H. destruct H as ([n' k] & <- & H). cbn [fst] in *. apply class_decl_key in H. destruct H as (t & b & H & ->).
  destruct (class_keys_valid _ _ _ _ H) as [Hv _].
  pose proof (spelled_names _ _ _ _ _ Hn Hv (apart_odd _ _ _ (in_or_app _ _ _ (or_intror (in_or_app _ _ _ (or_introl Ht))))) eq_refl) as Hi.
  pose proof Hn as (_ & _ & _ & _ & Htk & _). rewrite !in_app_iff in Hi. destruct Hi as [Hi|[Hi|[Hi|Hi]]]; [| | |contradiction];
    (apply (Htk (spell t b)); [right; rewrite !in_app_iff; tauto|exact Ht]).
Qed.

(** ** Everything that is used is there *)

(** The fields with presence are not recursive and not repeated. *)
Definition present_ok (d : mdef) : Prop := let 'MDef _ _ _ fields oneofs := d in
  (forall f, In f fields -> f_optional f = true -> recursive f = false /\ forall max c, f_class f <> FieldRepeated max c)
  /\ (forall o f, In o oneofs -> In f (snd o) -> recursive f = false /\ f_optional f = false /\ forall max c, f_class f <> FieldRepeated max c).

Lemma shapes_common oneof f s : In s [pre "clear_" [] false; pre "get_" [] true; plain_ []; (TConst, DVar)] -> In s (shapes oneof f).
Proof.
  intros H. unfold shapes. cbn [In] in *. destruct (f_class f), oneof, (f_optional f); cbn [app In]; tauto.
Qed.
Lemma shapes_set oneof f : exists ps, length ps = 1%nat /\ In (TPre (chars "set_"), DFun ps false) (shapes oneof f).
Proof.
  unfold shapes. destruct (f_class f) eqn:E; try (exists [chars "const T&"]; split; [reflexivity|]; unfold pre; destruct oneof, (f_optional f); cbn [app In map]; tauto).
  exists [chars "const L&"]. split; [reflexivity|]. unfold pre. destruct oneof, (f_optional f); cbn [app In map]; tauto.
Qed.
Lemma shapes_has oneof f : oneof = true \/ f_optional f = true -> recursive f = false -> (forall max c, f_class f <> FieldRepeated max c) ->
  In (pre "has_" [] true) (shapes oneof f).
Proof.
  intros Ho Hr Hp. unfold shapes, recursive in *. destruct (f_class f); try discriminate; try (exfalso; apply (Hp _ _ eq_refl));
    destruct oneof; try (destruct Ho as [Ho|Ho]; [discriminate|rewrite Ho]); cbn [app In]; tauto.
Qed.

Lemma uses_found params d : neat_class params d -> present_ok d ->
  let 'MDef _ _ _ _ oneofs := d in Forall (found (class_decls d) (map (fun o => (fst o, union_members o)) oneofs)) (named_uses d).
Proof.
  intros Hn Hok. pose proof (field_declared d) as Dfield. pose proof (chosen_declared d) as Dchosen. pose proof (which_declared d) as Dwhich.
  pose proof (private_declared d) as Dprivate. pose proof (variable_declared d) as Dvar. pose proof (presence_declared d) as Dpres.
  pose proof (only_type params d) as Htype. pose proof (outside_free params d) as Hout.
  destruct d as [scope nested enums fields oneofs]. set (d := MDef scope nested enums fields oneofs) in *.
  set (unions := map (fun o => (fst o, union_members o)) oneofs).
  destruct Hok as [Hopt Hone].
  assert (Fclear : forall f, In f fields -> found (class_decls d) unions (Calls false (chars "clear_" ++ f_name f) 0)).
  { intros f Hf. exists [], false. split; [|split; [reflexivity|discriminate]].
    apply (Dfield f (TPre (chars "clear_")) (DFun [] false) Hf). apply shapes_common. left. reflexivity. }
  assert (Fget : forall f, In f fields -> found (class_decls d) unions (Calls true (chars "get_" ++ f_name f) 0)).
  { intros f Hf. exists [], true. split; [|split; reflexivity].
    apply (Dfield f (TPre (chars "get_")) (DFun [] true) Hf). apply shapes_common. right. left. reflexivity. }
  assert (Fset : forall f, In f fields -> found (class_decls d) unions (Calls false (chars "set_" ++ f_name f) 1)).
  { intros f Hf. destruct (shapes_set false f) as (ps & Hl & Hs). exists ps, false. split; [|split; [exact Hl|discriminate]].
    apply (Dfield f (TPre (chars "set_")) (DFun ps false) Hf Hs). }
  assert (Fhas : forall f, In f fields -> f_optional f = true -> found (class_decls d) unions (Calls true (chars "has_" ++ f_name f) 0)).
  { intros f Hf Ho. destruct (Hopt f Hf Ho) as [Hr Hp]. exists [], true. split; [|split; reflexivity].
    apply (Dfield f (TPre (chars "has_")) (DFun [] true) Hf). apply (shapes_has false f); [right; exact Ho|exact Hr|exact Hp]. }
  assert (Fname : forall f, In f fields -> found (class_decls d) unions (Reads (name_constant (f_name f)))).
  { intros f Hf. apply (Dfield f TConst DVar Hf). apply shapes_common. do 3 right. left. reflexivity. }
  assert (Fvar : forall f, In f fields -> recursive f = false -> found (class_decls d) unions (variable None f)).
  { intros f Hf Hr. apply Dvar; assumption. }
  assert (Fpres : forall f, In f fields -> f_optional f = true -> Forall (found (class_decls d) unions) [Reads (chars "presence_"); Names (chars "presence")]).
  { intros f Hf Ho. assert (He : existsb f_optional fields = true) by (apply existsb_exists; exists f; auto).
    constructor; [|constructor; [|constructor]].
    - apply (Dpres _ He). right. left. reflexivity.
    - split; [apply (Dpres _ He); left; reflexivity|]. apply Htype; [exact Hn|]. rewrite !in_app_iff. cbn [In]. tauto. }
  assert (Oclear : forall o f, In o oneofs -> In f (snd o) -> found (class_decls d) unions (Calls false (chars "set_" ++ f_name f) 1)).
  { intros o f Ho Hf. destruct (shapes_set true f) as (ps & Hl & Hs). exists ps, false. split; [|split; [exact Hl|discriminate]].
    apply (Dchosen o f (TPre (chars "set_")) (DFun ps false) Ho Hf Hs). }
  assert (Oget : forall o f, In o oneofs -> In f (snd o) -> found (class_decls d) unions (Calls true (chars "get_" ++ f_name f) 0)).
  { intros o f Ho Hf. exists [], true. split; [|split; reflexivity].
    apply (Dchosen o f (TPre (chars "get_")) (DFun [] true) Ho Hf). apply shapes_common. right. left. reflexivity. }
  assert (Ohas : forall o f, In o oneofs -> In f (snd o) -> found (class_decls d) unions (Calls true (chars "has_" ++ f_name f) 0)).
  { intros o f Ho Hf. destruct (Hone o f Ho Hf) as (Hr & _ & Hp). exists [], true. split; [|split; reflexivity].
    apply (Dchosen o f (TPre (chars "has_")) (DFun [] true) Ho Hf). apply (shapes_has true f); [left; reflexivity|exact Hr|exact Hp]. }
  assert (Oname : forall o f, In o oneofs -> In f (snd o) -> found (class_decls d) unions (Reads (name_constant (f_name f)))).
  { intros o f Ho Hf. apply (Dchosen o f TConst DVar Ho Hf). apply shapes_common. do 3 right. left. reflexivity. }
  assert (Ovar : forall o f, In o oneofs -> In f (snd o) -> found (class_decls d) unions (variable (Some (fst o)) f)).
  { intros o f Ho Hf. destruct (Hone o f Ho Hf) as (Hr & _). exists (union_members o).
    split; [unfold unions; apply (in_map (fun o => (fst o, union_members o))); exact Ho|].
    unfold union_members. apply in_concat. exists (member_variable f). split; [apply in_map; exact Hf|]. unfold member_variable. rewrite Hr. left. reflexivity. }
  assert (Owhich : forall o, In o oneofs -> found (class_decls d) unions (Reads (which_name (fst o)))).
  { intros o Ho. apply (Dprivate o _ Ho). left. reflexivity. }
  assert (Oinit : forall o, In o oneofs -> found (class_decls d) unions (Calls false (chars "init_" ++ fst o) 1)).
  { intros o Ho. exists [chars "FieldNumber"], false. split; [|split; [reflexivity|discriminate]]. apply (Dprivate o _ Ho). do 3 right. left. reflexivity. }
  assert (Oclr : forall o, In o oneofs -> found (class_decls d) unions (Calls false (chars "clear_" ++ fst o) 0)).
  { intros o Ho. exists [], false. split; [|split; [reflexivity|discriminate]]. apply (Dprivate o _ Ho). do 4 right. left. reflexivity. }
  unfold d at 2. cbn [named_uses]. fold d. rewrite !Forall_app. repeat split.
  - apply Forall_forall. intros u Hu. apply in_map_iff in Hu. destruct Hu as (n & <- & Hi). split.
    + unfold d. cbn [class_decls]. rewrite !in_app_iff. left. apply (in_map (fun e => (e, DType))). exact Hi.
    + apply Htype; [exact Hn|]. rewrite in_app_iff. left. unfold d. cbn [d_nested]. apply in_or_app. left. exact Hi.
  - apply Forall_forall. intros u Hu. apply in_map_iff in Hu. destruct Hu as (n & <- & Hi). split.
    + unfold d. cbn [class_decls]. rewrite !in_app_iff. right. left. apply (in_map (fun d' => (d_name d', DType))). exact Hi.
    + apply Htype; [exact Hn|]. rewrite in_app_iff. left. unfold d. cbn [d_nested]. apply in_or_app. right. apply in_map. exact Hi.
  - constructor; [|constructor]. split.
    + unfold d. cbn [class_decls]. rewrite !in_app_iff. do 2 right. left. left. reflexivity.
    + apply Htype; [exact Hn|]. rewrite !in_app_iff. cbn [In]. tauto.
  - apply Forall_forall. intros u Hu. apply in_map_iff in Hu. destruct Hu as (n & <- & Hi). apply Hout; [exact Hn| |]; cbn [In] in Hi;
      repeat (destruct Hi as [<-|Hi]; [first [unfold taken; cbn [map In]; tauto | unfold declared_taken; cbn [map In]; intros Hd; repeat (destruct Hd as [Hd|Hd]; [discriminate Hd|]); destruct Hd]|]); destruct Hi.
  - apply Forall_forall. intros u Hu. apply in_concat in Hu. destruct Hu as (l & Hl & Hu). apply in_map_iff in Hl. destruct Hl as (f & <- & _).
    assert (Hu' : exists n, u = Outside n /\ In n (map chars ["uint8_t"; "uint32_t"; "uint64_t"; "int32_t"; "int64_t"]%string)).
    { unfold outside_uses in Hu. destruct (f_class f) as [sc| | | | | |]; try destruct Hu as [<-|[]]; try destruct Hu;
        try (eexists; split; [reflexivity|cbn [map In]; tauto]).
      destruct sc; cbn in Hu; try destruct Hu as [<-|[]]; try destruct Hu; (eexists; split; [reflexivity|cbn [map In]; tauto]). }
    destruct Hu' as (n & -> & Hi). cbn [map In] in Hi. apply Hout; [exact Hn| |];
      repeat (destruct Hi as [<-|Hi]; [first [unfold taken; cbn [map In]; tauto | unfold declared_taken; cbn [map In]; intros Hd; repeat (destruct Hd as [Hd|Hd]; [discriminate Hd|]); destruct Hd]|]); destruct Hi.
  - apply Forall_concat, Forall_forall. intros l Hl. apply in_map_iff in Hl. destruct Hl as (f & <- & Hf). rewrite !Forall_app. repeat split.
    + unfold copy_uses. apply Forall_app. split; [|constructor; [auto|constructor; [auto|constructor]]].
      destruct (f_optional f) eqn:Eo; [|constructor]. unfold uses_has. cbn [app]. constructor; [auto|constructor; [auto|constructor]].
    + unfold get_set_uses. destruct (recursive f) eqn:Er; [constructor|]. constructor; [auto|]. destruct (f_optional f) eqn:Eo; [eauto|constructor].
    + unfold serialize_uses. destruct (f_class f) eqn:Ec; try (apply Forall_app; split; [|constructor; [apply Fvar; [exact Hf|unfold recursive; rewrite Ec; reflexivity]|constructor]];
        rewrite orb_false_r; destruct (f_optional f) eqn:Eo; [constructor; [auto|constructor]|constructor]).
      * constructor; [apply Fvar; [exact Hf|unfold recursive; rewrite Ec; reflexivity]|constructor].
      * constructor.
    + unfold deserialize_uses. destruct (recursive f) eqn:Er; [constructor|]. apply Forall_app. split; [destruct (f_optional f) eqn:Eo; [eauto|constructor]|].
      constructor; [auto|constructor].
    + unfold other_uses. apply Forall_app. split; [constructor; [auto|constructor; [auto|constructor]]|].
      destruct (recursive f) eqn:Er; [constructor|constructor; [auto|constructor]].
  - apply Forall_concat, Forall_forall. intros l Hl. apply in_map_iff in Hl. destruct Hl as (o & <- & Ho). unfold oneof_uses, copy_oneof. rewrite !Forall_app. repeat split.
    + constructor; [|constructor; [auto|constructor; [auto|constructor]]]. exists [], true. split; [exact (Dwhich o Ho)|split; reflexivity].
    + apply Forall_concat, Forall_forall. intros l Hl. apply in_map_iff in Hl. destruct Hl as (f & <- & Hf). constructor; [eauto|constructor; [eauto|constructor]].
    + apply Forall_concat, Forall_forall. intros l Hl. apply in_map_iff in Hl. destruct Hl as (f & <- & Hf). destruct (Hone o f Ho Hf) as (Hr & Hp & _).
      unfold get_set_uses. rewrite Hr. constructor; [auto|constructor; [auto|constructor; [auto|constructor]]].
    + constructor; [auto|constructor].
    + apply Forall_concat, Forall_forall. intros l Hl. apply in_map_iff in Hl. destruct Hl as (f & <- & Hf). unfold serialize_uses.
      destruct (f_class f); try (apply Forall_app; split; [rewrite orb_true_r; constructor; [eauto|constructor]|constructor; [auto|constructor]]);
        [constructor; [auto|constructor]|constructor].
    + constructor; [|constructor]. eexists _, false. split; [apply (Dprivate o _ Ho); do 5 right; left; reflexivity|split; [reflexivity|discriminate]].
    + apply Forall_concat, Forall_forall. intros l Hl. apply in_map_iff in Hl. destruct Hl as (f & <- & Hf). destruct (Hone o f Ho Hf) as (Hr & Hp & _).
      unfold deserialize_uses. rewrite Hr, Hp. constructor; [auto|constructor].
    + constructor; [auto|constructor].
    + apply Forall_forall. intros u Hu. apply in_map_iff in Hu. destruct Hu as (f & <- & Hf). eauto.
    + constructor; [|constructor]. eexists _, true. split; [apply (Dprivate o _ Ho); do 6 right; left; reflexivity|split; reflexivity].
    + apply Forall_forall. intros u Hu. apply in_map_iff in Hu. destruct Hu as (f & <- & Hf). auto.
    + constructor; [|constructor; [auto|constructor]]. split; [apply (Dprivate o _ Ho); right; left; reflexivity|].
      apply Htype; [exact Hn|]. rewrite !in_app_iff. right. left. unfold d. cbn [d_oneofs]. apply in_map. exact Ho.
    + apply Forall_concat, Forall_forall. intros l Hl. apply in_map_iff in Hl. destruct Hl as (f & <- & Hf).
      destruct (f_class f); try constructor; try constructor; auto.
Qed.
