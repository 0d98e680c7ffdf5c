(** to_string(): the text is JSON for the document only under the conditions of [doc_ok]. *)
From Coq Require Import String.
From Verif Require Import Base Printf Schema Spec SpecToString BitLemmas Struct SerProofs Tables ToStringProofs ToStringProps.
From Coq Require Import List ZifyBool ZifyNat ZifyN.
Ltac Zify.zify_post_hook ::= Z.div_mod_to_equations.

(** ** White space *)
Definition white_char (c : Z) : Prop := c = 32 \/ c = 9 \/ c = 10 \/ c = 13.
Definition starts (s : list Z) : Prop := exists c r, s = c :: r /\ ~ white_char c.

Lemma starts_app s r : starts s -> starts (s ++ r).
Proof. intros (c & x & -> & H). exists c, (x ++ r). auto. Qed.

Lemma white_starts w s w' s' : white w -> white w' -> starts s -> starts s' -> w ++ s = w' ++ s' -> s = s'.
Proof.
  intros Hw. revert w'. induction Hw as [|c w Hc Hw IH]; intros w' Hw' Hs Hs' E; destruct Hw' as [|c' w' Hc' Hw']; cbn [app] in E.
  - exact E.
  - destruct Hs as (x & r & -> & Hx). injection E as -> _. contradiction.
  - destruct Hs' as (x & r & -> & Hx). injection E as -> _. contradiction.
  - injection E as _ E. eauto.
Qed.

Lemma white_char_end w a r w' r' : white w -> white w' -> ~ white_char a -> w ++ a :: r = w' ++ a :: r' -> r = r'.
Proof.
  intros Hw Hw' Ha E. assert (E' : a :: r = a :: r'); [|congruence].
  eapply white_starts; [exact Hw|exact Hw'| | |exact E]; eexists _, _; split; eauto.
Qed.

(** ** Numbers *)
Lemma natural_head s : natural_text s -> exists c r, s = c :: r /\ digit c.
Proof. intros (Hd & Hn & _). destruct Hd as [|c r Hc Hr]; [congruence|]. eauto. Qed.

Lemma integer_starts s z : integer_text s z -> starts s.
Proof.
  intros H. inversion H as [? Hn|? Hn]; subst.
  - destruct (natural_head s Hn) as (c & r & -> & Hc). exists c, r. split; [reflexivity|]. unfold digit, white_char in *. lia.
  - exists 45, s0. split; [reflexivity|]. unfold white_char. lia.
Qed.

Lemma digits_value_from s : forall a, fold_left (fun a c => 10 * a + (c - 48)) s a = a * 10 ^ zlen s + digits_value s.
Proof.
  unfold digits_value. induction s as [|c s IH]; intros a; cbn [fold_left]; [change (zlen (@nil Z)) with 0; lia|].
  rewrite IH, (IH (10 * 0 + _)), zlen_cons. pose proof (zlen_nonneg s). rewrite Z.pow_add_r by lia. nia.
Qed.
Lemma digits_value_bound s : Forall digit s -> 0 <= digits_value s < 10 ^ zlen s.
Proof.
  induction 1 as [|c s Hc Hs IH]; [cbn; lia|]. unfold digits_value. cbn [fold_left]. rewrite digits_value_from, zlen_cons.
  pose proof (zlen_nonneg s). rewrite Z.pow_add_r by lia. unfold digit in Hc. nia.
Qed.
Lemma natural_bound s : natural_text s -> digits_value s <> 0 -> 10 ^ (zlen s - 1) <= digits_value s.
Proof.
  intros (Hd & Hn & H0) Hv. destruct Hd as [|c s Hc Hs]; [congruence|]. cbn [hd] in H0.
  unfold digits_value. cbn [fold_left]. rewrite digits_value_from, zlen_cons. replace (1 + zlen s - 1) with (zlen s) by lia.
  pose proof (digits_value_bound s Hs). pose proof (zlen_nonneg s). pose proof (Z.pow_pos_nonneg 10 (zlen s)).
  assert (c <> 48). { intros ->. specialize (H0 eq_refl). injection H0 as ->. apply Hv. reflexivity. }
  unfold digit in Hc. nia.
Qed.
Lemma natural_zero s : natural_text s -> digits_value s = 0 -> s = [48].
Proof.
  intros (Hd & Hn & H0) Hv. destruct Hd as [|c s Hc Hs]; [congruence|]. cbn [hd] in H0. apply H0.
  revert Hv. unfold digits_value. cbn [fold_left]. rewrite digits_value_from.
  pose proof (digits_value_bound s Hs). pose proof (zlen_nonneg s). pose proof (Z.pow_pos_nonneg 10 (zlen s)). unfold digit in Hc. nia.
Qed.
Lemma natural_length s s' : natural_text s -> natural_text s' -> digits_value s = digits_value s' -> length s = length s'.
Proof.
  intros H H' E. destruct (Z.eq_dec (digits_value s) 0) as [E0|N].
  - rewrite (natural_zero s), (natural_zero s') by (auto; congruence). reflexivity.
  - pose proof (natural_bound s H N). pose proof (natural_bound s' H' ltac:(congruence)).
    pose proof (digits_value_bound s (proj1 H)). pose proof (digits_value_bound s' (proj1 H')). rewrite <- E in *.
    assert (zlen s - 1 < zlen s') by (apply (Z.pow_lt_mono_r_iff 10); try lia; apply zlen_nonneg).
    assert (zlen s' - 1 < zlen s) by (apply (Z.pow_lt_mono_r_iff 10); try lia; apply zlen_nonneg).
    unfold zlen in *. lia.
Qed.

Lemma app_cut {A} (a b c d : list A) : length a = length c -> a ++ b = c ++ d -> b = d.
Proof. intros L E. apply (f_equal (skipn (length a))) in E. now rewrite skipn_exact, L, skipn_exact in E by auto. Qed.

Lemma integer_back s r z r' : integer_text s z -> s ++ r = decimal z ++ r' -> r = r'.
Proof.
  intros H E. unfold decimal in E. destruct (Z.ltb_spec z 0) as [Hz|Hz].
  - destruct (natural_ok (- z)) as [Hn Hv]; [lia|]. inversion H as [? Ht|s0 Ht]; subst.
    + pose proof (digits_value_bound s (proj1 Ht)). lia.
    + rewrite Z.opp_involutive in *. cbn [app] in E. injection E as E. eapply app_cut; [|exact E]. now apply natural_length.
  - destruct (natural_ok z) as [Hn Hv]; [lia|]. inversion H as [? Ht|s0 Ht]; subst.
    + eapply app_cut; [|exact E]. now apply natural_length.
    + destruct (natural_head _ Hn) as (c & x & Ec & Hc). rewrite Ec in E. cbn [app] in E. injection E as E _. subst c. unfold digit in Hc. lia.
Qed.

(** ** Strings *)

(** What comes behind a value inside a list or an object. *)
Definition stops (r : list Z) : Prop := (exists x, r = 10 :: x) \/ (exists x, r = 44 :: 10 :: x).

Lemma string_head s x : string_text s x -> s = [] \/ exists c r, s = c :: r /\ 32 <= c /\ c <> 34
  /\ (c <> 92 -> exists x', plain_char c /\ string_text r x' /\ x = c :: x').
Proof.
  intros H. destruct H as [|c s x Hc Hs|e c s x He Hs|u c s x Hu Hc Hs|u1 c1 u2 c2 s x Hu1 _ Hu2 _ Hs]; [now left| | | |]; right.
  - exists c, s. unfold plain_char in *. repeat split; try tauto. intros _. exists x. tauto.
  - exists 92, (e :: s). repeat split; try lia.
  - inversion Hu; subst. cbn [app]. eexists _, _. repeat split; lia.
  - inversion Hu1; subst. cbn [app]. eexists _, _. repeat split; lia.
Qed.

Lemma string_newline s x r r' : string_text s x -> s ++ 34 :: r = 10 :: r' -> False.
Proof.
  intros H E. destruct (string_head s x H) as [->|(c & y & -> & Hc & _)]; cbn [app] in E; injection E as E _; lia.
Qed.

Lemma string_stops s x r r' : string_text s x -> stops r' -> s ++ 34 :: r = r' -> False.
Proof.
  intros H [(y & ->)|(y & ->)] E; [eapply string_newline; eauto|].
  destruct (string_head s x H) as [->|(c & z & -> & Hc & Hq & Hp)]; cbn [app] in E; injection E as E1 E2; [lia|].
  subst c. destruct (Hp ltac:(lia)) as (x' & _ & Hs & _). eapply string_newline; eauto.
Qed.

(** Text without quotes [p], against a string and its closing quote. *)
Lemma quote_free p e t r' : Forall (fun c => c <> 34) p -> p ++ e = t ++ 34 :: r' -> exists t', t = p ++ t'.
Proof.
  intros H. revert t. induction H as [|c p Hc Hp IH]; intros t E; [now exists t|].
  destruct t as [|b t]; cbn [app] in E; injection E as -> E; [congruence|].
  destruct (IH t E) as (t' & ->). now exists t'.
Qed.

Lemma longer_rest {A} (k c y t : list A) : k ++ c = y ++ t -> (length k < length y)%nat -> exists y', y' <> [] /\ c = y' ++ t.
Proof.
  intros E L. exists (skipn (length k) y). split.
  - intros E'. apply (f_equal (@length A)) in E'. rewrite skipn_length in E'. cbn in E'. lia.
  - apply (f_equal (skipn (length k))) in E. rewrite skipn_exact, skipn_app in E by reflexivity.
    replace (length k - length y)%nat with 0%nat in E by lia. exact E.
Qed.

Lemma utf8_length c : (length (utf8 c) <= 4)%nat.
Proof. unfold utf8. repeat (destruct (_ <? _)); cbn; lia. Qed.
Lemma unit_quote_free u c : unit_text u c -> Forall (fun c => c <> 34) u /\ length u = 6%nat.
Proof. intros H. inversion H; subst. split; [|reflexivity]. unfold hex in *. repeat constructor; lia. Qed.

Lemma string_back s x : string_text s x -> forall y t r r', x = y ++ t -> stops r' -> s ++ 34 :: r = t ++ 34 :: r' ->
  y = [] /\ Forall plain_char t /\ s = t.
Proof.
  induction 1 as [|c s x Hc Hs IH|e c s x He Hs IH|u c s x Hu Hc Hs IH|u1 c1 u2 c2 s x Hu1 H1 Hu2 H2 Hs IH];
    intros y t r r' E Hr Et.
  - symmetry in E. apply app_eq_nil in E as [-> ->]. auto.
  - unfold plain_char in Hc. destruct t as [|b t]; cbn [app] in Et; [injection Et as Eb _; lia|]; injection Et as Eb Et; subst b.
    destruct y as [|a y]; cbn [app] in E.
    + injection E as E. destruct (IH [] t r r' E Hr Et) as (_ & Hp & ->). repeat split. constructor; auto.
    + injection E as Ea E. exfalso. destruct (IH (y ++ [c]) t r r') as (Ey & _); auto; [rewrite E, <- app_assoc; reflexivity|]. now destruct y.
  - exfalso. destruct t as [|b [|b' t]]; cbn [app] in Et; [discriminate Et| |].
    + injection Et as Eb Ee Et. eapply string_stops; eauto.
    + injection Et as Eb Eb' Et. subst b b'.
      destruct (longer_rest [c] x (y ++ [92; e]) t) as (y' & Hy & E').
      * rewrite <- app_assoc. exact E.
      * rewrite app_length. cbn. lia.
      * destruct (IH y' t r r' E' Hr Et) as (Ey & _). congruence.
  - exfalso. destruct (unit_quote_free u c Hu) as [Hq Hl]. rewrite <- app_assoc in Et.
    destruct (quote_free u (s ++ 34 :: r) t r' Hq Et) as (t' & ->). rewrite <- app_assoc in Et. apply app_inv_head in Et.
    destruct (longer_rest (utf8 c) x (y ++ u) t') as (y' & Hy & E').
    + rewrite <- app_assoc. exact E.
    + pose proof (utf8_length c). rewrite app_length. lia.
    + destruct (IH y' t' r r' E' Hr Et) as (Ey & _). congruence.
  - exfalso. destruct (unit_quote_free u1 c1 Hu1) as [Hq1 Hl1]. destruct (unit_quote_free u2 c2 Hu2) as [Hq2 Hl2].
    assert (Et' : (u1 ++ u2) ++ (s ++ 34 :: r) = t ++ 34 :: r') by (rewrite <- Et, <- !app_assoc; reflexivity).
    destruct (quote_free (u1 ++ u2) (s ++ 34 :: r) t r') as (t' & ->); [apply Forall_app; auto|exact Et'|].
    rewrite <- (app_assoc (u1 ++ u2) t') in Et'. apply app_inv_head in Et'.
    match type of E with utf8 ?k ++ _ = _ => set (code := k) in * end.
    destruct (longer_rest (utf8 code) x (y ++ u1 ++ u2) t') as (y' & Hy & E').
    + rewrite <- !app_assoc. rewrite <- app_assoc in E. exact E.
    + pose proof (utf8_length code). rewrite !app_length. lia.
    + destruct (IH y' t' r r' E' Hr Et') as (Ey & _). congruence.
Qed.

Lemma plain_back n : Forall plain_char n -> forall s x r r', string_text s x -> s ++ 34 :: r = n ++ 34 :: r' -> r = r'.
Proof.
  induction 1 as [|c n Hc Hn IH]; intros s x r r' Hs E.
  - destruct (string_head s x Hs) as [->|(c & y & -> & _ & Hq & _)]; cbn [app] in E; injection E; intros; congruence.
  - unfold plain_char in Hc. destruct (string_head s x Hs) as [->|(c' & y & -> & _ & _ & Hp)]; cbn [app] in E; injection E as E1 E2; [lia|].
    subst c'. destruct Hp as (x' & _ & Hy & _); [tauto|]. eauto.
Qed.

(** ** Values *)
Definition body (d : doc) (i : Z) (name : option (list Z)) : list Z :=
  match d with
  | DInt z => decimal z
  | DBool b => chars (if b then "true" else "false")
  | DReal s => s
  | DStr s => mark ++ s ++ mark
  | DList ds =>
      let n := zlen (indent i ++ key name ++ chars "[" ++ line_end) in
      [91] ++ line_end ++ separate true (map (fun d => Some (layout d n None)) ds) ++ line_end ++ indent (n - 2) ++ [93]
  | DObj slots =>
      [123] ++ line_end ++ separate true (map (option_map (fun '(n, d) => layout d (i + 2) (Some n))) slots)
      ++ line_end ++ indent i ++ [125]
  end.
Lemma layout_body d i name : layout d i name = indent i ++ key name ++ body d i name.
Proof. destruct d; cbn [layout body]; try reflexivity. now rewrite <- !app_assoc. Qed.

Lemma number_starts s : number_text s -> starts s.
Proof. intros H. inversion H; subst. apply starts_app. eapply integer_starts; eauto. Qed.

Ltac start := eexists _, _; split; [reflexivity|unfold white_char; lia].
Lemma value_starts v d : value_text v d -> starts v.
Proof.
  intros H. inversion H; subst.
  - eapply integer_starts; eauto.
  - destruct b; cbn; start.
  - now apply number_starts.
  - cbn; start.
  - cbn; start.
  - cbn; start.
Qed.
Lemma body_starts v d i name : value_text v d -> starts (body d i name).
Proof.
  intros H. inversion H; subst; cbn [body].
  - eapply integer_starts, decimal_ok.
  - destruct b; cbn; start.
  - now apply number_starts.
  - cbn; start.
  - cbn; start.
  - cbn; start.
Qed.

(** All names in a document are plain. *)
Fixpoint plain_names (d : doc) : Prop :=
  match d with
  | DList ds => all plain_names ds
  | DObj slots => all (fun o => match o with Some (n, d) => Forall plain_char n /\ plain_names d | None => True end) slots
  | _ => True
  end.

Definition back (d : doc) : Prop := forall v r r' i name,
  value_text v d -> plain_names d -> stops r' \/ (forall s, d <> DStr s) -> v ++ r = body d i name ++ r' -> doc_ok d /\ r = r'.

#[local] Hint Resolve white_app white_indent white_newline white_nil : white.

Lemma elements_back j k ds : forall d s w r r', Forall back (d :: ds) -> Forall plain_names (d :: ds) ->
  elements_text s (d :: ds) -> white w ->
  s ++ 93 :: r = w ++ layout d j None ++ separate false (map (fun d => Some (layout d j None)) ds) ++ line_end ++ indent k ++ 93 :: r' ->
  Forall doc_ok (d :: ds) /\ r = r'.
Proof.
  induction ds as [|d' ds IH]; intros d s w r r' Hb Hp H Hw E; inversion Hb as [|? ? Hd Hds]; subst;
    inversion Hp as [|? ? Hpd Hpds]; subst;
    inversion H as [|w1 v w2 ? Hw1 Hv Hw2|w1 v w2 ? s' ? ? Hw1 Hv Hw2 Hs']; subst; rewrite layout_body in E; cbn [key app map separate] in E.
  - rewrite <- !app_assoc, (app_assoc w) in E.
    apply white_starts in E; [|assumption|auto with white|apply starts_app; eapply value_starts; eauto|apply starts_app; eapply body_starts; eauto].
    apply Hd in E as [Hok E]; auto; [|left; left; eexists; reflexivity].
    split; [auto|]. rewrite app_assoc in E. apply white_char_end in E; auto with white. unfold white_char. lia.
  - rewrite <- !app_assoc, (app_assoc w) in E.
    apply white_starts in E; [|assumption|auto with white|apply starts_app; eapply value_starts; eauto|apply starts_app; eapply body_starts; eauto].
    apply Hd in E as [Hok E]; auto; [|left; right; eexists; reflexivity].
    cbn [app] in E. change (44 :: 10 :: ?x) with ([] ++ 44 :: 10 :: x) in E.
    apply (white_char_end w2 44 _ []) in E; auto with white; [|unfold white_char; lia].
    destruct (IH d' s' line_end r r' Hds Hpds Hs' white_newline) as [Hok' Er]; [|auto].
    rewrite E. cbn [app line_end]. rewrite <- ?app_assoc. reflexivity.
Qed.

Lemma member_back j n d s w r r' : back d -> Forall plain_char n -> plain_names d -> member_text s (n, d) -> white w -> stops r' ->
  s ++ r = w ++ layout d j (Some n) ++ r' -> doc_ok d /\ exists w4, white w4 /\ w4 ++ r = r'.
Proof.
  intros Hd Hn Hp H Hw Hr E. inversion H as [w1 e ? w2 w3 v w4 ? Hw1 He Hw2 Hw3 Hv Hw4]; subst.
  rewrite layout_body in E. cbn [key] in E. rewrite <- !app_assoc, (app_assoc w) in E.
  apply white_starts in E; auto with white; [|cbn; start|cbn; start].
  cbn [mark app] in E. injection E as E. apply (plain_back n Hn e n) in E; auto.
  change (chars ": ") with [58; 32] in E. cbn [app] in E. change (58 :: 32 :: ?x) with ([] ++ 58 :: [32] ++ x) in E.
  apply (white_char_end w2 58 _ []) in E; auto with white; [|unfold white_char; lia].
  apply white_starts in E; [|assumption|repeat constructor|apply starts_app; eapply value_starts; eauto|apply starts_app; eapply body_starts; eauto].
  apply Hd in E as [Hok E]; eauto.
Qed.

Lemma members_back j k ms : forall n d s w r r',
  Forall (fun '(n, d) => back d /\ Forall plain_char n /\ plain_names d) ((n, d) :: ms) ->
  members_text s ((n, d) :: ms) -> white w ->
  s ++ 125 :: r = w ++ layout d j (Some n) ++ separate false (map (fun '(n, d) => Some (layout d j (Some n))) ms) ++ line_end ++ indent k ++ 125 :: r' ->
  Forall (fun '(n, d) => doc_ok d) ((n, d) :: ms) /\ r = r'.
Proof.
  induction ms as [|[n' d'] ms IH]; intros n d s w r r' Hb H Hw E; inversion Hb as [|? ? H0 Hms]; subst; destruct H0 as (Hd & Hn & Hp);
    inversion H as [|? ? Hm|s1 ? s' ? ? Hm Hs']; subst; cbn [map separate app] in E.
  - apply (member_back j n d) in E as [Hok (w4 & Hw4 & E)]; auto; [|left; eexists; reflexivity].
    split; [auto|]. rewrite app_assoc in E. apply white_char_end in E; auto with white. unfold white_char. lia.
  - rewrite <- !app_assoc in E.
    apply (member_back j n d) in E as [Hok (w4 & Hw4 & E)]; auto; [|right; eexists; reflexivity].
    cbn [app] in E. change (44 :: 10 :: ?x) with ([] ++ 44 :: 10 :: x) in E.
    apply (white_char_end w4 44 _ []) in E; auto with white; [|unfold white_char; lia].
    destruct (IH n' d' s' line_end r r' Hms Hs' white_newline) as [Hok' Er]; [|auto].
    rewrite E. cbn [app line_end]. rewrite <- ?app_assoc. reflexivity.
Qed.

Lemma members_comma s ms r r' : members_text s ms -> s ++ 125 :: r = 10 :: 44 :: r' -> False.
Proof.
  intros Hm E.
  assert (Hmem : forall s m rest, member_text s m -> s ++ rest = 10 :: 44 :: r' -> False).
  { intros s0 m rest H0 E0. inversion H0 as [w e n ? ? ? ? ? Hw]; subst. rewrite <- app_assoc in E0.
    eapply white_comma; [exact Hw| | | |exact E0]; cbn; congruence || lia. }
  inversion Hm as [? Hw|? ? H1|? ? ? ? ? H1]; subst.
  - eapply white_comma; [exact Hw| | | |exact E]; cbn; congruence || lia.
  - eapply Hmem; eauto.
  - rewrite <- app_assoc in E. eapply Hmem; eauto.
Qed.

Lemma members_all slots : Forall (fun '(n, d) => doc_ok d) (members slots) ->
  all (fun o => match o with Some (n, d) => Forall plain_char n /\ plain_names d | None => True end) slots ->
  all (fun o => match o with Some (n, d) => Forall plain_char n /\ doc_ok d | None => True end) slots.
Proof.
  induction slots as [|[[n d]|] slots IH]; cbn [members all]; intros H Hp; auto.
  - inversion H; subst. split; [tauto|]. apply IH; tauto.
  - split; [exact I|]. apply IH; tauto.
Qed.

Lemma brackets (a b : Z) s y z w k r r' : ([a] ++ s ++ [b]) ++ r = ([a] ++ y ++ z ++ w ++ k ++ [b]) ++ r' ->
  s ++ b :: r = y ++ z ++ w ++ k ++ b :: r'.
Proof. rewrite <- !app_assoc. cbn [app]. intros E. now injection E. Qed.

Lemma value_back d : back d.
Proof.
  induction d as [z|b|s|s|ds IH|slots IH] using doc_ind'; intros v r r' i name Hv Hp Hr E; inversion Hv; subst; cbn [body doc_ok] in *.
  - split; [exact I|]. eapply integer_back; eauto.
  - split; [exact I|]. now apply app_inv_head in E.
  - split; [assumption|]. now apply app_inv_head in E.
  - destruct Hr as [Hr|Hr]; [|now destruct (Hr s)]. cbn [mark app] in E. injection E as E. rewrite <- !app_assoc in E. cbn [app] in E.
    destruct (string_back _ _ H1 [] s r r' eq_refl Hr E) as (_ & Hs & ->). split; [exact Hs|]. apply app_inv_head in E. now injection E.
  - apply brackets in E.
    destruct ds as [|d ds].
    + inversion H1 as [? Hw| |]; subst. cbn [map separate app] in E. split; [exact I|].
      rewrite !app_assoc in E.
      apply white_char_end in E; auto with white. unfold white_char. lia.
    + cbn [map separate app] in E. cbn [plain_names] in Hp. apply all_Forall in Hp.
      rewrite <- ?app_assoc in E.
      apply elements_back in E as [Hok Er]; auto with white. split; [|exact Er]. now apply all_Forall.
  - apply brackets in E. cbn [plain_names] in Hp.
    assert (Hm : Forall (fun '(n, d) => back d /\ Forall plain_char n /\ plain_names d) (members slots)).
    { clear - IH Hp. induction slots as [|[[n d]|] slots IHs]; cbn [members all] in *; auto.
      - inversion IH; subst. constructor; [tauto|]. apply IHs; tauto.
      - inversion IH; subst. apply IHs; tauto. }
    assert (Hnone : members slots = [] -> separate true (map (option_map (fun '(n, d) => layout d (i + 2) (Some n))) slots) = [] -> r = r').
    { intros Em Es. rewrite Em in *. rewrite Es in E. inversion H1 as [? Hw| |]; subst. cbn [app] in E.
      rewrite !app_assoc in E.
      apply white_char_end in E; auto with white. unfold white_char. lia. }
    destruct slots as [|[[n d]|] slots].
    + split; [cbn; auto|]. apply Hnone; reflexivity.
    + cbn [map option_map separate app members] in *. rewrite separate_members in E. rewrite <- ?app_assoc in E.
      apply members_back in E as [Hok Er]; auto with white. split; [|exact Er]. split; [exact I|]. apply members_all; auto.
    + cbn [map option_map separate members well_started] in *. rewrite separate_members in *.
      destruct (members slots) as [|[n d] ms] eqn:Em.
      * split; [|apply Hnone; reflexivity]. split; [reflexivity|]. apply (members_all (None :: slots)); [|exact Hp]. cbn [members]. rewrite Em. constructor.
      * exfalso. eapply members_comma; [exact H1|exact E].
Qed.

(** ** Texts *)
Lemma layout_back d : plain_names d -> (forall s, d <> DStr s) -> json_text (layout d 0 None) d -> doc_ok d.
Proof.
  intros Hp Hs (w1 & v & w2 & E & Hw1 & Hv & Hw2). rewrite layout_body in E. cbn [key app] in E. change (indent 0) with (@nil Z) in E.
  rewrite <- (app_nil_r (body _ _ _)) in E. symmetry in E.
  apply white_starts in E; auto with white; [|apply starts_app; eapply value_starts; eauto|apply starts_app; eapply body_starts; eauto].
  apply value_back in E; tauto.
Qed.

Section Doc.
Variable fmt : scalar -> Z -> list Z.
Variable nm : list Z -> list Z.
Hypothesis Hnm : forall path, Forall plain_char (nm path).

Definition slot_plain (o : option (list Z * doc)) : Prop :=
  match o with Some (n, d) => Forall plain_char n /\ plain_names d | None => True end.

Lemma document_plain t : forall path v, plain_names (document fmt nm t path v).
Proof.
  induction t as [sc|st max|fs os Hf Ho] using ety_ind'; intros path v.
  - destruct v; cbn [document]; try exact I. destruct sc; exact I.
  - destruct st, v as [| |len data| |]; cbn [document plain_names]; try exact I.
    apply all_Forall. apply Forall_forall. intros x Hx. apply in_map_iff in Hx as (z & <- & _). exact I.
  - destruct v as [| | | |pres vs ovs]; try exact I. cbn [document plain_names]. apply all_Forall. apply Forall_app. split.
    + revert vs. induction Hf as [|[[num k] t] fs Ht Hfs IH]; intros vs; [constructor|].
      destruct vs as [|v vs]; [constructor|]. cbn [map field_slots]. constructor; [|auto]. cbn [snd] in Ht.
      destruct k; cbn [field_slot]; auto. destruct v as [| | |len data|]; auto. split; [auto|]. cbn [plain_names].
      apply all_Forall. apply Forall_forall. intros x Hx. apply in_map_iff in Hx as (z & <- & _). apply Ht.
    + revert ovs. induction Ho as [|ms os Hms Hos IH]; intros ovs; [constructor|].
      destruct ovs as [|[w v] ovs]; [constructor|]. cbn [map oneof_slots]. constructor; [|auto].
      unfold oneof_slot. cbn [fst snd]. rewrite (lookup_map_num (fun num t => document fmt nm t (path ++ [num]))).
      destruct (lookup ms w) as [t|] eqn:El; [|exact I]. split; [auto|]. apply (lookup_Forall (fun t => forall path v, plain_names (document fmt nm t path v)) ms w t Hms El).
Qed.
End Doc.

(** The text of a message with a string that needs escaping is not JSON for it. *)
Definition printable (len : Z) (data : list Z) : Prop := Forall plain_char (until_zero data).

Lemma document_printable fmt nm t : forall path v, wt t v -> doc_ok (document fmt nm t path v) -> strings printable t v.
Proof.
  induction t as [sc|st max|fs os Hf Ho] using ety_ind'; intros path v Hw Hok.
  - exact I.
  - destruct v as [| |len data| |]; cbn [wt] in Hw; try contradiction. destruct st; [exact Hok|exact I].
  - destruct v as [| | | |pres vs ovs]; try contradiction. destruct Hw as (_ & _ & Hw1 & Hw2). cbn [document doc_ok] in Hok.
    destruct Hok as [_ Hok]. apply all_Forall in Hok. apply Forall_app in Hok as [Hok1 Hok2]. cbn [strings]. split.
    + clear Hw2 Hok2. revert vs Hw1 Hok1. induction Hf as [|[[num k] t] fs Ht Hfs IH]; intros vs Hw Hok; destruct vs as [|v vs]; try contradiction; [exact I|].
      destruct Hw as [Hw1 Hw2]. cbn [map field_slots] in Hok. inversion Hok as [|? ? H1 H2]; subst. cbn [all2]. split; [|eapply IH; eauto].
      cbn [snd] in Ht. destruct k; cbn [field_slot strings_field wt_field] in *; [destruct H1; eauto|destruct H1; eauto| |exact I].
      destruct v as [| | |len data|]; try contradiction. destruct H1 as [_ H1]. cbn [doc_ok] in H1. destruct Hw1 as (_ & _ & Hw1).
      apply all_Forall. apply Forall_forall. intros x Hx. apply all_Forall in H1, Hw1. rewrite Forall_forall in H1, Hw1.
      eapply Ht; [|apply H1, in_map, Hx]. apply Hw1. rewrite <- (firstn_skipn (Z.to_nat len) data). apply in_or_app. auto.
    + clear Hw1 Hok1. revert ovs Hw2 Hok2. induction Ho as [|ms os Hms Hos IH]; intros ovs Hw Hok; destruct ovs as [|[w v] ovs]; try contradiction; [exact I|].
      destruct Hw as [Hw1 Hw2]. cbn [map oneof_slots] in Hok. inversion Hok as [|? ? H1 H2]; subst. cbn [all2]. split; [|eapply IH; eauto].
      unfold strings_oneof, wt_oneof, oneof_slot in *. cbn [fst snd] in *. rewrite (lookup_map wt) in Hw1. rewrite (lookup_map (strings printable)).
      rewrite (lookup_map_num (fun num t => document fmt nm t (path ++ [num]))) in H1.
      destruct (lookup ms w) as [t|] eqn:El; [|exact I]. destruct H1 as [_ H1].
      eapply (lookup_Forall (fun t => forall path v, wt t v -> doc_ok (document fmt nm t path v) -> strings printable t v) ms w t Hms El); eauto.
Qed.

(** A change of the property on strings. *)
Lemma strings_mono (P Q R : Z -> list Z -> Prop) t : (forall len data, P len data -> Q len data -> R len data) ->
  forall v, wt t v -> strings P t v -> strings Q t v -> strings R t v.
Proof.
  intros HPQ. induction t as [sc|st max|fs os Hf Ho] using ety_ind'; intros v Hw HP HQ.
  - exact I.
  - destruct v as [| |len data| |]; cbn [wt] in Hw; try contradiction. destruct st; [|exact I]. cbn [strings] in *. auto.
  - destruct v as [| | | |pres vs ovs]; try contradiction. destruct Hw as (_ & _ & Hw1 & Hw2). destruct HP as [HP1 HP2], HQ as [HQ1 HQ2]. split.
    + clear Hw2 HP2 HQ2. revert vs Hw1 HP1 HQ1. induction Hf as [|[[num k] t] fs Ht Hfs IH]; intros vs Hw HP HQ; destruct vs as [|v vs]; try contradiction; [exact I|].
      destruct Hw as [Hw1 Hw2], HP as [HP1 HP2], HQ as [HQ1 HQ2]. cbn [all2]. split; [|eapply IH; eauto]. cbn [snd] in Ht.
      destruct k; cbn [strings_field wt_field] in *; auto. destruct v as [| | |len data|]; try contradiction. destruct Hw1 as (_ & _ & Hw1).
      apply all_Forall in HP1, HQ1, Hw1. apply all_Forall. rewrite Forall_forall in *. intros x Hx. apply Ht; auto.
      apply Hw1. rewrite <- (firstn_skipn (Z.to_nat len) data). apply in_or_app. auto.
    + clear Hw1 HP1 HQ1. revert ovs Hw2 HP2 HQ2. induction Ho as [|ms os Hms Hos IH]; intros ovs Hw HP HQ; destruct ovs as [|[w v] ovs]; try contradiction; [exact I|].
      destruct Hw as [Hw1 Hw2], HP as [HP1 HP2], HQ as [HQ1 HQ2]. cbn [all2]. split; [|eapply IH; eauto].
      unfold strings_oneof, wt_oneof in *. cbn [fst snd] in *. rewrite (lookup_map wt) in Hw1. rewrite (lookup_map (strings P)) in HP1.
      rewrite (lookup_map (strings Q)) in HQ1. rewrite (lookup_map (strings R)).
      destruct (lookup ms w) as [t|] eqn:El; [|exact I]. apply (lookup_Forall (fun t => forall v, wt t v -> strings P t v -> strings Q t v -> strings R t v) ms w t Hms El); auto.
Qed.
