(** to_string(): memory, and JSON. *)
From Coq Require Import String.
From Verif Require Import Base Buffers Wire Schema Fields Message Api Printf ToString Spec SpecToString BitLemmas Struct SerProofs Tables TidyProofs ApiProofs ToStringProofs.
From Coq Require Import List ZifyBool ZifyNat ZifyN.
Ltac Zify.zify_post_hook ::= Z.div_mod_to_equations.

(** ** Memory *)

Lemma firstn_exact {A} (a b : list A) n : n = length a -> firstn n (a ++ b) = a.
Proof. intros ->. rewrite firstn_app, Nat.sub_diag, firstn_all. cbn [firstn]. apply app_nil_r. Qed.
Lemma skipn_exact {A} (a b : list A) n : n = length a -> skipn n (a ++ b) = b.
Proof. intros ->. rewrite skipn_app, Nat.sub_diag, skipn_all. reflexivity. Qed.

Lemma memcpy_at {A} (a m c src : list A) : zlen m = zlen src ->
  memcpy (a ++ m ++ c) (zlen a) src (zlen src) = Done (a ++ src ++ c).
Proof.
  intros H. unfold memcpy. pose proof (zlen_nonneg a). pose proof (zlen_nonneg src). pose proof (zlen_nonneg c).
  assert (L : zlen (a ++ m ++ c) = zlen a + zlen m + zlen c) by (rewrite !zlen_app'; lia). rewrite L.
  destruct (Z.leb_spec 0 (zlen a)); [|lia]. destruct (Z.leb_spec 0 (zlen src)); [|lia].
  destruct (Z.leb_spec (zlen src) (zlen src)); [|lia].
  destruct (Z.leb_spec (zlen a + zlen src) (zlen a + zlen m + zlen c)); [|lia]. cbn [andb]. f_equal.
  rewrite (firstn_exact a) by (unfold zlen; lia). f_equal.
  rewrite (firstn_all2 src) by (unfold zlen; lia). f_equal.
  rewrite app_assoc. apply skipn_exact. rewrite app_length. unfold zlen in *. lia.
Qed.

Definition vw (p n : Z) : string_view := {| sv_pos := p; sv_size := n |}.

(** A piece that fits with its terminator. *)
Lemma put_fits p a m c n : zlen p < n < 2 ^ 32 -> zlen p < 2 ^ 31 -> zlen p + 1 <= zlen m ->
  put p (a ++ m ++ c, vw (zlen a) n)
  = Done (zlen p, ((a ++ p) ++ (0 :: skipn (Z.to_nat (zlen p + 1)) m) ++ c, vw (zlen (a ++ p)) (n - zlen p))).
Proof.
  intros Hn Hp Hm. pose proof (zlen_nonneg p). unfold put, snprintf, vw. cbn [sv_pos sv_size].
  destruct (Z.eqb_spec n 0); [lia|]. destruct (Z.ltb_spec (zlen p) (2 ^ 31)); [|lia].
  rewrite Z.min_l by lia. rewrite firstn_all2 by (unfold zlen; lia).
  set (k := Z.to_nat (zlen p + 1)).
  assert (Em : m = firstn k m ++ skipn k m) by (symmetry; apply firstn_skipn).
  rewrite Em at 1. rewrite <- app_assoc.
  replace (zlen p + 1) with (zlen (p ++ [0])) by (rewrite zlen_app'; reflexivity).
  rewrite memcpy_at by (rewrite zlen_app'; change (zlen [0]) with 1; unfold zlen in *; rewrite firstn_length; unfold k; lia).
  cbn [bind]. f_equal. f_equal. rewrite zlen_app'.
  assert (Ev : (if 0 <? zlen p then {| sv_pos := zlen a + zlen p; sv_size := u32 (n - zlen p) |}
                else {| sv_pos := zlen a; sv_size := n |}) = {| sv_pos := zlen a + zlen p; sv_size := n - zlen p |}).
  { destruct (Z.ltb_spec 0 (zlen p)).
    - unfold u32. now rewrite Z.mod_small by lia.
    - f_equal; lia. }
  rewrite Ev. f_equal. cbn [app]. rewrite <- !app_assoc. reflexivity.
Qed.

Lemma puts_fits ps : forall a m c n, ps <> [] -> zlen (concat ps) < n < 2 ^ 32 -> zlen (concat ps) < 2 ^ 31 ->
  zlen m = zlen (concat ps) + 1 ->
  puts ps (a ++ m ++ c, vw (zlen a) n)
  = Done (a ++ concat ps ++ [0] ++ c, vw (zlen a + zlen (concat ps)) (n - zlen (concat ps))).
Proof.
  induction ps as [|p ps IH]; intros a m c n Hne Hn Hl Hm; [congruence|].
  cbn [concat puts] in *. rewrite zlen_app' in *. pose proof (zlen_nonneg p). pose proof (zlen_nonneg (concat ps)).
  rewrite (put_fits p a m c n) by lia. cbn [bind].
  destruct ps as [|p' ps'].
  - cbn [puts concat] in *. change (zlen (@nil Z)) with 0 in *. rewrite skipn_all2 by (unfold zlen in *; lia).
    f_equal. f_equal; [|unfold vw; rewrite zlen_app'; f_equal; lia]. rewrite app_nil_r, <- !app_assoc. reflexivity.
  - rewrite IH; try lia.
    + f_equal. f_equal; [now rewrite <- !app_assoc|]. unfold vw. rewrite !zlen_app'. f_equal; lia.
    + congruence.
    + unfold zlen in *. cbn [length]. rewrite skipn_length. lia.
Qed.

(** Exactly the length of the text: the last character gives way to the terminator. *)
Lemma puts_exact ps q a m c : q <> [] -> zlen (concat ps ++ q) < 2 ^ 31 -> zlen m = zlen (concat ps ++ q) ->
  puts (ps ++ [q]) (a ++ m ++ c, vw (zlen a) (zlen m))
  = Done (a ++ removelast (concat ps ++ q) ++ [0] ++ c, vw (zlen a + zlen m) 0).
Proof.
  intros Hq Hl Hm. pose proof Hm as Hm'. rewrite zlen_app' in Hm'. pose proof (zlen_nonneg (concat ps)).
  assert (Hlq : 0 < zlen q) by (destruct q; [congruence|unfold zlen; cbn [length]; lia]).
  rewrite puts_app.
  assert (Hpre : exists m', zlen m' = zlen q /\ puts ps (a ++ m ++ c, vw (zlen a) (zlen m))
    = Done ((a ++ concat ps) ++ m' ++ c, vw (zlen (a ++ concat ps)) (zlen q))).
  { destruct ps as [|p ps].
    - exists m. cbn [concat puts app] in *. rewrite app_nil_r. split; [rewrite Hm; reflexivity|]. rewrite Hm. reflexivity.
    - set (k := Z.to_nat (zlen (concat (p :: ps)) + 1)). exists (0 :: skipn k m).
      split; [unfold zlen in *; cbn [length]; rewrite skipn_length; unfold k; lia|].
      rewrite <- (firstn_skipn k m) at 1. rewrite <- app_assoc, puts_fits; try lia.
      + f_equal. f_equal; [now rewrite <- !app_assoc|]. unfold vw. rewrite zlen_app'. f_equal; lia.
      + congruence.
      + unfold zlen in *. rewrite firstn_length. unfold k. lia. }
  destruct Hpre as (m' & Lm & ->). cbn [bind puts]. unfold put, snprintf, vw. cbn [sv_pos sv_size].
  destruct (Z.eqb_spec (zlen q) 0); [lia|]. destruct (Z.ltb_spec (zlen q) (2 ^ 31)); [|rewrite zlen_app' in Hl; lia].
  rewrite Z.min_r by lia.
  replace (firstn (Z.to_nat (zlen q - 1)) q) with (removelast q).
  2:{ rewrite removelast_firstn_len. f_equal. unfold zlen. lia. }
  assert (Lr : zlen (removelast q ++ [0]) = zlen q).
  { rewrite (app_removelast_last 0 Hq) at 2. rewrite !zlen_app'. reflexivity. }
  replace (zlen q - 1 + 1) with (zlen (removelast q ++ [0])) by lia.
  rewrite memcpy_at by lia. cbn [bind]. destruct (Z.ltb_spec 0 (zlen q)); [|lia].
  replace (u32 (zlen q - zlen q)) with 0 by (rewrite Z.sub_diag; reflexivity).
  rewrite removelast_app by exact Hq. f_equal. f_equal; [now rewrite <- !app_assoc|]. f_equal. rewrite zlen_app'. lia.
Qed.

(** Once the view is past the array the next piece is written outside. *)
Lemma put_outside p mem pos n : zlen mem < pos + 1 -> 0 < n -> put p (mem, vw pos n) = UB.
Proof.
  intros Hp Hn. pose proof (zlen_nonneg p). unfold put, snprintf, vw. cbn [sv_pos sv_size].
  destruct (Z.eqb_spec n 0); [lia|]. unfold memcpy.
  match goal with |- context [?a <=? zlen mem] => destruct (Z.leb_spec a (zlen mem)); [lia|] end.
  rewrite andb_false_r. reflexivity.
Qed.

Lemma puts_full ps q mem : zlen (concat ps) < 2 ^ 31 -> 0 < zlen (concat ps) ->
  puts (ps ++ [q]) (mem, vw (zlen mem) 0) = UB.
Proof.
  induction ps as [|p ps IH]; intros Hl Hp; [change (zlen (concat [])) with 0 in Hp; lia|].
  cbn [concat app puts] in *. rewrite zlen_app' in *. pose proof (zlen_nonneg p). pose proof (zlen_nonneg (concat ps)).
  unfold put at 1, snprintf, vw at 1. cbn [sv_pos sv_size]. rewrite Z.eqb_refl. cbn [bind].
  destruct (Z.ltb_spec (zlen p) (2 ^ 31)); [|lia].
  destruct (Z.ltb_spec 0 (zlen p)) as [Hp0|Hp0].
  - destruct ps as [|p' ps]; cbn [app puts]; fold (vw (zlen mem + zlen p) (u32 (0 - zlen p)));
      (rewrite put_outside; [reflexivity|cbn [vw sv_pos]; lia|unfold u32; cbn [vw sv_size]; lia]).
  - apply IH; lia.
Qed.

Lemma puts_overrun ps q : forall mem pos n, zlen (concat ps) < 2 ^ 31 -> 0 <= pos -> pos + n = zlen mem ->
  0 <= n < zlen (concat ps) -> puts (ps ++ [q]) (mem, vw pos n) = UB.
Proof.
  induction ps as [|p ps IH]; intros mem pos n Hl Hpos Hm Hn; [change (zlen (concat [])) with 0 in Hn; lia|].
  destruct (Z.eq_dec n 0) as [->|Hnz].
  { replace pos with (zlen mem) by lia. apply puts_full; lia. }
  cbn [concat app puts] in *. rewrite zlen_app' in *. pose proof (zlen_nonneg p). pose proof (zlen_nonneg (concat ps)).
  destruct (Z.lt_ge_cases (zlen p) n) as [Hlt|Hge].
  - (* the piece fits *)
    rewrite <- (firstn_skipn (Z.to_nat pos) mem) at 1.
    rewrite <- (app_nil_r (skipn _ mem)).
    replace pos with (zlen (firstn (Z.to_nat pos) mem)) at 3 by (unfold zlen in *; rewrite firstn_length; lia).
    rewrite put_fits.
    + cbn [bind]. apply IH; try lia; rewrite ?zlen_app'; unfold zlen in *; cbn [length]; rewrite ?firstn_length, ?skipn_length, ?app_length;
        cbn [length]; rewrite ?skipn_length; try lia.
    + unfold zlen in *. lia.
    + lia.
    + unfold zlen in *. rewrite skipn_length. lia.
  - (* it does not *)
    destruct (put_cases p (mem, vw pos n)) as [->|(st' & E)]; [reflexivity|]. rewrite E. cbn [bind].
    assert (Est : exists mem', st' = (mem', vw (pos + zlen p) (u32 (n - zlen p))) /\ zlen mem' = zlen mem).
    { unfold put, snprintf, vw in E. cbn [sv_pos sv_size] in E. destruct (Z.eqb_spec n 0); [lia|].
      destruct (Z.ltb_spec (zlen p) (2 ^ 31)); [|lia]. destruct (memcpy _ _ _ _) as [mem'| |] eqn:Em; cbn [bind] in E; try discriminate.
      destruct (Z.ltb_spec 0 (zlen p)); [|lia]. exists mem'. split; [unfold vw; congruence|].
      unfold memcpy in Em. match type of Em with (if ?b then _ else _) = _ => destruct b eqn:Eb; [|discriminate] end.
      injection Em as <-. clear - Hm Hge Hnz Hpos Hn. rewrite Z.min_r by lia. unfold zlen in *.
      rewrite !app_length, !firstn_length, skipn_length, app_length, firstn_length. cbn [length]. lia. }
    destruct Est as (mem' & -> & Lm).
    destruct (Z.eq_dec (zlen p) n) as [He|Hne].
    + rewrite He, Z.sub_diag. change (u32 0) with 0. replace (pos + n) with (zlen mem') by lia. apply puts_full; lia.
    + destruct ps as [|p' ps]; cbn [app puts]; (rewrite put_outside; [reflexivity|lia|unfold u32; lia]).
Qed.

(** Room for everything but (part of) the last piece: the view that is returned lies outside. *)
Lemma put_within p mem pos n : zlen p < 2 ^ 31 -> 0 <= pos -> 0 <= n < 2 ^ 32 -> pos + n <= zlen mem ->
  exists mem', put p (mem, vw pos n) = Done (zlen p, (mem', vw (pos + zlen p) (u32 (n - zlen p)))) /\ zlen mem' = zlen mem.
Proof.
  intros Hp Hpos Hn Hm. pose proof (zlen_nonneg p). unfold put, snprintf, vw. cbn [sv_pos sv_size].
  destruct (Z.ltb_spec (zlen p) (2 ^ 31)); [|lia].
  assert (Ev : (if 0 <? zlen p then {| sv_pos := pos + zlen p; sv_size := u32 (n - zlen p) |}
                else {| sv_pos := pos; sv_size := n |}) = {| sv_pos := pos + zlen p; sv_size := u32 (n - zlen p) |}).
  { destruct (Z.ltb_spec 0 (zlen p)); [reflexivity|]. unfold u32. rewrite Z.mod_small by lia. f_equal; lia. }
  destruct (Z.eqb_spec n 0); cbn [bind]; [exists mem; now rewrite Ev|].
  set (k := Z.min (zlen p) (n - 1)). set (src := firstn (Z.to_nat k) p ++ [0]).
  assert (Ls : zlen src = k + 1) by (unfold src; rewrite zlen_app'; unfold zlen in *; rewrite firstn_length; cbn [length]; lia).
  rewrite <- Ls. set (a := firstn (Z.to_nat pos) mem). set (r := skipn (Z.to_nat pos) mem).
  assert (La : zlen a = pos) by (unfold zlen, a in *; rewrite firstn_length; lia).
  assert (Lr : zlen r = zlen mem - pos) by (unfold zlen, r in *; rewrite skipn_length; lia).
  set (j := Z.to_nat (k + 1)).
  assert (Em : memcpy mem pos src (zlen src) = Done (a ++ src ++ skipn j r)).
  { transitivity (memcpy (a ++ firstn j r ++ skipn j r) (zlen a) src (zlen src)).
    - rewrite La, firstn_skipn. unfold a, r. now rewrite firstn_skipn.
    - apply memcpy_at. rewrite Ls; unfold zlen in *; rewrite firstn_length; unfold j; lia. }
  rewrite Em.
  cbn [bind]. rewrite Ev. eexists. split; [reflexivity|].
  rewrite !zlen_app', Ls. unfold zlen in *. rewrite skipn_length. unfold j. lia.
Qed.

Lemma puts_within ps : forall mem pos n, zlen (concat ps) < 2 ^ 31 -> 0 <= pos -> n < 2 ^ 32 ->
  pos + n <= zlen mem -> zlen (concat ps) <= n ->
  exists mem', puts ps (mem, vw pos n) = Done (mem', vw (pos + zlen (concat ps)) (n - zlen (concat ps))) /\ zlen mem' = zlen mem.
Proof.
  induction ps as [|p ps IH]; intros mem pos n Hl Hpos Hn Hm Hr.
  - exists mem. split; [|reflexivity]. cbn [puts concat]. change (zlen (@nil Z)) with 0. unfold vw. do 3 f_equal; lia.
  - cbn [puts concat] in *. rewrite zlen_app' in *. pose proof (zlen_nonneg p). pose proof (zlen_nonneg (concat ps)).
    destruct (put_within p mem pos n) as (mem1 & -> & L1); try lia. cbn [bind].
    unfold u32. rewrite Z.mod_small by lia.
    destruct (IH mem1 (pos + zlen p) (n - zlen p)) as (mem2 & -> & L2); try lia.
    exists mem2. split; [unfold vw; do 3 f_equal; lia|lia].
Qed.

Lemma puts_short ps q mem pos n : zlen (concat ps ++ q) < 2 ^ 31 -> 0 <= pos -> pos + n <= zlen mem -> n < 2 ^ 32 ->
  zlen (concat ps) <= n < zlen (concat ps ++ q) ->
  exists mem', puts (ps ++ [q]) (mem, vw pos n)
               = Done (mem', vw (pos + zlen (concat ps ++ q)) (2 ^ 32 + n - zlen (concat ps ++ q))).
Proof.
  intros Hl Hpos Hm Hn Hr. rewrite zlen_app' in *. pose proof (zlen_nonneg (concat ps)). pose proof (zlen_nonneg q).
  rewrite puts_app. destruct (puts_within ps mem pos n) as (mem1 & -> & L1); try lia. cbn [bind puts].
  destruct (put_within q mem1 (pos + zlen (concat ps)) (n - zlen (concat ps))) as (mem2 & -> & L2); try lia.
  cbn [bind]. exists mem2. unfold vw, u32. do 3 f_equal; [lia|].
  symmetry. apply Z.mod_unique with (q := -1); lia.
Qed.

(** ** The properties of memory *)
Section Mem.
Variable fmt : scalar -> Z -> list Z.
Variable nm : list Z -> list Z.
Variable fs : list fdesc.
Variable os : list odesc.
Variable v : value.
Hypothesis Hd : desc_ok (EMsg fs os).
Hypothesis Hw : wt (EMsg fs os) v.
Let text := layout (document fmt nm (EMsg fs os) [] v) 0 None.

Lemma to_string_fits a m c n : strings terminated (EMsg fs os) v -> zlen text < 2 ^ 31 ->
  zlen m = zlen text + 1 -> zlen text < n < 2 ^ 32 ->
  to_string fmt nm (EMsg fs os) v (a ++ m ++ c, vw (zlen a) n)
  = Done (a ++ text ++ [0] ++ c, vw (zlen a + zlen text) (n - zlen text)).
Proof.
  intros Ht Hl Hm Hn. destruct (to_string_pieces fmt nm fs os v Hd Hw) as [(_ & ps & Hp & Hc)|(F & _)]; [|contradiction].
  rewrite Hp. fold text in Hc. specialize (Hc Hl).
  assert (Ec : concat (ps ++ [line_end ++ chars "}"]) = text) by (rewrite concat_app; cbn [concat]; rewrite app_nil_r; exact Hc).
  rewrite puts_fits; rewrite ?Ec; auto. destruct ps; discriminate.
Qed.

Lemma to_string_exact a m c : strings terminated (EMsg fs os) v -> zlen text < 2 ^ 31 -> zlen m = zlen text ->
  to_string fmt nm (EMsg fs os) v (a ++ m ++ c, vw (zlen a) (zlen m))
  = Done (a ++ removelast text ++ [0] ++ c, vw (zlen a + zlen text) 0).
Proof.
  intros Ht Hl Hm. destruct (to_string_pieces fmt nm fs os v Hd Hw) as [(_ & ps & Hp & Hc)|(F & _)]; [|contradiction].
  rewrite Hp. fold text in Hc. specialize (Hc Hl). rewrite puts_exact; rewrite ?Hc; auto; [now rewrite Hm|discriminate].
Qed.

Lemma to_string_overrun mem pos n : zlen text < 2 ^ 31 -> 0 <= pos -> pos + n = zlen mem -> 0 <= n < zlen text - 2 ->
  to_string fmt nm (EMsg fs os) v (mem, vw pos n) = UB.
Proof.
  intros Hl Hpos Hm Hn. destruct (to_string_pieces fmt nm fs os v Hd Hw) as [(_ & ps & Hp & Hc)|(F & Hu)]; [|apply Hu].
  rewrite Hp. fold text in Hc. specialize (Hc Hl). rewrite <- Hc, zlen_app' in Hn, Hl.
  change (zlen (line_end ++ chars "}")) with 2 in *. apply puts_overrun; lia.
Qed.

Lemma to_string_short mem pos n : strings terminated (EMsg fs os) v -> zlen text < 2 ^ 31 -> 0 <= pos -> pos + n <= zlen mem ->
  0 <= n -> zlen text - 2 <= n < zlen text ->
  exists mem', to_string fmt nm (EMsg fs os) v (mem, vw pos n) = Done (mem', vw (pos + zlen text) (2 ^ 32 + n - zlen text)).
Proof.
  intros Ht Hl Hpos Hm H0 Hn. destruct (to_string_pieces fmt nm fs os v Hd Hw) as [(_ & ps & Hp & Hc)|(F & Hu)]; [|contradiction].
  rewrite Hp. fold text in Hc. specialize (Hc Hl). rewrite <- Hc in *.
  apply puts_short; try lia. rewrite zlen_app' in Hn |- *. change (zlen (line_end ++ chars "}")) with 2 in *. lia.
Qed.

Lemma to_string_unterminated st : ~ strings terminated (EMsg fs os) v -> to_string fmt nm (EMsg fs os) v st = UB.
Proof.
  intros Ht. destruct (to_string_pieces fmt nm fs os v Hd Hw) as [(F & _)|(_ & Hu)]; [contradiction|apply Hu].
Qed.
End Mem.

(** ** JSON *)

Section DocInd.
Variable P : doc -> Prop.
Hypothesis H1 : forall z, P (DInt z).
Hypothesis H2 : forall b, P (DBool b).
Hypothesis H3 : forall s, P (DReal s).
Hypothesis H4 : forall s, P (DStr s).
Hypothesis H5 : forall ds, Forall P ds -> P (DList ds).
Let Q (o : option (list Z * doc)) : Prop := match o with Some (_, d) => P d | None => True end.
Hypothesis H6 : forall slots, Forall Q slots -> P (DObj slots).
Fixpoint doc_ind' (d : doc) : P d :=
  match d with
  | DInt z => H1 z | DBool b => H2 b | DReal s => H3 s | DStr s => H4 s
  | DList ds => H5 ds ((fix go l : Forall P l := match l with [] => Forall_nil _ | d :: l' => Forall_cons d (doc_ind' d) (go l') end) ds)
  | DObj slots => H6 slots
      ((fix go (l : list (option (list Z * doc))) : Forall Q l :=
          match l with
          | [] => Forall_nil _
          | o :: l' => @Forall_cons _ Q o l' (match o return Q o with Some (n, d) => doc_ind' d | None => I end) (go l')
          end) slots)
  end.
End DocInd.

Lemma white_app a b : white a -> white b -> white (a ++ b).
Proof. intros Ha Hb. apply Forall_app. auto. Qed.
Lemma white_indent i : white (indent i).
Proof. unfold indent, zrepeat, white. generalize (Z.to_nat i). induction n; cbn [repeat]; constructor; auto. Qed.
Lemma white_newline : white line_end.
Proof. repeat constructor; lia. Qed.
Lemma white_nil : white [].
Proof. constructor. Qed.
#[local] Hint Resolve white_app white_indent white_newline white_nil : white.

(** *** Numbers *)
Lemma digits_value_snoc s c : digits_value (s ++ [c]) = 10 * digits_value s + (c - 48).
Proof. unfold digits_value. rewrite fold_left_app. reflexivity. Qed.

Lemma digits_natural k : forall n, 0 <= n < 10 ^ Z.of_nat k -> (0 < k)%nat ->
  Forall digit (digits k n) /\ digits k n <> [] /\ digits_value (digits k n) = n
  /\ (1 <= n -> hd 0 (digits k n) <> 48) /\ (n = 0 -> digits k n = [48]).
Proof.
  induction k as [|k IH]; intros n Hn Hk; [lia|]. cbn [digits]. destruct (Z.ltb_spec n 10).
  - unfold digits_value. cbn [fold_left hd]. repeat split; try lia; try discriminate.
    + constructor; [unfold digit; lia|constructor].
    + intros ->. reflexivity.
  - assert (Hk' : (0 < k)%nat). { destruct k; [|lia]. change (10 ^ Z.of_nat 1) with 10 in Hn. lia. }
    rewrite Nat2Z.inj_succ, Z.pow_succ_r in Hn by lia.
    destruct (IH (n / 10)) as (Hd & Hne & Hv & Hh & _); [lia|assumption|].
    repeat split; try lia.
    + apply Forall_app. split; [exact Hd|]. constructor; [unfold digit; lia|constructor].
    + destruct (digits k (n / 10)); discriminate.
    + rewrite digits_value_snoc, Hv. lia.
    + intros _. destruct (digits k (n / 10)) as [|c l]; [congruence|]. cbn [hd app] in *. apply Hh. lia.
Qed.

Lemma natural_ok n : 0 <= n -> natural_text (natural n) /\ digits_value (natural n) = n.
Proof.
  intros Hn. unfold natural. set (k := S (Z.to_nat (Z.log2 n))).
  assert (Hb : n < 10 ^ Z.of_nat k).
  { destruct (Z.eq_dec n 0) as [->|]; [reflexivity|]. pose proof (Z.log2_spec n ltac:(lia)) as [_ H].
    eapply Z.lt_le_trans; [exact H|]. unfold k. pose proof (Z.log2_nonneg n).
    replace (Z.of_nat (S (Z.to_nat (Z.log2 n)))) with (Z.succ (Z.log2 n)) by lia.
    apply Z.pow_le_mono_l. lia. }
  destruct (digits_natural k n) as (Hd & Hne & Hv & Hh & H0); [lia|unfold k; lia|].
  split; [|exact Hv]. split; [exact Hd|]. split; [exact Hne|]. intros E.
  destruct (Z.eq_dec n 0) as [->|]; [auto|]. exfalso. apply Hh; [lia|exact E].
Qed.

Lemma decimal_ok z : integer_text (decimal z) z.
Proof.
  unfold decimal. destruct (Z.ltb_spec z 0).
  - destruct (natural_ok (- z)) as [Ht Hv]; [lia|]. pose proof (it_neg _ Ht) as H'. rewrite Hv, Z.opp_involutive in H'. exact H'.
  - destruct (natural_ok z) as [Ht Hv]; [lia|]. pose proof (it_nonneg _ Ht) as H'. rewrite Hv in H'. exact H'.
Qed.

(** *** Strings *)
Lemma plain_text s : Forall plain_char s -> string_text s s.
Proof. induction 1; constructor; auto. Qed.

(** *** Layout *)
Definition lays (d : doc) : Prop := forall i name,
  exists body, value_text body d /\ layout d i name = indent i ++ key name ++ body.

Lemma elements_layout j ds w0 w2 : Forall lays ds -> white w0 -> white w2 ->
  elements_text (w0 ++ separate true (map (fun d => Some (layout d j None)) ds) ++ w2) ds.
Proof.
  intros H. revert w0. induction H as [|d ds Hd Hds IH]; intros w0 Hw0 Hw2.
  - cbn [map separate app]. constructor. auto with white.
  - destruct (Hd j None) as (body & Hb & El). cbn [key app] in El.
    destruct ds as [|d' ds].
    + cbn [map separate app]. rewrite El, app_nil_r.
      replace (w0 ++ (indent j ++ body) ++ w2) with ((w0 ++ indent j) ++ body ++ w2) by now rewrite <- !app_assoc.
      constructor; auto with white.
    + specialize (IH line_end white_newline Hw2). cbn [map separate app] in *. rewrite El.
      match goal with |- elements_text ?x _ =>
        replace x with ((w0 ++ indent j) ++ body ++ [] ++ [44] ++
          line_end ++ (layout d' j None ++ separate false (map (fun d => Some (layout d j None)) ds)) ++ w2) end.
      * constructor; auto with white.
      * cbn [app]. rewrite <- !app_assoc. reflexivity.
Qed.

Lemma separate_members j slots :
  separate false (map (option_map (fun '(n, d) => layout d j (Some n))) slots)
  = separate false (map (fun '(n, d) => Some (layout d j (Some n))) (members slots)).
Proof.
  induction slots as [|[[n d]|] slots IH]; cbn [map option_map separate members]; auto. now rewrite IH.
Qed.

Lemma member_layout j n d w0 w2 : lays d -> Forall plain_char n -> white w0 -> white w2 ->
  member_text (w0 ++ layout d j (Some n) ++ w2) (n, d).
Proof.
  intros Hd Hn Hw0 Hw2. destruct (Hd j (Some n)) as (body & Hb & ->). unfold key.
  replace (w0 ++ (indent j ++ (mark ++ n ++ mark ++ chars ": ") ++ body) ++ w2)
    with ((w0 ++ indent j) ++ mark ++ n ++ mark ++ [] ++ [58] ++ [32] ++ body ++ w2)
    by (rewrite <- !app_assoc; reflexivity).
  constructor; auto using plain_text with white. repeat constructor.
Qed.

Lemma members_layout j ms : forall n d w0 w2, Forall (fun '(n, d) => Forall plain_char n /\ lays d) ((n, d) :: ms) -> white w0 -> white w2 ->
  members_text (w0 ++ (layout d j (Some n) ++ separate false (map (fun '(n, d) => Some (layout d j (Some n))) ms)) ++ w2) ((n, d) :: ms).
Proof.
  induction ms as [|[n' d'] ms IH]; intros n d w0 w2 H Hw0 Hw2; inversion H as [|? ? Hnd Hms]; subst;
    destruct Hnd as [Hn Hd]; cbn [map separate].
  - rewrite app_nil_r. constructor. now apply member_layout.
  - specialize (IH n' d' line_end w2 Hms white_newline Hw2).
    match goal with |- members_text ?x _ =>
      replace x with ((w0 ++ layout d j (Some n) ++ []) ++ [44] ++
        line_end ++ (layout d' j (Some n') ++ separate false (map (fun '(n, d) => Some (layout d j (Some n))) ms)) ++ w2) end.
    + constructor; [|exact IH]. apply member_layout; auto with white.
    + rewrite app_nil_r, <- !app_assoc. reflexivity.
Qed.

Lemma layout_lays d : doc_ok d -> lays d.
Proof.
  induction d as [z|b|s|s|ds IH|slots IH] using doc_ind'; intros Hok i name; cbn [layout doc_ok] in *.
  - eexists. split; [apply vt_int, decimal_ok|reflexivity].
  - eexists. split; [apply vt_bool|reflexivity].
  - eexists. split; [apply vt_real, Hok|reflexivity].
  - eexists. split; [apply vt_str, plain_text, Hok|reflexivity].
  - set (line := indent i ++ key name ++ chars "[" ++ line_end).
    eexists. split.
    + apply vt_list. apply (elements_layout (zlen line) ds line_end (line_end ++ indent (zlen line - 2))); auto with white.
      apply all_Forall in Hok. rewrite Forall_forall in *. auto.
    + unfold line at 1. change (chars "[") with [91]. change (chars "]") with [93]. rewrite <- !app_assoc. reflexivity.
  - destruct Hok as [Hs Hall]. apply all_Forall in Hall.
    assert (Hm : Forall (fun '(n, d) => Forall plain_char n /\ lays d) (members slots)).
    { clear Hs. induction slots as [|[[n d]|] slots IHs]; cbn [members]; auto.
      - inversion Hall as [|? ? Hnd Hall']; subst. destruct Hnd as [Hn Hd]. inversion IH; subst. constructor; [auto|]. auto.
      - inversion Hall; subst. inversion IH; subst. auto. }
    eexists. split.
    + apply (vt_obj (line_end ++ separate true (map (option_map (fun '(n, d) => layout d (i + 2) (Some n))) slots) ++ (line_end ++ indent i))).
      destruct slots as [|[[n d]|] slots].
      * cbn [map separate members app]. constructor. auto with white.
      * cbn [map option_map separate members app] in *. rewrite separate_members.
        apply (members_layout (i + 2) (members slots) n d line_end (line_end ++ indent i)); auto with white.
      * cbn [map option_map separate well_started] in *. rewrite separate_members.
        cbn [members] in *. rewrite Hs. cbn [map separate app]. constructor. auto with white.
    + change (chars "{") with [123]. change (chars "}") with [125]. rewrite <- !app_assoc. reflexivity.
Qed.

Lemma layout_json d : doc_ok d -> json_text (layout d 0 None) d.
Proof.
  intros H. destruct (layout_lays d H 0 None) as (body & Hb & ->). exists [], body, []. rewrite app_nil_r.
  repeat split; auto with white.
Qed.

(** *** A misplaced comma *)
Lemma value_text_head v d r : value_text v d -> forall r', v ++ r = 123 :: r' ->
  exists s slots, v = [123] ++ s ++ [125] /\ d = DObj slots /\ members_text s (members slots).
Proof.
  assert (Hi : forall s z rest r', integer_text s z -> s ++ rest = 123 :: r' -> False).
  { intros s z rest r' H E. inversion H as [? [Hd [Hn _]]|? [Hd [Hn _]]]; subst.
    - destruct s as [|c s]; [congruence|]. inversion Hd as [|? ? Hc _]; subst. injection E as E _. unfold digit in Hc. lia.
    - discriminate. }
  intros H r' E. inversion H as [? ? Hz|b|s Hn|s x|s ds|s slots Hm]; subst; try (cbn in E; discriminate E).
  - exfalso. eapply Hi; eauto.
  - destruct b; cbn in E; discriminate E.
  - exfalso. inversion Hn as [? ? ? ? Hz]; subst. rewrite <- !app_assoc in E. eapply Hi; eauto.
  - eauto.
Qed.

Lemma white_comma w s r : white w -> hd 0 s <> 10 -> hd 0 s <> 44 -> s <> [] -> w ++ s = 10 :: 44 :: r -> False.
Proof.
  intros Hw H1 H2 Hs E. destruct s as [|c s]; [congruence|]. cbn [hd] in *. destruct w as [|a [|b w]]; cbn [app] in E.
  - injection E as E _. lia.
  - injection E as _ E _. lia.
  - inversion Hw as [|? ? _ Hw1]; subst. inversion Hw1 as [|? ? Hb _]; subst. injection E as _ E _. lia.
Qed.

Lemma comma_no_json r d : ~ json_text (123 :: 10 :: 44 :: r) d.
Proof.
  intros (w1 & v & w2 & E & Hw1 & Hv & Hw2). destruct w1 as [|c w1].
  2:{ injection E as <- _. inversion Hw1 as [|? ? Hc _]; subst. lia. }
  cbn [app] in E. symmetry in E. destruct (value_text_head v d w2 Hv _ E) as (s & slots & -> & -> & Hm).
  cbn [app] in E. injection E as E. rewrite <- app_assoc in E.
  assert (Hmem : forall s m rest, member_text s m -> s ++ rest = 10 :: 44 :: r -> False).
  { intros s0 m rest H0 E0. inversion H0 as [w e n ? ? ? ? ? Hw]; subst. rewrite <- app_assoc in E0.
    eapply white_comma; [exact Hw| | | |exact E0]; cbn; congruence || lia. }
  inversion Hm as [? Hw|? ? H1|? ? ? ? ? H1]; subst.
  - eapply white_comma; [exact Hw| | | |exact E]; cbn; congruence || lia.
  - eapply Hmem; eauto.
  - rewrite <- app_assoc in E. eapply Hmem; eauto.
Qed.

Lemma separate_false_comma j slots : members slots <> [] ->
  exists r, separate false (map (option_map (fun '(n, d) => layout d j (Some n))) slots) = 44 :: r.
Proof.
  rewrite separate_members. destruct (members slots) as [|[n d] ms]; [congruence|]. intros _. eexists. reflexivity.
Qed.

Lemma layout_comma slots d : ~ well_started slots -> ~ json_text (layout (DObj slots) 0 None) d.
Proof.
  intros H. destruct slots as [|[[n x]|] slots]; cbn [well_started] in H; try tauto.
  destruct (separate_false_comma 2 slots H) as (r & E). cbn [layout]. change (0 + 2) with 2.
  cbn [map option_map separate]. rewrite E. apply comma_no_json.
Qed.

(** *** From the getters *)
Section View.
Variable fmt : scalar -> Z -> list Z.
Variable nm : list Z -> list Z.

Definition doc_view (t : ety) : Prop := forall path v, wt t v -> tidy t v -> strings reads_back t v ->
  document fmt nm t path v = sdocument fmt nm t path (view t v).

Definition sdocf (path : list Z) (fs : list fdesc) :=
  map (fun '(num, k, t) => (num, k, t, sdocument fmt nm t (path ++ [num]))) fs.
Definition sdoco (path : list Z) (os : list odesc) :=
  map (map (fun '(num, t) => (num, sdocument fmt nm t (path ++ [num])))) os.

Lemma fields_view path pres : forall fs vs i, Forall (fun f : fdesc => doc_view (snd f)) fs ->
  all2 (fun '(_, k, t) => wt_field k (wt t)) fs vs ->
  (forall pos num k t x, nth_error fs pos = Some (num, k, t) -> nth_error vs pos = Some x ->
     tidy_field k t (i + optix fs pos) pres x) ->
  all2 (fun '(_, k, t) => strings_field k (strings reads_back t)) fs vs ->
  field_slots (name_at nm path) (docf fmt nm path fs) vs
  = sfield_slots (name_at nm path) (sdocf path fs) (view_fields (vtab fs) i pres vs).
Proof.
  induction fs as [|[[num k] t] fs IH]; intros vs i Hf Hw Ht Hs; destruct vs as [|v vs]; try contradiction; [reflexivity|].
  inversion Hf as [|? ? Hf1 Hf2]; subst. cbn [snd] in Hf1. destruct Hw as [Hw1 Hw2]. destruct Hs as [Hs1 Hs2].
  cbn [docf sdocf vtab map field_slots sfield_slots view_fields]. f_equal.
  - specialize (Ht 0%nat num k t v eq_refl eq_refl). cbn [optix] in Ht. rewrite Z.add_0_r in Ht.
    destruct k as [| |max|]; cbn [field_slot sfield_slot view_field tidy_field strings_field wt_field] in *.
    + now rewrite Hf1.
    + destruct Ht as [Ht Hdef]. rewrite Hf1 by auto. destruct (present pres i); [reflexivity|]. now rewrite Hdef.
    + destruct v as [| | |len data|]; try contradiction. f_equal. f_equal. f_equal. rewrite map_map.
      apply map_ext_in. intros x Hx. destruct Hw1 as (_ & _ & Hw1).
      assert (Hin : In x data) by (rewrite <- (firstn_skipn (Z.to_nat len) data); apply in_or_app; auto).
      apply Hf1.
      * apply all_Forall in Hw1. eapply Forall_forall in Hw1; eauto.
      * eapply Forall_forall in Ht; eauto.
      * apply all_Forall in Hs1. eapply Forall_forall in Hs1; eauto.
    + reflexivity.
  - apply IH; auto. intros pos num' k' t' x Hp Hx. specialize (Ht (S pos) num' k' t' x Hp Hx). cbn [optix] in Ht.
    rewrite succ_opt_add, <- Z.add_assoc. exact Ht.
Qed.

Lemma oneofs_view path : forall os ovs, Forall (Forall (fun m : Z * ety => doc_view (snd m))) os ->
  all2 (fun ms => wt_oneof (map (fun '(num, t) => (num, wt t)) ms)) os ovs ->
  (forall pos ms o, nth_error os pos = Some ms -> nth_error ovs pos = Some o -> tidy_oneof ms o) ->
  all2 (fun ms => strings_oneof (map (fun '(num, t) => (num, strings reads_back t)) ms)) os ovs ->
  oneof_slots (name_at nm path) (doco fmt nm path os) ovs
  = soneof_slots (name_at nm path) (sdoco path os) (view_oneofs (votab os) ovs).
Proof.
  induction os as [|ms os IH]; intros ovs Ho Hw Ht Hs; destruct ovs as [|[w v] ovs]; try contradiction; [reflexivity|].
  inversion Ho as [|? ? Ho1 Ho2]; subst. destruct Hw as [Hw1 Hw2]. destruct Hs as [Hs1 Hs2].
  cbn [doco sdoco votab map oneof_slots soneof_slots view_oneofs]. f_equal.
  - specialize (Ht 0%nat ms (w, v) eq_refl eq_refl). unfold tidy_oneof, wt_oneof, strings_oneof, oneof_slot, view_oneof in *.
    cbn [fst snd] in *. rewrite (lookup_map wt) in Hw1. rewrite (lookup_map (strings reads_back)) in Hs1.
    rewrite (lookup_map view), (lookup_map_num (fun num t => document fmt nm t (path ++ [num]))).
    destruct (lookup ms w) as [t|] eqn:El; [|reflexivity]. cbn [soneof_slot].
    rewrite (lookup_map_num (fun num t => sdocument fmt nm t (path ++ [num]))), El. f_equal. f_equal.
    eapply (lookup_Forall doc_view ms w t Ho1 El); auto.
  - apply IH; auto. intros pos ms' o Hp. apply (Ht (S pos) ms' o Hp).
Qed.

Lemma document_view t : doc_view t.
Proof.
  induction t as [sc|st max|fs os Hf Ho] using ety_ind'; intros path v Hw Ht Hs.
  - destruct v; cbn [wt] in Hw; try contradiction. reflexivity.
  - destruct v as [| |len data| |]; cbn [wt] in Hw; try contradiction. destruct st; cbn [document view sdocument]; [|reflexivity].
    cbn [strings] in Hs. unfold reads_back in Hs. now rewrite Hs.
  - destruct v as [| | | |pres vs ovs]; try contradiction. destruct Hw as (_ & _ & Hw1 & Hw2). destruct Hs as [Hs1 Hs2].
    apply tidy_msg_iff in Ht. destruct Ht as [Ht1 Ht2]. cbn [document view sdocument].
    pose proof (fields_view path pres fs vs 0 Hf Hw1 Ht1 Hs1) as E1. pose proof (oneofs_view path os ovs Ho Hw2 Ht2 Hs2) as E2.
    unfold name_at in E1, E2. unfold docf, sdocf, vtab in E1. unfold doco, sdoco, votab in E2. rewrite E1, E2. reflexivity.
Qed.
End View.
