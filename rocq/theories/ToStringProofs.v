(** to_string() writes the layout of the document, piece by piece. *)
From Coq Require Import String.
From Verif Require Import Base Buffers Wire Schema Fields Message Api Printf ToString Spec SpecToString BitLemmas Struct SerProofs ApiProofs.
From Coq Require Import List ZifyBool ZifyNat ZifyN.
Ltac Zify.zify_post_hook ::= Z.div_mod_to_equations.

Lemma zlen_nonneg {A} (l : list A) : 0 <= zlen l.
Proof. unfold zlen. lia. Qed.
Lemma zlen_zrepeat {A} (x : A) n : 0 <= n -> zlen (zrepeat x n) = n.
Proof. intros H. unfold zlen, zrepeat. rewrite repeat_length. lia. Qed.
Lemma zlen_app' {A} (a b : list A) : zlen (a ++ b) = zlen a + zlen b.
Proof. unfold zlen. rewrite app_length. lia. Qed.

(** ** Sequences of pieces *)

Definition ret (text : list Z) : Z := if zlen text <? 2 ^ 31 then zlen text else -1.

Fixpoint puts (ps : list (list Z)) (st : sstate) : res sstate :=
  match ps with
  | [] => Done st
  | p :: ps' => let* (_, st') := put p st in puts ps' st'
  end.

Lemma put_cases p st : put p st = UB \/ exists st', put p st = Done (ret p, st').
Proof.
  destruct st as [mem v]. unfold put, snprintf. fold (ret p). destruct (sv_size v =? 0); cbn [bind].
  - right. eexists. reflexivity.
  - unfold memcpy. match goal with |- context [if ?b then _ else _] => destruct b end; cbn [bind]; [|now left].
    right. eexists. reflexivity.
Qed.

Lemma puts_cases ps st : puts ps st = UB \/ exists st', puts ps st = Done st'.
Proof.
  revert st. induction ps as [|p ps IH]; intros st; cbn [puts]; [eauto|].
  destruct (put_cases p st) as [->|(st' & ->)]; cbn [bind]; auto.
Qed.

Lemma puts_app a b st : puts (a ++ b) st = let* st' := puts a st in puts b st'.
Proof.
  revert st. induction a as [|p a IH]; intros st; cbn [puts app bind]; [reflexivity|].
  destruct (put_cases p st) as [->|(st' & ->)]; cbn [bind]; auto.
Qed.

Lemma put_bind {B} p st (K : Z -> sstate -> res B) :
  (let* (n, st') := put p st in K n st') = (let* st' := puts [p] st in K (ret p) st').
Proof. cbn [puts]. destruct (put_cases p st) as [->|(st' & ->)]; reflexivity. Qed.

(** [f] prints [text] when T holds, and is undefined otherwise. *)
Definition shows (C T : Prop) (f : sstate -> res sstate) (text : list Z) : Prop :=
  (T /\ exists ps, (forall st, f st = puts ps st) /\ (C -> zlen text < 2 ^ 31 -> concat ps = text))
  \/ (~ T /\ forall st, f st = UB).

Lemma shows_conv (C C' T T' : Prop) f f' text text' :
  (C' -> zlen text' < 2 ^ 31 -> C /\ text = text') -> (T <-> T') -> (forall st, f' st = f st) ->
  shows C T f text -> shows C' T' f' text'.
Proof.
  intros HC HT Hf [(t & ps & Hp & Hc)|(t & Hu)]; [left|right].
  - split; [tauto|]. exists ps. split; [intros st; rewrite Hf; apply Hp|].
    intros c Hl. destruct (HC c Hl) as [c0 ->]. now apply Hc.
  - split; [tauto|]. intros st. rewrite Hf. apply Hu.
Qed.

Lemma shows_put C p : shows C True (puts [p]) p.
Proof.
  left. split; [exact I|]. exists [p]. split; [reflexivity|]. intros _ _. cbn [concat]. apply app_nil_r.
Qed.
Lemma shows_nil C : shows C True (fun st => Done st) [].
Proof. left. split; [exact I|]. exists []. split; reflexivity. Qed.

Lemma shows_seq (C T1 T2 : Prop) f1 f2 x1 x2 : shows C T1 f1 x1 -> shows C T2 f2 x2 ->
  shows C (T1 /\ T2) (fun st => let* st1 := f1 st in f2 st1) (x1 ++ x2).
Proof.
  intros [(t1 & ps1 & Hp1 & Hc1)|(t1 & Hu1)] H2.
  - destruct H2 as [(t2 & ps2 & Hp2 & Hc2)|(t2 & Hu2)]; [left|right]; (split; [tauto|]).
    + exists (ps1 ++ ps2). split.
      * intros st. rewrite puts_app, Hp1. destruct (puts_cases ps1 st) as [->|(st' & ->)]; cbn [bind]; auto.
      * intros c Hl. rewrite zlen_app' in Hl. pose proof (zlen_nonneg x1). pose proof (zlen_nonneg x2).
        rewrite concat_app, Hc1, Hc2 by (auto; lia). reflexivity.
    + intros st. rewrite Hp1. destruct (puts_cases ps1 st) as [->|(st' & ->)]; cbn [bind]; auto.
  - right. split; [tauto|]. intros st. now rewrite Hu1.
Qed.

Definition comma (first : bool) : list Z := if first then [] else chars "," ++ newline.

Lemma shows_comma C first : shows C True (put_comma first) (comma first).
Proof.
  destruct first; cbn [put_comma comma]; [apply shows_nil|].
  eapply shows_conv; [| |intros st|apply (shows_put C)]; [auto|tauto|].
  reflexivity.
Qed.

(** ** Text *)

Lemma padding_indent i : 1 <= i < 2 ^ 31 -> padding (s32 i) = indent i.
Proof.
  intros H. unfold padding, indent. f_equal. unfold s32, sw.
  rewrite Z.mod_small by lia. destruct (Z.ltb_spec i (2 ^ (32 - 1))); lia.
Qed.

Lemma indent_len i : 0 <= i -> zlen (indent i) = i.
Proof. apply zlen_zrepeat. Qed.

Lemma start_text_layout i name rest : 0 <= i -> i <> 0 -> zlen (indent i ++ rest) < 2 ^ 31 ->
  start_text i name = indent i ++ key name.
Proof.
  intros H0 Hi Hl. rewrite zlen_app', indent_len in Hl by lia. pose proof (zlen_nonneg rest).
  unfold start_text, key. now rewrite padding_indent by lia.
Qed.

Lemma ret_small s : zlen s < 2 ^ 31 -> ret s = zlen s.
Proof. intros H. unfold ret. destruct (Z.ltb_spec (zlen s) (2 ^ 31)); lia. Qed.

Section Proofs.
Variable fmt : scalar -> Z -> list Z.
Variable nm : list Z -> list Z.

(** *** Scalars *)
Lemma scalar_text_doc sc z i name : scalar_range sc z ->
  layout (scalar_doc fmt sc z) i name = indent i ++ key name ++ scalar_text fmt sc z.
Proof.
  intros Hr. destruct sc; cbn [scalar_doc layout scalar_text]; try reflexivity.
  destruct Hr as [->| ->]; reflexivity.
Qed.

Lemma scalar_shows sc z i name first : 0 <= i -> scalar_range sc z ->
  shows (i <> 0) True (fun st => scalar_to_string fmt sc (VS z) st i name first)
    (comma first ++ layout (scalar_doc fmt sc z) i name).
Proof.
  intros Hi Hr. rewrite scalar_text_doc by assumption. cbn [scalar_to_string].
  eapply shows_conv; [| |intros st|eapply shows_seq; [apply (shows_comma (i <> 0) first)|eapply shows_seq;
    [apply (shows_put (i <> 0) (start_text i name))|apply (shows_put (i <> 0) (scalar_text fmt sc z))]]].
  - intros Hn Hl. split; [exact Hn|].
    rewrite (start_text_layout i name (key name ++ scalar_text fmt sc z)), <- ?app_assoc; auto.
    rewrite zlen_app' in Hl. pose proof (zlen_nonneg (comma first)). lia.
  - tauto.
  - cbn beta. destruct (put_comma first st) as [st1| |]; cbn [bind]; auto.
    rewrite (put_bind (start_text i name) st1 (fun _ st2 => let* (_, st3) := put (scalar_text fmt sc z) st2 in Done st3)).
    destruct (puts [start_text i name] st1) as [st2| |]; cbn [bind]; auto.
Qed.

(** *** Strings *)
Lemma read_cstr_spec data : (In 0 data /\ read_cstr data = Done (until_zero data)) \/ (~ In 0 data /\ read_cstr data = UB).
Proof.
  induction data as [|c data IH]; cbn [read_cstr until_zero In]; [right; auto|].
  destruct (Z.eqb_spec c 0) as [->|Hc]; [left; auto|].
  destruct IH as [[Hi ->]|[Hi ->]]; cbn [bind]; [left|right]; split; auto. intros [?|?]; auto.
Qed.

Lemma string_shows len data i name first : 0 <= i ->
  shows (i <> 0) (terminated len data) (fun st => string_to_string (VB len data) st i name first)
    (comma first ++ layout (DStr (until_zero data)) i name).
Proof.
  intros Hi. unfold terminated. destruct (read_cstr_spec data) as [[Ht Er]|[Ht Er]].
  - eapply shows_conv; [| |intros st|eapply shows_seq; [apply (shows_comma (i <> 0) first)|apply (shows_put (i <> 0) (start_text i name ++ quote ++ until_zero data ++ quote))]].
    + intros Hn Hl. split; [exact Hn|]. cbn [layout] in *.
      change quote with mark in *.
      rewrite (start_text_layout i name (key name ++ mark ++ until_zero data ++ mark)), <- ?app_assoc; auto.
      rewrite zlen_app' in Hl. pose proof (zlen_nonneg (comma first)). lia.
    + tauto.
    + cbn [string_to_string]. destruct (put_comma first st) as [st1| |]; cbn [bind]; auto.
      rewrite Er. cbn [bind]. reflexivity.
  - right. split; [exact Ht|]. intros st. cbn [string_to_string].
    destruct (shows_comma True first) as [(_ & ps & Hp & _)|(F & _)]; [|tauto]. rewrite Hp.
    destruct (puts_cases ps st) as [->|(st' & ->)]; cbn [bind]; auto. now rewrite Er.
Qed.

(** *** Lists *)
Lemma elements_shows (C : Prop) (get : Z -> res value) ts (T : value -> Prop) (d : value -> doc) j :
  forall xs k, (forall m x, nth_error xs m = Some x -> get (k + Z.of_nat m) = Done x) -> 0 <= k ->
  Forall (fun x => forall first, shows C (T x) (fun st => ts x st j None first) (comma first ++ layout (d x) j None)) xs ->
  shows C (Forall T xs) (fun st => elements_to_string get ts (length xs) k j st)
    (separate (k =? 0) (map (fun x => Some (layout (d x) j None)) xs)).
Proof.
  induction xs as [|x xs IH]; intros k Hg Hk Hx.
  - cbn. eapply shows_conv; [| |intros st; reflexivity|apply (shows_nil C)]; [auto|split; auto].
  - inversion Hx as [|? ? Hx1 Hx2]; subst. cbn [length elements_to_string map separate].
    eapply shows_conv; [| |intros st|eapply shows_seq; [exact (Hx1 (k =? 0))|apply (IH (k + 1))]].
    + intros c Hl. split; [exact c|]. rewrite <- app_assoc. unfold comma.
      destruct (Z.eqb_spec (k + 1) 0); [lia|]. reflexivity.
    + split; [intros [? ?]; constructor; auto|intros H; inversion H; auto].
    + pose proof (Hg 0%nat x eq_refl) as E0. cbn [Z.of_nat] in E0. rewrite Z.add_0_r in E0. rewrite E0. reflexivity.
    + intros m y Hy. specialize (Hg (S m) y Hy). rewrite <- Hg. f_equal. lia.
    + lia.
    + assumption.
Qed.

Definition list_line (i : Z) (name : option (list Z)) : list Z := indent i ++ key name ++ chars "[" ++ line_end.

Lemma list_line_len i name : 0 <= i -> i + 2 <= zlen (list_line i name).
Proof.
  intros H. unfold list_line. rewrite !zlen_app', indent_len by lia. pose proof (zlen_nonneg (key name)).
  change (zlen (chars "[")) with 1. change (zlen line_end) with 1. lia.
Qed.

Lemma list_shows get ts (T : value -> Prop) (d : value -> doc) xs i name first :
  0 <= i ->
  (forall m x, nth_error xs m = Some x -> get (Z.of_nat m) = Done x) ->
  (forall j, 0 <= j < 2 ^ 32 ->
     Forall (fun x => forall first, shows (j <> 0) (T x) (fun st => ts x st j None first) (comma first ++ layout (d x) j None)) xs) ->
  shows (i <> 0) (Forall T xs) (fun st => list_to_string get ts (zlen xs) st i name first)
    (comma first ++ layout (DList (map d xs)) i name).
Proof.
  intros Hi Hg Hx. cbn [layout]. fold (list_line i name). set (h := start_text i name ++ chars "[" ++ newline).
  eapply shows_conv; [| |intros st|
    eapply shows_seq; [apply (shows_comma (u32 (ret h) <> 0) first)|eapply shows_seq; [apply (shows_put (u32 (ret h) <> 0) h)|eapply shows_seq;
      [eapply (elements_shows (u32 (ret h) <> 0) get ts T d (u32 (ret h)) xs 0)|
       apply (shows_put (u32 (ret h) <> 0) (newline ++ padding (s32 (ret h - 2)) ++ chars "]"))]]]].
  - intros Hn Hl.
    assert (Hh : h = list_line i name).
    { unfold h, list_line. change newline with line_end. rewrite (start_text_layout i name (key name ++ chars "[" ++ line_end)); auto.
      - now rewrite <- !app_assoc.
      - fold (list_line i name). rewrite !zlen_app' in Hl.
        pose proof (zlen_nonneg (comma first)). eapply Z.le_lt_trans; [|exact Hl].
        match goal with |- ?a <= ?b + (?a + (?c + (?e + (?f + ?g)))) =>
          assert (0 <= c /\ 0 <= e /\ 0 <= f /\ 0 <= g) by (repeat split; apply zlen_nonneg) end. lia. }
    pose proof (list_line_len i name Hi) as Hll.
    assert (Hlt : zlen (list_line i name) < 2 ^ 31).
    { rewrite !zlen_app' in Hl.
      match type of Hl with ?b + (?a + (?c + (?e + (?f + ?g)))) < _ =>
          assert (0 <= b /\ 0 <= c /\ 0 <= e /\ 0 <= f /\ 0 <= g) by (repeat split; apply zlen_nonneg) end. lia. }
    rewrite Hh, ret_small by assumption. unfold u32. rewrite Z.mod_small by lia.
    split; [lia|]. f_equal. f_equal. rewrite map_map. f_equal. f_equal. f_equal. apply padding_indent. lia.
  - tauto.
  - unfold list_to_string. destruct (put_comma first st) as [st1| |]; cbn [bind]; auto. fold h.
    rewrite (put_bind h st1 (fun n_chars_used st2 =>
      let* st3 := elements_to_string get ts (Z.to_nat (zlen xs)) 0 (u32 n_chars_used) st2 in
      let* (_, st4) := put (newline ++ padding (s32 (n_chars_used - 2)) ++ chars "]") st3 in Done st4)).
    destruct (puts [h] st1) as [st2| |]; cbn [bind]; auto.
    unfold zlen at 1. rewrite Nat2Z.id. destruct (elements_to_string _ _ _ _ _ st2) as [st3| |]; cbn [bind]; auto.
  - exact Hg.
  - lia.
  - apply Hx. unfold u32. lia.
Qed.

Lemma nth_firstn_zlen {A} (l : list A) len m x : 0 <= len <= zlen l -> nth_error (firstn (Z.to_nat len) l) m = Some x ->
  nth_error l m = Some x /\ Z.of_nat m < len.
Proof.
  intros Hl H. assert (Hm : (m < length (firstn (Z.to_nat len) l))%nat) by (apply nth_error_Some; congruence).
  rewrite firstn_length in Hm. split; [|lia]. rewrite <- H. symmetry. apply nth_error_firstn_lt. lia.
Qed.

Lemma zlen_firstn {A} (l : list A) len : 0 <= len <= zlen l -> zlen (firstn (Z.to_nat len) l) = len.
Proof. unfold zlen. intros H. rewrite firstn_length. lia. Qed.

(** *** Elements *)
Definition is_msg (t : ety) : Prop := match t with EMsg _ _ => True | _ => False end.

Definition elem_ok (t : ety) : Prop := forall path v i name first, desc_ok t -> wt t v -> 0 <= i < 2 ^ 32 ->
  shows (i <> 0 \/ is_msg t) (strings terminated t v) (fun st => elem_to_string fmt nm t path v st i name first)
    (comma first ++ layout (document fmt nm t path v) i name).

Lemma shows_weaken (C C' T : Prop) f text : (C' -> C) -> shows C T f text -> shows C' T f text.
Proof. intros H. apply shows_conv; tauto. Qed.

Lemma scalar_ok sc : elem_ok (EScalar sc).
Proof.
  intros path v i name first _ Hw Hi. destruct v; cbn [wt] in Hw; try contradiction.
  cbn [strings elem_to_string document]. eapply shows_weaken; [|apply scalar_shows; [lia|assumption]].
  cbn [is_msg]. tauto.
Qed.

Lemma bytes_get_nth len data m x : zlen data < 2 ^ 31 -> nth_error data m = Some x ->
  bytes_get_const (VB len data) (Z.of_nat m) = Done x.
Proof.
  intros Hd H. assert (Hm : (m < length data)%nat) by (apply nth_error_Some; congruence).
  cbn [bytes_get_const]. unfold aget. unfold zlen in *. unfold u32. rewrite (Z.mod_small (_ - 1)) by lia.
  destruct (Z.leb_spec 0 (Z.min (Z.of_nat m) (Z.of_nat (length data) - 1))); [|lia].
  replace (Z.to_nat (Z.min (Z.of_nat m) (Z.of_nat (length data) - 1))) with m by lia. now rewrite H.
Qed.
Lemma rep_get_nth data m x : zlen data < 2 ^ 31 -> nth_error data m = Some x ->
  rep_get_const data (Z.of_nat m) = Done x.
Proof.
  intros Hd H. assert (Hm : (m < length data)%nat) by (apply nth_error_Some; congruence).
  unfold rep_get_const. unfold aget. unfold zlen in *. unfold u32. rewrite (Z.mod_small (_ - 1)) by lia.
  destruct (Z.leb_spec 0 (Z.min (Z.of_nat m) (Z.of_nat (length data) - 1))); [|lia].
  replace (Z.to_nat (Z.min (Z.of_nat m) (Z.of_nat (length data) - 1))) with m by lia. now rewrite H.
Qed.

Lemma bytes_ok st max : elem_ok (EBytes st max).
Proof.
  intros path v i name first Hd Hw Hi. destruct v as [| |len data| |]; cbn [wt] in Hw; try contradiction.
  cbn [desc_ok] in Hd. unfold capacity_ok in Hd. destruct Hw as (Hlen & Hcap & Hby). destruct st.
  - cbn [strings elem_to_string document]. eapply shows_weaken; [|apply string_shows; lia]. cbn [is_msg]. tauto.
  - cbn [strings elem_to_string document bytes_to_string].
    pose proof (list_shows (fun i => let* b := bytes_get_const (VB len data) i in Done (VS b)) (scalar_to_string fmt UInt32)
      (fun _ => True) (fun x => match x with VS z => DInt z | _ => DObj [] end)
      (map VS (firstn (Z.to_nat len) data)) i name first) as L.
    rewrite map_map in L. cbn beta iota in L.
    replace (zlen (map VS (firstn (Z.to_nat len) data))) with len in L
      by (rewrite <- (zlen_firstn data len) at 1 by lia; unfold zlen; now rewrite map_length).
    eapply shows_conv; [| |intros st'; reflexivity|apply L].
    + cbn [is_msg]. tauto.
    + split; [auto|]. intros _. apply Forall_forall. auto.
    + lia.
    + intros m x Hx. rewrite nth_error_map in Hx. destruct (nth_error (firstn _ _) m) as [b|] eqn:Eb; [|discriminate].
      injection Hx as <-. apply nth_firstn_zlen in Eb; [|lia]. destruct Eb as [Eb _].
      rewrite (bytes_get_nth len data m b) by (auto; lia). reflexivity.
    + intros j Hj. apply Forall_map. apply all_Forall in Hby. apply Forall_forall. intros b Hb fst'.
      eapply (scalar_shows UInt32); [lia|]. cbn [scalar_range].
      assert (In b data) as Hin by (rewrite <- (firstn_skipn (Z.to_nat len) data); apply in_or_app; auto).
      eapply Forall_forall in Hby; [|exact Hin]. unfold is_byte in Hby. lia.
Qed.

(** *** Fields *)
Definition tsf (fs : list fdesc) := map (fun '(num, k, t) => (num, k, elem_to_string fmt nm t)) fs.
Definition tso (os : list odesc) := map (map (fun '(num, t) => (num, elem_to_string fmt nm t))) os.
Definition docf (path : list Z) (fs : list fdesc) :=
  map (fun '(num, k, t) => (num, k, document fmt nm t (path ++ [num]))) fs.
Definition doco (path : list Z) (os : list odesc) :=
  map (map (fun '(num, t) => (num, document fmt nm t (path ++ [num])))) os.
Definition slot_text (j : Z) := option_map (fun '(n, d) => layout d j (Some n)) : option (list Z * doc) -> option (list Z).
Definition name_at (path : list Z) (num : Z) : list Z := nm (path ++ [num]).

Lemma fields_shows path j : 0 <= j < 2 ^ 32 -> forall fs vs first,
  Forall (fun f : fdesc => elem_ok (snd f)) fs ->
  all (fun '(_, k, t) => desc_ok t /\ match k with KRep max => capacity_ok max | _ => True end) fs ->
  all2 (fun '(_, k, t) => wt_field k (wt t)) fs vs ->
  shows (j <> 0) (all2 (fun '(_, k, t) => strings_field k (strings terminated t)) fs vs)
    (fun st => fields_to_string nm path j (tsf fs) first vs st)
    (separate first (map (slot_text j) (field_slots (name_at path) (docf path fs) vs))).
Proof.
  intros Hj. induction fs as [|[[num k] t] fs IH]; intros vs first He Hd Hw; destruct vs as [|v vs]; try contradiction.
  - cbn. apply shows_nil.
  - inversion He as [|? ? He1 He2]; subst. cbn [snd] in He1. destruct Hd as [[Hd1 Hk] Hd2]. destruct Hw as [Hw1 Hw2].
    specialize (IH vs false He2 Hd2 Hw2). unfold tsf, docf. cbn [map fields_to_string field_slots]. fold (tsf fs) (docf path fs).
    assert (H1 : shows (j <> 0) (strings_field k (strings terminated t) v)
      (fun st => match k with
        | KPlain | KOpt => elem_to_string fmt nm t (path ++ [num]) v st j (Some (nm (path ++ [num]))) first
        | KRep _ => rep_to_string (elem_to_string fmt nm t (path ++ [num])) v st j (Some (nm (path ++ [num]))) first
        | KRecursive => Done st
        end)
      (match field_slot k (name_at path num) (document fmt nm t (path ++ [num])) v with
       | Some (n, d) => comma first ++ layout d j (Some n) | None => [] end)).
    { destruct k as [| |max|]; cbn [strings_field field_slot]; cbn [wt_field] in Hw1.
      - eapply shows_weaken; [|apply He1; auto]. tauto.
      - eapply shows_weaken; [|apply He1; auto]. tauto.
      - destruct v as [| | |len data|]; try contradiction. destruct Hw1 as (Hlen & Hcap & Hall). unfold capacity_ok in Hk.
        cbn [rep_to_string].
        pose proof (list_shows (rep_get_const data) (elem_to_string fmt nm t (path ++ [num])) (strings terminated t)
                   (document fmt nm t (path ++ [num])) (firstn (Z.to_nat len) data) j (Some (nm (path ++ [num]))) first) as L.
        rewrite (zlen_firstn data len) in L by lia.
        eapply shows_conv; [| |intros st; reflexivity|apply L].
        + auto.
        + symmetry. apply all_Forall.
        + lia.
        + intros m x Hx. apply nth_firstn_zlen in Hx; [|lia]. destruct Hx as [Hx _]. apply rep_get_nth; [lia|exact Hx].
        + intros j' Hj'. apply Forall_forall. intros x Hx first'.
          eapply shows_weaken; [|apply He1; auto]; [tauto|].
          apply all_Forall in Hall. eapply Forall_forall in Hall; [exact Hall|].
          rewrite <- (firstn_skipn (Z.to_nat len) data). apply in_or_app. auto.
      - apply shows_nil. }
    eapply shows_conv; [| |intros st; reflexivity|eapply shows_seq; [exact H1|exact IH]].
    + intros c Hl. split; [exact c|]. cbn [map]. unfold slot_text at 2. unfold slot_text at 2 in Hl.
      destruct (field_slot _ _ _ _) as [[n d]|]; cbn [option_map separate]; [|reflexivity]. now rewrite <- app_assoc.
    + reflexivity.
Qed.

Lemma find_printer_lookup {X} (ms : list (Z * X)) id : find_printer ms id = lookup ms id.
Proof. induction ms as [|[n x] ms IH]; cbn [find_printer lookup]; [reflexivity|]. now destruct (n =? id). Qed.

Lemma lookup_Forall (P : ety -> Prop) (ms : odesc) id t : Forall (fun m => P (snd m)) ms -> lookup ms id = Some t -> P t.
Proof.
  induction ms as [|[n x] ms IH]; cbn [lookup]; [discriminate|]. intros H E. inversion H; subst.
  destruct (n =? id); [injection E as <-|]; auto.
Qed.

Lemma lookup_map_num {A B} (f : Z -> A -> B) (ms : list (Z * A)) id :
  lookup (map (fun '(num, t) => (num, f num t)) ms) id
  = match lookup ms id with Some t => Some (f id t) | None => None end.
Proof.
  induction ms as [|[n x] ms IH]; cbn [map lookup]; [reflexivity|].
  destruct (Z.eqb_spec n id) as [->|]; auto.
Qed.

Lemma oneofs_shows path j : 0 <= j < 2 ^ 32 -> forall os ovs first,
  Forall (Forall (fun m : Z * ety => elem_ok (snd m))) os ->
  all (all (fun '(_, t) => desc_ok t)) os ->
  all2 (fun ms => wt_oneof (map (fun '(num, t) => (num, wt t)) ms)) os ovs ->
  shows (j <> 0) (all2 (fun ms => strings_oneof (map (fun '(num, t) => (num, strings terminated t)) ms)) os ovs)
    (fun st => oneofs_to_string nm path j (tso os) first ovs st)
    (separate first (map (slot_text j) (oneof_slots (name_at path) (doco path os) ovs))).
Proof.
  intros Hj. induction os as [|ms os IH]; intros ovs first He Hd Hw; destruct ovs as [|[w v] ovs]; try contradiction.
  - cbn. apply shows_nil.
  - inversion He as [|? ? He1 He2]; subst. destruct Hd as [Hd1 Hd2]. destruct Hw as [Hw1 Hw2].
    specialize (IH ovs false He2 Hd2 Hw2). unfold tso, doco. cbn [map oneofs_to_string oneof_slots]. fold (tso os) (doco path os).
    assert (H1 : shows (j <> 0) (strings_oneof (map (fun '(num, t) => (num, strings terminated t)) ms) (w, v))
      (fun st => match find_printer (map (fun '(num, t) => (num, elem_to_string fmt nm t)) ms) w with
        | Some ts => ts (path ++ [w]) v st j (Some (nm (path ++ [w]))) first
        | None => Done st
        end)
      (match oneof_slot (name_at path) (map (fun '(num, t) => (num, document fmt nm t (path ++ [num]))) ms) (w, v) with
       | Some (n, d) => comma first ++ layout d j (Some n) | None => [] end)).
    { rewrite find_printer_lookup. unfold strings_oneof, oneof_slot, wt_oneof in *. cbn [fst snd] in *.
      rewrite (lookup_map (strings terminated)), (lookup_map (elem_to_string fmt nm)),
        (lookup_map_num (fun num t => document fmt nm t (path ++ [num]))).
      rewrite (lookup_map wt) in Hw1. destruct (lookup ms w) as [t|] eqn:El.
      - eapply shows_weaken; [|eapply (lookup_Forall elem_ok ms w t He1 El); auto].
        + tauto.
        + eapply (lookup_Forall desc_ok ms w t); auto. apply all_Forall in Hd1.
          eapply Forall_impl; [|exact Hd1]. intros [? ?] ?. assumption.
      - apply shows_nil. }
    eapply shows_conv; [| |intros st; reflexivity|eapply shows_seq; [exact H1|exact IH]].
    + intros c Hl. split; [exact c|]. cbn [map]. unfold slot_text at 2. unfold slot_text at 2 in Hl.
      destruct (oneof_slot _ _ _) as [[n d]|]; cbn [option_map separate]; [|reflexivity]. now rewrite <- app_assoc.
    + reflexivity.
Qed.

Lemma separate_app first a b : separate first (a ++ b)
  = separate first a ++ separate (match a with [] => first | _ => false end) b.
Proof.
  revert first. induction a as [|x a IH]; intros first; cbn [app separate]; [reflexivity|].
  assert (E : match a with [] => false | _ => false end = false) by (destruct a; reflexivity).
  destruct x; rewrite IH, E; rewrite <- ?app_assoc; reflexivity.
Qed.

(** A message: everything up to the closing brace, and the closing brace. *)
Definition msg_body (fs : list fdesc) (os : list odesc) (path : list Z) (vs : list value) (ovs : list (Z * value))
    (i : Z) (name : option (list Z)) (first : bool) (st : sstate) : res sstate :=
  let* st1 := put_comma first st in
  let* st2 := puts [msg_start_text i name] st1 in
  let* st3 := fields_to_string nm path (u32 (i + 2)) (tsf fs) true vs st2 in
  oneofs_to_string nm path (u32 (i + 2)) (tso os) (match fs with [] => true | _ => false end) ovs st3.

Lemma msg_split fs os path pres vs ovs st i name first :
  elem_to_string fmt nm (EMsg fs os) path (VM pres vs ovs) st i name first
  = let* st4 := msg_body fs os path vs ovs i name first st in puts [msg_end_text i] st4.
Proof.
  cbn [elem_to_string msg_to_string]. fold (tsf fs) (tso os). unfold msg_body.
  destruct (put_comma first st) as [st1| |]; cbn [bind]; auto.
  rewrite (put_bind (msg_start_text i name) st1 (fun _ st2 =>
    let* st3 := fields_to_string nm path (u32 (i + 2)) (tsf fs) true vs st2 in
    let* st4 := oneofs_to_string nm path (u32 (i + 2)) (tso os) (match tsf fs with [] => true | _ => false end) ovs st3 in
    let* (_, st5) := put (msg_end_text i) st4 in Done st5)).
  destruct (puts _ st1) as [st2| |]; cbn [bind]; auto.
  destruct (fields_to_string _ _ _ _ _ _ st2) as [st3| |]; cbn [bind]; auto.
  replace (match tsf fs with [] => true | _ => false end) with (match fs with [] => true | _ => false end)
    by (destruct fs as [|[[? ?] ?] ?]; reflexivity).
  reflexivity.
Qed.

Definition msg_body_text (path : list Z) (fs : list fdesc) (os : list odesc) (vs : list value) (ovs : list (Z * value))
    (i : Z) (name : option (list Z)) : list Z :=
  indent i ++ key name ++ chars "{" ++ line_end
  ++ separate true (map (slot_text (i + 2)) (field_slots (name_at path) (docf path fs) vs
       ++ oneof_slots (name_at path) (doco path os) ovs)).

Lemma msg_layout path fs os pres vs ovs i name :
  layout (document fmt nm (EMsg fs os) path (VM pres vs ovs)) i name
  = msg_body_text path fs os vs ovs i name ++ line_end ++ indent i ++ chars "}".
Proof. unfold msg_body_text. cbn [document layout]. rewrite <- !app_assoc. reflexivity. Qed.

Lemma msg_body_shows fs os path vs ovs i name first : Forall (fun f : fdesc => elem_ok (snd f)) fs ->
  Forall (Forall (fun m : Z * ety => elem_ok (snd m))) os ->
  desc_ok (EMsg fs os) -> all2 (fun '(_, k, t) => wt_field k (wt t)) fs vs ->
  all2 (fun ms => wt_oneof (map (fun '(num, t) => (num, wt t)) ms)) os ovs -> 0 <= i < 2 ^ 32 ->
  shows True (all2 (fun '(_, k, t) => strings_field k (strings terminated t)) fs vs
              /\ all2 (fun ms => strings_oneof (map (fun '(num, t) => (num, strings terminated t)) ms)) os ovs)
    (msg_body fs os path vs ovs i name first) (comma first ++ msg_body_text path fs os vs ovs i name).
Proof.
  intros Hf Ho (_ & _ & Hd1 & Hd2) Hw1 Hw2 Hi.
  set (j := u32 (i + 2)). assert (Hj : 0 <= j < 2 ^ 32) by (unfold j, u32; lia).
  eapply shows_conv; [| |intros st; unfold msg_body; fold j; reflexivity|
    eapply shows_seq; [apply (shows_comma (j <> 0) first)|eapply shows_seq; [apply (shows_put (j <> 0) (msg_start_text i name))|
    eapply shows_seq; [apply (fields_shows path j Hj fs vs true Hf Hd1 Hw1)|
      apply (oneofs_shows path j Hj os ovs (match fs with [] => true | _ => false end) Ho Hd2 Hw2)]]]].
  - intros _ Hl. unfold msg_body_text in *. rewrite map_app, separate_app in Hl |- *.
    assert (Hlt : i < 2 ^ 31).
    { rewrite !zlen_app', indent_len in Hl by lia.
      repeat match type of Hl with context [zlen ?x] => pose proof (zlen_nonneg x); generalize dependent (zlen x); intros end. lia. }
    assert (Ej : j = i + 2) by (unfold j, u32; apply Z.mod_small; lia).
    split; [lia|]. rewrite Ej. f_equal.
    assert (Ep : (if i =? 0 then [] else padding (s32 i)) = indent i).
    { destruct (Z.eqb_spec i 0) as [->|]; [reflexivity|]. apply padding_indent. lia. }
    unfold msg_start_text. rewrite Ep. unfold key. rewrite <- !app_assoc.
    do 6 f_equal.
    destruct fs as [|[[? ?] ?] fs]; destruct vs as [|v0 vs]; try contradiction; reflexivity.
  - tauto.
Qed.

Lemma msg_end_indent i : 0 <= i < 2 ^ 31 -> msg_end_text i = line_end ++ indent i ++ chars "}".
Proof.
  intros Hi. unfold msg_end_text. destruct (Z.eqb_spec i 0) as [->|]; [reflexivity|]. now rewrite padding_indent by lia.
Qed.

Lemma msg_ok fs os : Forall (fun f : fdesc => elem_ok (snd f)) fs ->
  Forall (Forall (fun m : Z * ety => elem_ok (snd m))) os -> elem_ok (EMsg fs os).
Proof.
  intros Hf Ho path v i name first Hd Hw Hi. destruct v as [| | | |pres vs ovs]; try contradiction.
  destruct Hw as (_ & _ & Hw1 & Hw2). rewrite msg_layout. cbn [strings].
  eapply shows_conv; [| |intros st; apply msg_split|
    eapply shows_seq; [apply (msg_body_shows fs os path vs ovs i name first Hf Ho Hd Hw1 Hw2 Hi)|
                       apply (shows_put True (msg_end_text i))]].
  - intros _ Hl. split; [exact I|]. rewrite msg_end_indent; [now rewrite <- app_assoc|].
    rewrite !zlen_app', indent_len in Hl by lia.
    repeat match type of Hl with context [zlen ?x] => pose proof (zlen_nonneg x); generalize dependent (zlen x); intros end. lia.
  - tauto.
Qed.

Lemma to_string_shows t : elem_ok t.
Proof. induction t using ety_ind'; auto using scalar_ok, bytes_ok, msg_ok. Qed.

(** The whole message: pieces, the last of which is the closing brace. *)
Lemma to_string_pieces fs os v : desc_ok (EMsg fs os) -> wt (EMsg fs os) v ->
  (strings terminated (EMsg fs os) v /\ exists ps,
     (forall st, to_string fmt nm (EMsg fs os) v st = puts (ps ++ [line_end ++ chars "}"]) st)
     /\ (zlen (layout (document fmt nm (EMsg fs os) [] v) 0 None) < 2 ^ 31 ->
         concat ps ++ line_end ++ chars "}" = layout (document fmt nm (EMsg fs os) [] v) 0 None))
  \/ (~ strings terminated (EMsg fs os) v /\ forall st, to_string fmt nm (EMsg fs os) v st = UB).
Proof.
  intros Hd Hw. destruct v as [| | | |pres vs ovs]; try contradiction. pose proof Hw as (_ & _ & Hw1 & Hw2).
  assert (Hf : Forall (fun f : fdesc => elem_ok (snd f)) fs) by (apply Forall_forall; intros; apply to_string_shows).
  assert (Ho : Forall (Forall (fun m : Z * ety => elem_ok (snd m))) os)
    by (apply Forall_forall; intros; apply Forall_forall; intros; apply to_string_shows).
  destruct (msg_body_shows fs os [] vs ovs 0 None true Hf Ho Hd Hw1 Hw2 ltac:(lia)) as [(Ht & ps & Hp & Hc)|(Ht & Hu)];
    [left|right]; (split; [exact Ht|]).
  - exists ps. rewrite msg_layout. split.
    + intros st. unfold to_string. rewrite msg_split, Hp, puts_app. reflexivity.
    + intros Hl. rewrite Hc; auto. rewrite zlen_app' in Hl. cbn [comma app].
      pose proof (zlen_nonneg (line_end ++ indent 0 ++ chars "}")). lia.
  - intros st. unfold to_string. rewrite msg_split, Hu. reflexivity.
Qed.
End Proofs.
