(** * EnumProofs: the text of an enum is read by C++ as the enum of the .proto. *)
From Coq Require Import String.
From Verif Require Import Base Schema Printf Generator GenMembers SpecGenerator SpecMembers GenEnum SpecEnum GenOrder GenSort GenReg GenRender GenOnce GenTypes ReorderProofs.
From Verif Require SpecToString ToStringProps.
From Coq Require Import List Permutation Sorted ZifyBool ZifyNat Lia.

Definition word (w : text) : Prop := w <> [] /\ Forall (fun c => letter c || digit c = true) w.

Lemma run_word w : Forall (fun c => letter c || digit c = true) w -> forall run s, tokens_after run (w ++ s) = tokens_after (run ++ w) s.
Proof.
  induction 1 as [|c w Hc Hw IH]; intros run s; [rewrite app_nil_r; reflexivity|].
  cbn [app tokens_after]. rewrite Hc, IH, <- app_assoc. reflexivity.
Qed.
Lemma run_ended run c s : letter c || digit c = false -> tokens_after run (c :: s) = ended run (tokens_after [] (c :: s)).
Proof.
  intros Hc. cbn [tokens_after]. rewrite Hc. cbn [ended]. destruct (white c); [reflexivity|].
  destruct (single c && _); [reflexivity|]. destruct run; reflexivity.
Qed.
Lemma word_token w c s : word w -> letter c || digit c = false -> tokens_after [] (w ++ c :: s) = option_map (cons w) (tokens_after [] (c :: s)).
Proof.
  intros [Hne Hw] Hc. rewrite (run_word w Hw). cbn [app]. rewrite (run_ended w) by exact Hc. destruct w; [contradiction|reflexivity].
Qed.
Lemma white_token w s : Forall (fun c => white c = true) w -> tokens_after [] (w ++ s) = tokens_after [] s.
Proof.
  induction 1 as [|c w Hc Hw IH]; [reflexivity|]. cbn [app tokens_after]. rewrite Hc.
  assert (E : letter c || digit c = false) by (unfold white, letter, digit in *; lia). rewrite E. exact IH.
Qed.

Definition number (z : Z) : list text := if z <? 0 then [chars "-"; natural (- z)] else [natural z].
Fixpoint value_tokens (values : list (text * Z)) : list text :=
  match values with
  | [] => [chars "}"; chars ";"]
  | (n, z) :: vs => n :: chars "=" :: number z ++ match vs with [] => [] | _ => [chars ","] end ++ value_tokens vs
  end.

Lemma natural_word n : 0 <= n -> word (natural n).
Proof.
  intros Hn. destruct (ToStringProps.natural_ok n Hn) as [(Hd & Hne & _) _]. split; [exact Hne|]. eapply Forall_impl; [|exact Hd].
  intros c Hc. unfold SpecToString.digit in Hc. unfold digit. lia.
Qed.
Lemma natural_literal n : 0 <= n -> literal (natural n) = Some n.
Proof.
  intros Hn. destruct (ToStringProps.natural_ok n Hn) as [(Hd & Hne & H0) Hv]. unfold literal. destruct (natural n) as [|c t] eqn:E; [contradiction|].
  assert (Hf : forallb digit (c :: t) = true).
  { apply forallb_forall. rewrite Forall_forall in Hd. intros x Hx. specialize (Hd x Hx). unfold SpecToString.digit in Hd. unfold digit. lia. }
  rewrite Hf. cbn [negb]. assert (Hz : (c =? 48) && negb (match t with [] => true | _ => false end) = false).
  { destruct (Z.eqb_spec c 48) as [->|]; [|reflexivity]. cbn [hd] in H0. specialize (H0 eq_refl). injection H0 as ->. reflexivity. }
  rewrite Hz. f_equal. exact Hv.
Qed.

Lemma number_tokens z c s : letter c || digit c = false -> c <> 45 ->
  tokens_after [] (decimal z ++ c :: s) = option_map (app (number z)) (tokens_after [] (c :: s)).
Proof.
  intros Hc Hc'. unfold decimal, number. destruct (z <? 0) eqn:Ez.
  - destruct (natural_word (- z)) as [Hne Hw]; [lia|]. cbn [app]. change (tokens_after [] (45 :: natural (- z) ++ c :: s)) with
      (if negb (match natural (- z) ++ c :: s with d :: _ => 45 =? d | [] => false end)
       then option_map (cons [45]) (tokens_after [] (natural (- z) ++ c :: s)) else None).
    assert (E : match natural (- z) ++ c :: s with d :: _ => 45 =? d | [] => false end = false).
    { revert Hne Hw. destruct (natural (- z)) as [|d t]; intros Hne Hw; [contradiction|]. cbn [app]. apply Forall_inv in Hw. unfold letter, digit in Hw. lia. }
    rewrite E. cbn [negb]. rewrite word_token; [|split; assumption|exact Hc]. destruct (tokens_after [] (c :: s)); reflexivity.
  - rewrite word_token; [|apply natural_word; lia|exact Hc]. destruct (tokens_after [] (c :: s)); reflexivity.
Qed.

Lemma proto_word n : proto_name n -> word n.
Proof.
  intros (c & r & -> & Hc & Hr). split; [discriminate|]. constructor; [rewrite Hc; reflexivity|]. eapply Forall_impl; [|exact Hr].
  intros d [->| ->]; [reflexivity|apply orb_true_r].
Qed.

Lemma lines_tokens pad ending values : Forall (fun c => white c = true) pad -> tokens_after [] ending = Some [chars "}"; chars ";"] ->
  Forall word (map fst values) -> tokens_after [] (enum_lines pad values ++ ending) = Some (value_tokens values).
Proof.
  intros Hp He. induction values as [|[n z] vs IH]; intros Hw; [exact He|]. cbn [map fst] in Hw. apply Forall_cons_iff in Hw. destruct Hw as [Hn Hw].
  specialize (IH Hw). cbn [enum_lines value_tokens]. rewrite <- !app_assoc. rewrite white_token by exact Hp.
  change (chars " = ") with [32; 61; 32]. cbn [app]. rewrite word_token by (exact Hn || reflexivity).
  cbn [tokens_after]. change (letter 32 || digit 32) with false. change (white 32) with true. cbn [ended].
  change (letter 61 || digit 61) with false. change (white 61) with false. change (single 61 && negb (61 =? 32)) with true. cbn [ended option_map].
  destruct vs as [|v vs].
  - cbn [app]. change (newline ++ enum_lines pad [] ++ ending) with (10 :: enum_lines pad [] ++ ending).
    rewrite number_tokens by (reflexivity || lia). cbn [tokens_after]. change (letter 10 || digit 10) with false. change (white 10) with true. cbn [ended].
    rewrite IH. cbn [option_map value_tokens]. reflexivity.
  - change (chars "," ++ newline ++ enum_lines pad (v :: vs) ++ ending) with (44 :: 10 :: enum_lines pad (v :: vs) ++ ending).
    rewrite number_tokens by (reflexivity || lia). remember (enum_lines pad (v :: vs)) as ls. remember (value_tokens (v :: vs)) as vt.
    cbn [tokens_after]. change (letter 44 || digit 44) with false. change (white 44) with false. change (single 44 && negb (44 =? 10)) with true.
    change (letter 10 || digit 10) with false. change (white 10) with true. cbn [ended]. rewrite IH. cbn [option_map]. reflexivity.
Qed.

Lemma is_spec s t : is s t = true <-> t = chars s.
Proof. apply text_eqb_eq. Qed.
Lemma is_false s t : t <> chars s -> is s t = false.
Proof. intros H. destruct (is s t) eqn:E; [|reflexivity]. apply is_spec in E. contradiction. Qed.

Lemma word_not_brace n : word n -> is "}" n = false.
Proof. intros [_ H]. apply is_false. intros ->. apply Forall_inv in H. discriminate. Qed.
Lemma natural_not_minus n : 0 <= n -> is "-" (natural n) = false.
Proof. intros Hn. apply is_false. intros E. destruct (natural_word n Hn) as [_ H]. rewrite E in H. apply Forall_inv in H. discriminate. Qed.

Lemma values_read values : Forall word (map fst values) -> enumerators (value_tokens values) = Some values.
Proof.
  induction values as [|[n z] vs IH]; intros Hw; [reflexivity|]. cbn [map fst] in Hw. apply Forall_cons_iff in Hw. destruct Hw as [Hn Hw].
  specialize (IH Hw). cbn [value_tokens]. unfold number. destruct (z <? 0) eqn:Ez; cbn [app].
  - destruct vs as [|v vs].
    + cbn [app value_tokens enumerators]. rewrite word_not_brace by exact Hn. change (is "=" (chars "=")) with true. change (is "-" (chars "-")) with true. cbn [negb].
      rewrite natural_literal by lia. change (is "," (chars "}")) with false. cbn [is]. change (is "}" (chars "}") && is ";" (chars ";")) with true.
      cbn iota. rewrite Z.opp_involutive. reflexivity.
    + cbn [app]. remember (value_tokens (v :: vs)) as vt. cbn [enumerators]. rewrite word_not_brace by exact Hn.
      change (is "=" (chars "=")) with true. change (is "-" (chars "-")) with true. cbn [negb].
      rewrite natural_literal by lia. change (is "," (chars ",")) with true. cbn iota. rewrite IH. cbn [option_map]. rewrite Z.opp_involutive. reflexivity.
  - destruct vs as [|v vs].
    + cbn [app value_tokens enumerators]. rewrite word_not_brace by exact Hn. change (is "=" (chars "=")) with true. cbn [negb].
      rewrite natural_not_minus, natural_literal by lia. change (is "," (chars "}")) with false. change (is "}" (chars "}") && is ";" (chars ";")) with true. reflexivity.
    + cbn [app]. remember (value_tokens (v :: vs)) as vt. cbn [enumerators]. rewrite word_not_brace by exact Hn.
      change (is "=" (chars "=")) with true. cbn [negb].
      rewrite natural_not_minus, natural_literal by lia. change (is "," (chars ",")) with true. cbn iota. rewrite IH. reflexivity.
Qed.

Lemma indented_head k s : match indented k s with d :: _ => Some d | [] => None end = match s with d :: _ => Some d | [] => None end.
Proof. destruct s; reflexivity. Qed.
Lemma indented_tokens k s : forall run, tokens_after run (indented k s) = tokens_after run s.
Proof.
  induction s as [|c s IH]; intros run; [reflexivity|]. cbn [indented]. destruct (c =? 10) eqn:Ec.
  - apply Z.eqb_eq in Ec. subst c. cbn [tokens_after]. change (letter 10 || digit 10) with false. change (white 10) with true. cbn iota. f_equal.
    rewrite white_token; [apply IH|]. destruct s as [|d s]; [constructor|]. destruct (d =? 10); [constructor|].
    apply Forall_forall. intros x Hx. apply repeat_spec in Hx. subst x. reflexivity.
  - cbn [app tokens_after]. rewrite !IH. destruct (letter c || digit c); [reflexivity|]. destruct (white c); [reflexivity|].
    pose proof (indented_head k s) as E. destruct (indented k s), s; try discriminate; [reflexivity|]. injection E as ->. reflexivity.
Qed.
Lemma nested_tokens depth s : tokens (render_nested depth s) = tokens s.
Proof. unfold tokens. induction depth as [|depth IH]; [reflexivity|]. cbn [render_nested]. rewrite indented_tokens. exact IH. Qed.

Lemma white1 c s : white c = true -> tokens_after [] (c :: s) = tokens_after [] s.
Proof. intros Hc. apply (white_token [c] s). constructor; [exact Hc|constructor]. Qed.
Definition wordb (w : text) : bool := match w with [] => false | _ => forallb (fun c => letter c || digit c) w end.
Lemma wordb_ok w : wordb w = true -> word w.
Proof. intros H. destruct w; [discriminate|]. split; [discriminate|]. apply Forall_forall. apply forallb_forall. exact H. Qed.

Lemma colon s : tokens_after [] (58 :: 32 :: s) = option_map (cons (chars ":")) (tokens_after [] s).
Proof. reflexivity. Qed.
Lemma brace s : tokens_after [] (123 :: 10 :: s) = option_map (cons (chars "{")) (tokens_after [] s).
Proof. reflexivity. Qed.

Lemma header_tokens name pad rest : word name -> Forall (fun c => white c = true) pad ->
  tokens (chars "enum class " ++ name ++ chars " : uint32_t" ++ newline ++ pad ++ chars "{" ++ newline ++ rest)
  = option_map (app (map chars ["enum"; "class"]%string ++ [name] ++ map chars [":"; "uint32_t"; "{"]%string)) (tokens rest).
Proof.
  intros Hn Hp. unfold tokens. cbn [map].
  assert (E1 : chars "enum class " = chars "enum" ++ [32] ++ chars "class" ++ [32]) by reflexivity.
  assert (E2 : chars " : uint32_t" = [32; 58; 32] ++ chars "uint32_t") by reflexivity. rewrite E1, E2. clear E1 E2.
  assert (W1 : word (chars "enum")) by (apply wordb_ok; reflexivity).
  assert (W2 : word (chars "class")) by (apply wordb_ok; reflexivity).
  assert (W3 : word (chars "uint32_t")) by (apply wordb_ok; reflexivity).
  revert W1 W2 W3. generalize (chars "enum") (chars "class") (chars "uint32_t"). intros w1 w2 w3 W1 W2 W3.
  unfold newline. change (chars "{" ++ [10] ++ rest) with (123 :: 10 :: rest). rewrite <- !app_assoc. cbn [app].
  rewrite (word_token w1) by (exact W1 || reflexivity). rewrite white1 by reflexivity.
  rewrite (word_token w2) by (exact W2 || reflexivity). rewrite white1 by reflexivity.
  rewrite (word_token name) by (exact Hn || reflexivity). rewrite white1 by reflexivity. rewrite colon.
  rewrite (word_token w3) by (exact W3 || reflexivity). rewrite white1 by reflexivity.
  rewrite white_token by exact Hp. rewrite brace. destruct (tokens_after [] rest); reflexivity.
Qed.

Lemma is_refl s : is s (chars s) = true. Proof. apply is_spec. reflexivity. Qed.
Lemma definition_of s name values : word name -> Forall word (map fst values) ->
  tokens s = Some ((map chars ["enum"; "class"]%string ++ [name] ++ map chars [":"; "uint32_t"; "{"]%string) ++ value_tokens values) ->
  enum_definition s = Some (name, values).
Proof.
  intros Hn Hw H. unfold enum_definition. rewrite H. cbn [map app]. rewrite !is_refl. cbn [andb]. rewrite values_read by exact Hw. reflexivity.
Qed.

Lemma pad_white n : Forall (fun c => white c = true) (repeat 32 n).
Proof. apply Forall_forall. intros x Hx. apply repeat_spec in Hx. subst x. reflexivity. Qed.

Theorem enum_text depth name values : enum_legal name values -> enum_definition (render_nested depth (render_enum name values)) = Some (name, values).
Proof.
  intros (Hn & Hv & _ & _). assert (Hw : Forall word (map fst values)) by (eapply Forall_impl; [|exact Hv]; exact proto_word).
  apply definition_of; [apply proto_word; exact Hn|exact Hw|]. rewrite nested_tokens. unfold render_enum.
  etransitivity; [apply (header_tokens name [] _ (proto_word _ Hn)); constructor|]. unfold tokens.
  rewrite (lines_tokens (chars "  ") (chars "};")) by (apply (pad_white 2) || reflexivity || exact Hw). reflexivity.
Qed.

Theorem enum_accept name values : enum_legal name values ->
  (enum_accepted name values <-> ~ In name keywords /\ forall n z, In (n, z) values -> ~ In n keywords /\ 0 <= z).
Proof.
  intros (Hn & Hv & Hd & Hr). unfold enum_accepted. split.
  - intros ((_ & Hk) & Hc & _ & Hz). split; [exact Hk|]. intros n z Hi. rewrite Forall_forall in Hc, Hz. split; [|apply (Hz _ Hi)].
    apply (Hc n). apply in_map_iff. exists (n, z). split; [reflexivity|exact Hi].
  - intros [Hk Hi]. split; [split; [exact Hn|exact Hk]|]. rewrite Forall_forall in Hv, Hr |- *. split; [|split; [exact Hd|]].
    + intros n Hx. split; [apply Hv; exact Hx|]. apply in_map_iff in Hx. destruct Hx as ([n' z] & <- & Hx). apply (Hi _ _ Hx).
    + apply Forall_forall. intros [n z] Hx. specialize (Hr _ Hx). destruct (Hi _ _ Hx) as [_ H0]. cbn in *. lia.
Qed.

(** ** FieldNumber *)
Lemma upper_proto n : proto_name n -> proto_name (upper n).
Proof.
  intros (c & r & -> & Hc & Hr). exists (upper_char c), (upper r). split; [reflexivity|]. split.
  - unfold upper_char, letter in *. destruct ((97 <=? c) && (c <=? 122)) eqn:E; lia.
  - unfold upper. apply Forall_map. eapply Forall_impl; [|exact Hr]. intros d Hd. unfold upper_char, letter, digit in *.
    destruct ((97 <=? d) && (d <=? 122)) eqn:E; lia.
Qed.

Lemma id_leb_total x y : id_leb x y = false -> id_leb y x = true.
Proof.
  unfold id_leb. destruct x as [a n], y as [b k]. cbn [fst snd]. destruct (text_leb_total n k) as [E|E]; rewrite E; destruct (Z.ltb_spec a b), (Z.ltb_spec b a), (Z.eqb_spec a b), (Z.eqb_spec b a); cbn; try lia; auto; congruence.
Qed.
Lemma id_leb_trans x y z : id_leb x y = true -> id_leb y z = true -> id_leb x z = true.
Proof.
  unfold id_leb. destruct x as [a n], y as [b k], z as [c j]. cbn [fst snd]. rewrite !orb_true_iff, !andb_true_iff.
  intros [H1|[H1 H1']] [H2|[H2 H2']]; try (left; lia). right. split; [lia|]. eapply text_leb_trans; eassumption.
Qed.

Lemma sorted_numbers l : GenOrder.ordered id_leb l -> NoDup (map fst l) -> StronglySorted Z.lt (map fst l).
Proof.
  induction l as [|x l IH]; [constructor|]. cbn [GenOrder.ordered map]. intros [H1 H2] Hn. apply NoDup_cons_iff in Hn. destruct Hn as [Hx Hn].
  constructor; [apply IH; assumption|]. apply Forall_map. rewrite Forall_forall in H1 |- *. intros y Hy. specialize (H1 y Hy).
  assert (fst x <> fst y) by (intros E; apply Hx; rewrite E; apply in_map; exact Hy). unfold id_leb in H1. lia.
Qed.

Lemma NoDup_map_names {A} (fs : list field) (g : field -> A) : NoDup (map f_name fs) ->
  (forall f f', In f fs -> In f' fs -> g f = g f' -> f_name f = f_name f') -> NoDup (map g fs).
Proof.
  induction fs as [|f fs IH]; cbn; [constructor|]. intros Hn Hg. apply NoDup_cons_iff in Hn. destruct Hn as [Hx Hn]. constructor.
  - intros H. apply in_map_iff in H. destruct H as (f' & E & Hf'). apply Hx. rewrite (Hg f f'); [apply in_map; exact Hf'|left; reflexivity|right; exact Hf'|symmetry; exact E].
  - apply IH; [exact Hn|]. intros a b Ha Hb. apply Hg; right; assumption.
Qed.
Lemma numbers_eq (l : list pfield) g g' : NoDup (map pf_number l) -> In g l -> In g' l -> pf_number g = pf_number g' -> g = g'.
Proof.
  intros Hnd Hg Hg' En. induction l as [|x l IH]; [destruct Hg|].
  cbn in Hnd. apply NoDup_cons_iff in Hnd. destruct Hnd as [Hx Hl]. destruct Hg as [->|Hg], Hg' as [->|Hg']; [reflexivity| | |auto].
  - exfalso. apply Hx. rewrite En. apply in_map. exact Hg'.
  - exfalso. apply Hx. rewrite <- En. apply in_map. exact Hg.
Qed.

Theorem field_number_text request s m depth : legal request -> message request s m ->
  (forall g, In g (m_fields m) -> proto_name (pf_name g)) -> NoDup (map pf_number (m_fields m)) ->
  exists l, enum_definition (render_nested depth (render_field_number (define (removelast s) m))) = Some (chars "FieldNumber", (chars "NOT_SET", 0) :: l)
  /\ StronglySorted Z.lt (map snd l)
  /\ forall n z, In (n, z) l <-> exists g, In g (m_fields m) /\ n = upper (pf_name g) /\ z = pf_number g.
Proof.
  intros Hl Hm Hp Hnum. pose proof (msg_fields_names _ _ _ Hl Hm) as Hn. pose proof (legal_message _ _ _ Hl Hm) as Hlm.
  pose proof (message_scope _ _ _ Hm) as Es.
  assert (HI : forall f, In f (msg_fields s m) <-> exists g, In g (m_fields m) /\ f = factory s g).
  { intros f. pose proof (msg_fields_In (removelast s) m f (legal_oneofs m Hlm)) as H. rewrite Es in H. exact H. }
  set (l := map (fun '(z, n) => (n, z)) (field_ids (define (removelast s) m))). exists l.
  assert (Ei : field_ids (define (removelast s) m) = Generator.sort id_leb (map (fun f => (f_number f, upper (f_name f))) (msg_fields s m))).
  { unfold msg_fields. destruct m. reflexivity. }
  assert (HIn : forall n z, In (n, z) l <-> exists g, In g (m_fields m) /\ n = upper (pf_name g) /\ z = pf_number g).
  { intros n z. unfold l. rewrite Ei, in_map_iff. split.
    - intros ([z' n'] & E & H). injection E as -> ->. apply sort_In in H. apply in_map_iff in H. destruct H as (f & E & H). apply HI in H. destruct H as (g & Hg & ->).
      injection E as <- <-. exists g. split; [exact Hg|]. split; reflexivity.
    - intros (g & Hg & -> & ->). exists (pf_number g, upper (pf_name g)). split; [reflexivity|]. apply sort_In. apply in_map_iff.
      exists (factory s g). split; [reflexivity|]. apply HI. exists g. split; [exact Hg|reflexivity]. }
  split; [|split; [|exact HIn]].
  - assert (Hw : Forall word (map fst l)).
    { apply Forall_map. apply Forall_forall. intros [n z] Hx. apply HIn in Hx.
      destruct Hx as (g & Hg & -> & _). apply proto_word, upper_proto, Hp, Hg. }
    unfold enum_definition. rewrite nested_tokens. unfold render_field_number. fold l.
    pose proof (header_tokens (chars "FieldNumber") (chars "    ") (chars "      NOT_SET = 0," ++ newline ++ enum_lines (chars "      ") l ++ chars "    };")) as H.
    specialize (H (wordb_ok (chars "FieldNumber") eq_refl) (pad_white 4)).
    assert (E0 : forall r, tokens_after [] (chars "      NOT_SET = 0," ++ newline ++ r) = option_map (app [chars "NOT_SET"; chars "="; chars "0"; chars ","]) (tokens_after [] r)).
    { intros r. change (chars "      NOT_SET = 0," ++ newline ++ r) with (repeat 32 6 ++ chars "NOT_SET" ++ 32 :: 61 :: 32 :: chars "0" ++ 44 :: 10 :: r).
      rewrite white_token by apply pad_white. rewrite word_token by (reflexivity || (apply wordb_ok; reflexivity)).
      change (tokens_after [] (32 :: 61 :: 32 :: chars "0" ++ 44 :: 10 :: r)) with (option_map (cons (chars "=")) (tokens_after [] (chars "0" ++ 44 :: 10 :: r))).
      rewrite word_token by (reflexivity || (apply wordb_ok; reflexivity)).
      change (tokens_after [] (44 :: 10 :: r)) with (option_map (cons (chars ",")) (tokens_after [] r)). destruct (tokens_after [] r); reflexivity. }
    unfold tokens in H. rewrite E0 in H.
    rewrite (lines_tokens (chars "      ") (chars "    };")) in H by (apply (pad_white 6) || reflexivity || exact Hw). cbn [option_map app map] in H.
    change (tokens (chars "enum class FieldNumber : uint32_t" ++ newline ++ chars "    {" ++ newline ++ chars "      NOT_SET = 0," ++ newline ++ enum_lines (chars "      ") l ++ chars "    };"))
      with (tokens_after [] (chars "enum class " ++ chars "FieldNumber" ++ chars " : uint32_t" ++ newline ++ chars "    " ++ chars "{" ++ newline ++ chars "      NOT_SET = 0," ++ newline ++ enum_lines (chars "      ") l ++ chars "    };")).
    rewrite H. rewrite !is_refl. cbn [andb]. remember (value_tokens l) as vt. cbn [enumerators].
    change (is "}" (chars "NOT_SET")) with false. rewrite !is_refl. cbn [negb]. change (is "-" (chars "0")) with false. change (literal (chars "0")) with (Some 0).
    cbn iota. subst vt. rewrite values_read by exact Hw. reflexivity.
  - unfold l. rewrite map_map. erewrite map_ext with (g := fst); [|intros [? ?]; reflexivity]. rewrite Ei.
    apply sorted_numbers; [apply GenOrder.sort_ordered; [apply id_leb_total|apply id_leb_trans]|].
    eapply Permutation_NoDup; [apply Permutation_map, GenOrder.sort_perm|]. rewrite map_map. cbn [fst].
    apply NoDup_map_names; [exact Hn|]. intros f f' Hf Hf' E. apply HI in Hf, Hf'. destruct Hf as (g & Hg & ->), Hf' as (g' & Hg' & ->). cbn in E |- *.
    rewrite (numbers_eq _ _ _ Hnum Hg Hg' E). reflexivity.
Qed.

Lemma upper_no_keyword n : ~ In (upper n) keywords.
Proof.
  intros H. assert (F : forallb (fun k => existsb (fun c => (97 <=? c) && (c <=? 122)) k) keywords = true) by (vm_compute; reflexivity).
  rewrite forallb_forall in F. specialize (F _ H). apply existsb_exists in F. destruct F as (c & Hc & Hl). unfold upper in Hc. apply in_map_iff in Hc.
  destruct Hc as (d & <- & _). unfold upper_char in Hl. destruct ((97 <=? d) && (d <=? 122)) eqn:E; lia.
Qed.

(** FieldNumber is accepted exactly if the names differ in capital letters. *)
Theorem field_number_accept fields l : (forall g, In g fields -> proto_name (pf_name g) /\ 0 < pf_number g < 2 ^ 29) ->
  (forall n z, In (n, z) l <-> exists g : pfield, In g fields /\ n = upper (pf_name g) /\ z = pf_number g) ->
  (enum_accepted (chars "FieldNumber") ((chars "NOT_SET", 0) :: l) <-> NoDup (chars "NOT_SET" :: map fst l)).
Proof.
  intros Hf Hi. split; [intros (_ & _ & H & _); exact H|]. intros Hn.
  assert (Hp : proto_name (chars "FieldNumber") /\ proto_name (chars "NOT_SET")).
  { split; (eexists; eexists; split; [reflexivity|]); (split; [reflexivity|]); repeat (constructor; [left; reflexivity|]); constructor. }
  split; [split; [apply Hp|]|].
  - intros H. assert (F : existsb (text_eqb (chars "FieldNumber")) keywords = true) by (apply existsb_exists; exists (chars "FieldNumber"); split; [exact H|apply text_eqb_refl]).
    vm_compute in F. discriminate.
  - split; [|split; [exact Hn|]].
    + cbn [map fst]. constructor; [split; [apply Hp|exact (upper_no_keyword (chars "NOT_SET"))]|]. apply Forall_map, Forall_forall. intros [n z] Hx. apply Hi in Hx.
      destruct Hx as (g & Hg & -> & _). cbn [fst]. split; [apply upper_proto, Hf, Hg|apply upper_no_keyword].
    + constructor; [cbn; lia|]. apply Forall_forall. intros [n z] Hx. apply Hi in Hx. destruct Hx as (g & Hg & _ & ->). cbn. specialize (Hf g Hg). lia.
Qed.

Theorem enum_negative depth name values n z : enum_legal name values -> In (n, z) values -> z < 0 ->
  exists name' values', enum_definition (render_nested depth (render_enum name values)) = Some (name', values') /\ ~ enum_accepted name' values'.
Proof.
  intros Hl Hi Hz. exists name, values. split; [apply enum_text; exact Hl|]. intros H. apply (enum_accept name values Hl) in H.
  destruct H as [_ H]. destruct (H n z Hi). lia.
Qed.
