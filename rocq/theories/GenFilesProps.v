(** * GenFilesProps: proofs about the header files. *)
From Coq Require Import String.
From Verif Require Import Base Schema Printf Generator GenMembers GenFiles SpecFiles GenOrder.
From Coq Require Import List ZArith Bool ZifyBool Lia.

(** ** Names of files *)

Lemma rfind_notin c t : ~ In c t -> rfind c t = None.
Proof.
  induction t as [|x t IH]; intros H; [reflexivity|]. cbn [rfind]. rewrite IH by (intros K; apply H; right; exact K).
  destruct (x =? c) eqn:E; [|reflexivity]. exfalso. apply H. left. lia.
Qed.
Lemma rfind_app_none c s t : ~ In c t -> rfind c (s ++ t) = rfind c s.
Proof. intros H. induction s as [|x s IH]; cbn [app rfind]; [apply rfind_notin; exact H|]. rewrite IH. reflexivity. Qed.
Lemma rfind_app_found c s t : ~ In c t -> rfind c (s ++ c :: t) = Some (length s).
Proof.
  intros H. induction s as [|x s IH]; cbn [app rfind length].
  - rewrite rfind_notin by exact H. rewrite Z.eqb_refl. reflexivity.
  - rewrite IH. reflexivity.
Qed.
Lemma rfind_lt c t i : rfind c t = Some i -> (i < length t)%nat.
Proof.
  revert i. induction t as [|x t IH]; intros i H; [discriminate|]. cbn [rfind] in H. cbn [length]. destruct (rfind c t) as [j|].
  - injection H as <-. specialize (IH j eq_refl). lia.
  - destruct (x =? c); [|discriminate]. injection H as <-. lia.
Qed.

Definition stem_ok (s : text) : Prop :=
  (exists c r, s = c :: r /\ letter c = true /\ Forall (fun x => letter x = true \/ digit x = true \/ x = 47) r) /\ last s 0 <> 47.
Lemma plain_stem n : well_named n -> exists s, n = s ++ chars ".proto" /\ stem_ok s.
Proof.
  intros (c & r & -> & Hc & Hr & Hl). exists (c :: r). split; [reflexivity|]. split; [|exact Hl]. exists c, r. auto.
Qed.
Lemma stem_chars s : stem_ok s -> Forall (fun x => letter x = true \/ digit x = true \/ x = 47) s.
Proof. intros [(c & r & -> & Hc & Hr) _]. constructor; auto. Qed.
Lemma stem_no_dot s : stem_ok s -> ~ In 46 s.
Proof.
  intros H K. apply stem_chars in H. rewrite Forall_forall in H. destruct (H 46 K) as [E|[E|E]]; discriminate.
Qed.
Lemma stem_last s : stem_ok s -> exists s' x, s = s' ++ [x] /\ x <> 47 /\ x <> 46.
Proof.
  intros H. assert (s <> []) by (destruct H as [(c & r & -> & _) _]; discriminate). destruct (exists_last H0) as (s' & x & E). exists s', x.
  split; [exact E|]. split; [|intros ->; apply (stem_no_dot s H); rewrite E; apply in_or_app; right; left; reflexivity].
  intros ->. destruct H as [_ H]. rewrite E, last_last in H. congruence.
Qed.

Lemma suffix_no_slash : ~ In 47 (chars ".proto"). Proof. vm_compute. intuition discriminate. Qed.
Lemma header_no_slash : ~ In 47 (chars ".h"). Proof. vm_compute. intuition discriminate. Qed.
Lemma splitext_stem s : stem_ok s -> splitext (s ++ chars ".proto") = s.
Proof.
  intros H. destruct (stem_last s H) as (s' & x & E & Hx & Hd). unfold splitext.
  replace (rfind 46 (s ++ chars ".proto")) with (Some (length s)).
  2:{ symmetry. change (chars ".proto") with (46 :: chars "proto"). apply rfind_app_found. vm_compute. intuition discriminate. }
  rewrite rfind_app_none by apply suffix_no_slash. rewrite firstn_app, firstn_all, Nat.sub_diag, firstn_O, app_nil_r.
  replace (rfind 47 s) with (rfind 47 s') by (rewrite E; symmetry; apply rfind_app_none; cbn [In]; intuition).
  set (start := match rfind 47 s' with None => O | Some sep => S sep end).
  assert (Hs : (start <= length s')%nat) by (unfold start; destruct (rfind 47 s') as [i|] eqn:Ei; [apply rfind_lt in Ei; lia|lia]).
  replace (Nat.ltb start (S (length s))) with true by (symmetry; apply Nat.ltb_lt; rewrite E, app_length; lia).
  replace (existsb _ _) with true; [reflexivity|]. symmetry. apply existsb_exists. exists x. split; [|lia].
  rewrite E, skipn_app. apply in_or_app. right. replace (start - length s')%nat with O by lia. left. reflexivity.
Qed.

Lemma header_name_stem s : stem_ok s -> header_name (s ++ chars ".proto") = s ++ chars ".h".
Proof. intros H. unfold header_name. rewrite splitext_stem by exact H. reflexivity. Qed.
Lemma header_name_inj a b : well_named a -> well_named b -> header_name a = header_name b -> a = b.
Proof.
  intros Ha Hb. destruct (plain_stem a Ha) as (s & -> & Hs), (plain_stem b Hb) as (t & -> & Ht). rewrite !header_name_stem by assumption.
  intros E. apply app_inv_tail in E. subst. reflexivity.
Qed.
Lemma folder_rfind t : folder t = match rfind 47 t with Some i => firstn (S i) t | None => [] end.
Proof.
  assert (N : forall t, existsb (Z.eqb 47) t = match rfind 47 t with Some _ => true | None => false end).
  { intros u. induction u as [|x u IH]; [reflexivity|]. cbn [existsb rfind]. rewrite IH. destruct (rfind 47 u); [apply orb_true_r|]. rewrite orb_false_r, Z.eqb_sym. destruct (x =? 47); reflexivity. }
  induction t as [|x t IH]; [reflexivity|]. cbn [folder]. rewrite N, IH. cbn [rfind]. destruct (rfind 47 t) as [i|]; [reflexivity|]. destruct (x =? 47); reflexivity.
Qed.
Lemma folder_header n : well_named n -> folder (header_name n) = folder n.
Proof.
  intros H. destruct (plain_stem n H) as (s & -> & Hs). rewrite header_name_stem by exact Hs. rewrite !folder_rfind.
  rewrite !rfind_app_none by (apply suffix_no_slash || apply header_no_slash). destruct (rfind 47 s) as [i|] eqn:E; [|reflexivity].
  apply rfind_lt in E. rewrite !firstn_app. replace (S i - length s)%nat with O by lia. rewrite !firstn_O. reflexivity.
Qed.
Lemma folder_nonempty_stem s : stem_ok s -> folder (s ++ chars ".proto") <> [] -> exists c r, folder (s ++ chars ".proto") = c :: r /\ letter c = true /\ Forall (fun x => letter x = true \/ digit x = true \/ x = 47) r.
Proof.
  intros H Hf. rewrite folder_rfind in *. rewrite rfind_app_none in * by apply suffix_no_slash. destruct (rfind 47 s) as [i|] eqn:E; [|congruence].
  apply rfind_lt in E. rewrite firstn_app in *. replace (S i - length s)%nat with O in * by lia. rewrite firstn_O, app_nil_r in *.
  destruct H as [(c & r & -> & Hc & Hr) _]. exists c, (firstn i r). split; [reflexivity|]. split; [exact Hc|]. rewrite Forall_forall in *.
  intros x Hx. apply Hr. rewrite <- (firstn_skipn i r). apply in_or_app. left. exact Hx.
Qed.

(** ** Guards *)

Lemma upper_char_letter c : letter c = true -> letter (upper_char c) = true.
Proof. unfold letter, upper_char. destruct ((97 <=? c) && (c <=? 122)) eqn:E; lia. Qed.
Lemma upper_char_digit c : digit c = true -> digit (upper_char c) = true.
Proof. unfold digit, upper_char. destruct ((97 <=? c) && (c <=? 122)) eqn:E; lia. Qed.
Lemma slash_char c : letter c = true \/ digit c = true \/ c = 47 ->
  letter (upper_char (if c =? 47 then 95 else c)) || digit (upper_char (if c =? 47 then 95 else c)) = true.
Proof.
  intros H. destruct (c =? 47) eqn:E; [reflexivity|]. apply orb_true_iff. destruct H as [H|[H|H]]; [left; apply upper_char_letter; exact H|right; apply upper_char_digit; exact H|lia].
Qed.
Lemma identifier_prefix_app s t : Forall (fun c => letter c || digit c = true) s -> identifier_prefix (s ++ t) = s ++ identifier_prefix t.
Proof. induction 1 as [|c s Hc Hs IH]; [reflexivity|]. cbn [app identifier_prefix]. rewrite Hc, IH. reflexivity. Qed.
Lemma macro_guard n : well_named n -> macro_name (guard n) = Some (guard n).
Proof.
  intros H. destruct (plain_stem n H) as (s & -> & Hs). unfold guard. rewrite splitext_stem by exact Hs.
  assert (Hall : Forall (fun c => letter c || digit c = true) (upper (slashes s))).
  { unfold upper, slashes. rewrite map_map. apply Forall_map. eapply Forall_impl; [|apply stem_chars; exact Hs]. intros c Hc. apply slash_char. exact Hc. }
  destruct Hs as [(c & r & -> & Hc & Hr) _]. unfold macro_name. cbn [slashes upper map app].
  assert (Hc' : letter (upper_char (if c =? 47 then 95 else c)) = true) by (destruct (c =? 47); [reflexivity|apply upper_char_letter; exact Hc]).
  rewrite Hc'. f_equal. change (upper_char (if c =? 47 then 95 else c) :: map upper_char (map (fun c0 => if c0 =? 47 then 95 else c0) r) ++ chars "_H") with (upper (slashes (c :: r)) ++ chars "_H").
  rewrite identifier_prefix_app by exact Hall. f_equal.
Qed.
Lemma same_upper a b : same_but_case a b <-> upper (slashes a) = upper (slashes b).
Proof.
  assert (H : forall t, map (fun c => if c =? 47 then 95 else c) (SpecMembers.capitals t) = upper (slashes t)).
  { intros t. unfold SpecMembers.capitals, upper, slashes. rewrite !map_map. apply map_ext. intros c. unfold SpecMembers.capital, upper_char.
    destruct (c =? 47) eqn:E; [apply Z.eqb_eq in E; subst c; reflexivity|]. destruct ((97 <=? c) && (c <=? 122)) eqn:L; [|rewrite E; reflexivity].
    destruct (c - 32 =? 47) eqn:K; [lia|reflexivity]. }
  unfold same_but_case. cbv zeta. rewrite !H. reflexivity.
Qed.
Lemma guard_inj a b : well_named a -> well_named b -> guard a = guard b -> upper (slashes a) = upper (slashes b).
Proof.
  intros Ha Hb. destruct (plain_stem a Ha) as (s & -> & Hs), (plain_stem b Hb) as (t & -> & Ht). unfold guard. rewrite !splitext_stem by assumption.
  intros E. apply app_inv_tail in E. unfold slashes, upper in *. rewrite !map_app, E. reflexivity.
Qed.

(** ** The two special names *)

Lemma starts_spec sub t : starts sub t = true <-> exists after, t = sub ++ after.
Proof.
  revert t. induction sub as [|x sub IH]; intros t; cbn [starts]; [split; [intros _; exists t|]; reflexivity|]. destruct t as [|y t].
  - split; [discriminate|]. intros (a & E). discriminate.
  - rewrite andb_true_iff, IH, Z.eqb_eq. split; [intros (-> & a & ->); exists a; reflexivity|]. intros (a & E). cbn [app] in E. injection E as -> ->. split; [reflexivity|]. exists a. reflexivity.
Qed.
Lemma contains_spec sub t : contains sub t = true <-> in_text sub t.
Proof.
  unfold in_text. induction t as [|c t IH]; cbn [contains]; rewrite orb_true_iff, starts_spec.
  - split; [intros [(a & E)|E]; [exists [], a; exact E|discriminate]|]. intros (b & a & E). symmetry in E. apply app_eq_nil in E. destruct E as [_ E]. left. exists a. symmetry. exact E.
  - rewrite IH. split.
    + intros [(a & E)|(b & a & ->)]; [exists [], a; exact E|exists (c :: b), a; reflexivity].
    + intros ([|x b] & a & E); cbn [app] in E; [left; exists a; exact E|]. injection E as _ E. right. exists b, a. exact E.
Qed.
Lemma contains_not sub t : contains sub t = false <-> ~ in_text sub t.
Proof. rewrite <- contains_spec. destruct (contains sub t); intuition congruence. Qed.
Lemma plain_contains n : plain_name n -> contains options_name n = false /\ contains descriptor_name n = false /\ well_named n.
Proof. intros (A & B & C). rewrite !contains_not. auto. Qed.

(** ** The headers of a request with plain names *)

Lemma definitions_plain request : Forall plain_name (names request) -> definitions request = request.
Proof.
  intros Hp. rewrite Forall_forall in Hp.
  assert (Hf : forall f, In f request -> contains options_name (s_name f) = false /\ contains descriptor_name (s_name f) = false).
  { intros f Hf. destruct (plain_contains (s_name f)) as (A & B & _); [apply Hp, in_map; exact Hf|]. auto. }
  clear Hp. assert (E1 : filter (fun f => contains descriptor_name (s_name f)) request = []).
  { induction request as [|f l IH]; [reflexivity|]. cbn [filter]. rewrite (proj2 (Hf f (or_introl eq_refl))). apply IH. intros g Hg. apply Hf. right. exact Hg. }
  unfold definitions. rewrite E1. cbn [rev]. clear E1. induction request as [|f l IH]; [reflexivity|]. cbn [filter].
  destruct (Hf f (or_introl eq_refl)) as [-> ->]. cbn [negb andb]. f_equal. apply IH. intros g Hg. apply Hf. right. exact Hg.
Qed.
Section Request.
  Variable request : list srcfile.
  Hypothesis Hord : ordered_request request.
  Hypothesis Hplain : Forall plain_name (names request).
  Hypothesis Hguards : distinct_guards request.
  Hypothesis Hnamesake : no_namesake request.

  Let special n : In n (names request) -> contains options_name n = false /\ contains descriptor_name n = false.
  Proof. rewrite Forall_forall in Hplain. intros H. apply Hplain, plain_contains in H. destruct H as (A & B & _). auto. Qed.
  Let plain n : In n (names request) -> well_named n.
  Proof. rewrite Forall_forall in Hplain. intros H. apply Hplain in H. apply H. Qed.

  Lemma definitions_all : definitions request = request.
  Proof. apply definitions_plain. exact Hplain. Qed.
  Lemma file_unique f g : In f request -> In g request -> s_name f = s_name g -> f = g.
  Proof.
    destruct Hord as [Hn _]. unfold names in Hn. clear - Hn. induction request as [|x l IH]; [intros []|]. cbn [map] in Hn. inversion Hn as [|? ? Hx Hl]; subst.
    intros [<-|Hf] [<-|Hg] E; [reflexivity| | |auto]; exfalso; apply Hx; [rewrite E|rewrite <- E]; apply in_map; assumption.
  Qed.
  Lemma by_name_some n h : by_name (header_files request) n = Some h -> exists f, In f request /\ h = header_of f /\ n = header_name (s_name f).
  Proof.
    unfold by_name. intros H. apply find_some in H. destruct H as [Hi E]. apply text_eqb_eq in E. unfold header_files in Hi. rewrite definitions_all in Hi.
    apply in_map_iff in Hi. destruct Hi as (f & <- & Hf). exists f. auto.
  Qed.
  Lemma by_name_file f : In f request -> by_name (header_files request) (header_name (s_name f)) = Some (header_of f).
  Proof.
    intros Hf. destruct (by_name (header_files request) (header_name (s_name f))) as [h|] eqn:E.
    - destruct (by_name_some _ _ E) as (g & Hg & -> & En). apply header_name_inj in En; [|apply plain, in_map; exact Hf|apply plain, in_map; exact Hg].
      rewrite (file_unique f g Hf Hg En). reflexivity.
    - exfalso. unfold by_name in E. assert (Hi : In (header_of f) (header_files request)) by (unfold header_files; rewrite definitions_all; apply in_map; exact Hf).
      apply (find_none _ _ E) in Hi. cbn [header_of h_name] in Hi. rewrite (proj2 (text_eqb_eq _ _) eq_refl) in Hi. discriminate.
  Qed.
  Lemma import_in f n : In f request -> In n (s_imports f) -> In n (names request).
  Proof.
    intros Hf Hn. apply in_split in Hf. destruct Hf as (l1 & l2 & E). destruct Hord as [_ H]. specialize (H l1 f l2 E n Hn). rewrite E. unfold names. rewrite map_app.
    apply in_or_app. left. exact H.
  Qed.
  Lemma includes_all f : In f request -> includes f = map header_name (s_imports f).
  Proof.
    intros Hf. unfold includes. f_equal. assert (H : forall n, In n (s_imports f) -> contains options_name n = false).
    { intros n Hn. apply (special n). eapply import_in; eassumption. }
    induction (s_imports f) as [|n l IH]; [reflexivity|]. cbn [filter]. rewrite (H n (or_introl eq_refl)). cbn [negb]. f_equal. apply IH. intros m Hm. apply H. right. exact Hm.
  Qed.
  Lemma resolve_import f g : In f request -> In g request -> In (s_name g) (s_imports f) ->
    resolve (header_files request) (header_name (s_name f)) (header_name (s_name g)) = Some (header_of g).
  Proof.
    intros Hf Hg Hi. unfold resolve. rewrite folder_header by (apply plain, in_map; exact Hf).
    destruct (by_name (header_files request) (folder (s_name f) ++ header_name (s_name g))) as [h|] eqn:E; [|apply by_name_file; exact Hg].
    destruct (folder (s_name f)) as [|c r] eqn:Ef.
    - cbn [app] in E. rewrite by_name_file in E by exact Hg. symmetry. exact E.
    - exfalso. destruct (by_name_some _ _ E) as (k & Hk & -> & En). apply (Hnamesake f (s_name g) Hf Hi); [rewrite Ef; discriminate|]. rewrite Ef.
      destruct (plain_stem (s_name g)) as (sg & Eg & Hsg); [apply plain, in_map; exact Hg|].
      destruct (plain_stem (s_name k)) as (sk & Ek & Hsk); [apply plain, in_map; exact Hk|].
      rewrite Eg, Ek, !header_name_stem, app_assoc in En by assumption. apply app_inv_tail in En.
      rewrite Eg, app_assoc, En, <- Ek. apply in_map. exact Hk.
  Qed.

  (** [open]: files being read; [read]: files that have been read. *)
  Definition related (defined open read : list text) : Prop :=
    forall n, In n (names request) -> (In (guard n) defined <-> In n open \/ In n read).

  Lemma guard_eq a b : In a (names request) -> In b (names request) -> guard a = guard b -> a = b.
  Proof. intros Ha Hb E. apply Hguards; [exact Ha|exact Hb|]. apply same_upper, guard_inj; auto. Qed.
  Lemma related_open defined open read n : In n (names request) -> related defined open read -> related (guard n :: defined) (n :: open) read.
  Proof.
    intros Hn H m Hm. cbn [In]. specialize (H m Hm). split.
    - intros [E|E]; [left; left; apply guard_eq; assumption|tauto].
    - intros [[->|K]|K]; [left; reflexivity|tauto|tauto].
  Qed.
  Lemma related_close defined open read n : related defined (n :: open) read -> related defined open (read ++ [n]).
  Proof. intros H m Hm. specialize (H m Hm). cbn [In] in H. rewrite in_app_iff. cbn [In]. tauto. Qed.

  Lemma mem_guard n defined open read : In n (names request) -> related defined open read -> mem (guard n) defined = true <-> In n open \/ In n read.
  Proof.
    intros Hn H. rewrite <- (H n Hn). unfold mem. rewrite existsb_exists. split; [intros (x & Hx & E); apply text_eqb_eq in E; subst; exact Hx|].
    intros K. exists (guard n). split; [exact K|apply text_eqb_eq; reflexivity].
  Qed.

  Lemma imports_before_app l n : imports_before request l -> ~ In n l -> (forall f, In f request -> s_name f = n -> incl (s_imports f) l) -> imports_before request (l ++ [n]).
  Proof.
    intros H Hn Hf l1 f l2 Hfr E. destruct l2 as [|y l2] using rev_ind.
    - apply app_inj_tail in E. destruct E as [-> E]. apply Hf; [exact Hfr|symmetry; exact E].
    - clear IHl2. rewrite app_comm_cons, app_assoc in E. apply app_inj_tail in E. destruct E as [E _]. eapply H; eassumption.
  Qed.

  Lemma read_file depth : forall l1 f l2 defined open read, request = l1 ++ f :: l2 -> (length l1 < depth)%nat ->
    related defined open read -> (forall n, In n open -> ~ In n (names (l1 ++ [f]))) -> incl read (names request) ->
    NoDup read -> imports_before request read ->
    exists defined' more, read_header depth (header_files request) (header_of f) (defined, map header_name read) = Some (defined', map header_name (read ++ more))
      /\ related defined' open (read ++ more) /\ NoDup (read ++ more) /\ imports_before request (read ++ more) /\ In (s_name f) (read ++ more)
      /\ incl more (names (l1 ++ [f])) /\ Forall (needed request [s_name f]) more.
  Proof.
    induction depth as [|depth IH]; intros l1 f l2 defined open read E Hd Hrel Hopen Hread Hnd Hib; [lia|].
    assert (Hf : In f request) by (rewrite E; apply in_or_app; right; left; reflexivity).
    assert (Hfn : In (s_name f) (names request)) by (apply in_map; exact Hf).
    cbn [read_header header_of h_guard h_name h_includes fst snd]. rewrite macro_guard by (apply plain; exact Hfn).
    fold (mem (guard (s_name f)) defined). destruct (mem (guard (s_name f)) defined) eqn:Em.
    - apply (mem_guard _ _ open read Hfn Hrel) in Em. destruct Em as [Em|Em].
      + exfalso. apply (Hopen _ Em). unfold names. rewrite map_app. apply in_or_app. right. left. reflexivity.
      + exists defined, []. rewrite app_nil_r. split; [reflexivity|]. split; [exact Hrel|]. split; [exact Hnd|]. split; [exact Hib|]. split; [exact Em|]. split; [intros x []|constructor].
    - assert (Hnr : ~ In (s_name f) read) by (intros K; assert (mem (guard (s_name f)) defined = true) by (apply (mem_guard _ _ open read Hfn Hrel); right; exact K); congruence).
      assert (Hfl : ~ In (s_name f) (names l1)).
      { destruct Hord as [Hn _]. rewrite E in Hn. unfold names in Hn. rewrite map_app in Hn. cbn [map] in Hn. apply NoDup_remove_2 in Hn. intros K. apply Hn. apply in_or_app. left. exact K. }
      rewrite includes_all by exact Hf.
      match goal with |- context [(fix read_all (ns : list text) (st : state) {struct ns} : option state := @?body read_all ns st)] =>
        set (rd := fix read_all (ns : list text) (st : state) {struct ns} : option state := body read_all ns st) end.
      assert (Hall : forall ns, incl ns (s_imports f) -> forall defined read, related defined (s_name f :: open) read -> incl read (names request) -> NoDup read -> imports_before request read ->
        exists defined' more, rd (map header_name ns) (defined, map header_name read) = Some (defined', map header_name (read ++ more))
          /\ related defined' (s_name f :: open) (read ++ more) /\ NoDup (read ++ more) /\ imports_before request (read ++ more) /\ incl ns (read ++ more)
          /\ incl more (names l1) /\ Forall (needed request [s_name f]) more).
      { clear defined read Hrel Hread Hnd Hib Em Hnr. induction ns as [|n ns IHns]; intros Hns defined read Hrel Hread Hnd Hib.
        - exists defined, []. cbn [map]. rewrite app_nil_r. split; [reflexivity|]. split; [exact Hrel|]. split; [exact Hnd|]. split; [exact Hib|]. split; [intros x []|]. split; [intros x []|constructor].
        - assert (Hn : In n (names l1)) by (destruct Hord as [_ Ho]; apply (Ho l1 f l2 E); apply Hns; left; reflexivity).
          unfold names in Hn. apply in_map_iff in Hn. destruct Hn as (g & Eg & Hg). assert (Hgr : In g request) by (rewrite E; apply in_or_app; left; exact Hg).
          pose proof (in_split _ _ Hg) as (k1 & k2 & Ek). unfold rd. cbn [map]. fold rd.
          replace (resolve (header_files request) (header_name (s_name f)) (header_name n)) with (Some (header_of g))
            by (rewrite <- Eg; symmetry; apply resolve_import; [exact Hf|exact Hgr|rewrite Eg; apply Hns; left; reflexivity]).
          destruct (IH k1 g (k2 ++ f :: l2) defined (s_name f :: open) read) as (d1 & m1 & R1 & Rel1 & Nd1 & Ib1 & In1 & Inc1 & Nee1).
          + rewrite E, Ek, <- app_assoc. reflexivity.
          + rewrite Ek, app_length in Hd. cbn [length] in Hd. lia.
          + exact Hrel.
          + assert (Hsub : incl (names (k1 ++ [g])) (names l1)).
            { rewrite Ek. unfold names. rewrite !map_app. cbn [map]. intros x Hx. rewrite in_app_iff in *. destruct Hx as [Hx|[Hx|[]]]; [left; exact Hx|right; left; exact Hx]. }
            intros x [<-|Hx] K; [apply Hfl; apply Hsub; exact K|]. apply (Hopen x Hx). unfold names. rewrite map_app. apply in_or_app. left. apply Hsub. exact K.
          + exact Hread.
          + exact Hnd.
          + exact Hib.
          + rewrite R1. destruct (IHns (fun x Hx => Hns x (or_intror Hx)) d1 (read ++ m1) Rel1) as (d2 & m2 & R2 & Rel2 & Nd2 & Ib2 & In2 & Inc2 & Nee2).
            * intros x Hx. apply in_app_or in Hx. destruct Hx as [Hx|Hx]; [apply Hread; exact Hx|]. apply Inc1 in Hx. unfold names in *. rewrite E, Ek, !map_app in *. cbn [map] in *.
              rewrite !in_app_iff in *. cbn [In] in *. tauto.
            * exact Nd1.
            * exact Ib1.
            * exists d2, (m1 ++ m2). rewrite app_assoc. split; [exact R2|]. split; [exact Rel2|]. split; [exact Nd2|]. split; [exact Ib2|]. split; [|split].
              -- intros x [<-|Hx]; [|apply In2; exact Hx]. apply in_or_app. left. rewrite <- Eg. exact In1.
              -- intros x Hx. apply in_app_or in Hx. destruct Hx as [Hx|Hx]; [|apply Inc2; exact Hx]. apply Inc1 in Hx. unfold names in *. rewrite Ek, !map_app in *. cbn [map] in *.
                 rewrite !in_app_iff in *. cbn [In] in *. tauto.
              -- apply Forall_app. split; [|exact Nee2]. eapply Forall_impl; [|exact Nee1]. intros x Hx. clear - Hx Hf Hns Eg.
                 assert (Hgf : needed request [s_name f] (s_name g)) by (eapply needed_import; [exact Hf|apply needed_self; left; reflexivity|rewrite Eg; apply Hns; left; reflexivity]).
                 induction Hx as [y [<-|[]]|h y Hh Hy IHy Hi]; [exact Hgf|eapply needed_import; [exact Hh|exact IHy|exact Hi]]. }
      destruct (Hall (s_imports f) (fun x Hx => Hx) (guard (s_name f) :: defined) read) as (d1 & m1 & R1 & Rel1 & Nd1 & Ib1 & In1 & Inc1 & Nee1);
        [apply related_open; assumption|exact Hread|exact Hnd|exact Hib|].
      rewrite R1. exists d1, (m1 ++ [s_name f]). rewrite app_assoc.
      assert (Hnot : ~ In (s_name f) (read ++ m1)) by (intros K; apply in_app_or in K; destruct K as [K|K]; [exact (Hnr K)|apply Hfl; apply Inc1; exact K]).
      split; [rewrite (map_app _ (read ++ m1)); reflexivity|]. split; [apply related_close; exact Rel1|]. split.
      { apply NoDup_app; [exact Nd1|constructor; [intros []|constructor]|]. intros x Hx [<-|[]]. exact (Hnot Hx). }
      split.
      { apply imports_before_app; [exact Ib1|exact Hnot|]. intros g Hg Eg. rewrite (file_unique g f Hg Hf Eg). exact In1. }
      split; [apply in_or_app; right; left; reflexivity|]. split.
      { intros x Hx. unfold names. rewrite map_app. apply in_app_or in Hx. apply in_or_app. destruct Hx as [Hx|Hx]; [left; apply Inc1; exact Hx|right; exact Hx]. }
      apply Forall_app. split; [exact Nee1|]. constructor; [|constructor]. apply needed_self. left. reflexivity.
  Qed.

  Lemma needed_mono ns ns' n : incl ns ns' -> needed request ns n -> needed request ns' n.
  Proof. intros Hi H. induction H as [n H|f n Hf _ IH H]; [apply needed_self; apply Hi; exact H|eapply needed_import; eassumption]. Qed.

  Lemma read_all_files depth : (length request <= depth)%nat -> forall ns defined read, incl ns (names request) ->
    related defined [] read -> incl read (names request) -> NoDup read -> imports_before request read ->
    exists defined' more, read_includes depth (header_files request) (map header_name ns) (defined, map header_name read) = Some (defined', map header_name (read ++ more))
      /\ NoDup (read ++ more) /\ imports_before request (read ++ more) /\ incl ns (read ++ more) /\ Forall (needed request ns) more.
  Proof.
    intros Hd ns. induction ns as [|n ns IH]; intros defined read Hns Hrel Hread Hnd Hib.
    - exists defined, []. rewrite app_nil_r. split; [reflexivity|]. split; [exact Hnd|]. split; [exact Hib|]. split; [intros x []|constructor].
    - cbn [map read_includes]. assert (Hn : In n (names request)) by (apply Hns; left; reflexivity). unfold names in Hn. apply in_map_iff in Hn. destruct Hn as (f & <- & Hf).
      rewrite by_name_file by exact Hf. pose proof (in_split _ _ Hf) as (l1 & l2 & E).
      destruct (read_file depth l1 f l2 defined [] read E) as (d1 & m1 & R1 & Rel1 & Nd1 & Ib1 & In1 & Inc1 & Nee1); [rewrite E, app_length in Hd; cbn [length] in Hd; lia|exact Hrel|intros x []|exact Hread|exact Hnd|exact Hib|].
      rewrite R1. destruct (IH d1 (read ++ m1) (fun x Hx => Hns x (or_intror Hx)) Rel1) as (d2 & m2 & R2 & Nd2 & Ib2 & In2 & Nee2).
      + intros x Hx. apply in_app_or in Hx. destruct Hx as [Hx|Hx]; [apply Hread; exact Hx|]. apply Inc1 in Hx. unfold names in *. rewrite E, !map_app in *. cbn [map] in *. rewrite !in_app_iff in *. cbn [In] in *. tauto.
      + exact Nd1.
      + exact Ib1.
      + exists d2, (m1 ++ m2). rewrite app_assoc. split; [exact R2|]. split; [exact Nd2|]. split; [exact Ib2|]. split.
        * intros x [<-|Hx]; [apply in_or_app; left; exact In1|apply In2; exact Hx].
        * apply Forall_app. split; [eapply Forall_impl; [|exact Nee1]|eapply Forall_impl; [|exact Nee2]]; intros x; apply needed_mono; intros y Hy; [destruct Hy as [<-|[]]; left; reflexivity|right; exact Hy].
  Qed.

  Theorem compile_files depth ns : (length request <= depth)%nat -> incl ns (names request) ->
    exists read, compile depth (header_files request) (map header_name ns) = Some (map header_name read)
      /\ NoDup read /\ imports_before request read /\ forall n, In n read <-> needed request ns n.
  Proof.
    intros Hd Hns. destruct (read_all_files depth Hd ns [] [] Hns) as (d & read & R & Nd & Ib & Inc & Nee);
      [intros n _; cbn [In]; tauto|intros x []|constructor|intros l1 f l2 _ E; destruct l1; discriminate|].
    cbn [app] in *. exists read. unfold compile. cbn [map] in R. rewrite R. split; [reflexivity|]. split; [exact Nd|]. split; [exact Ib|].
    intros n. split; [rewrite Forall_forall in Nee; apply Nee|]. intros H. induction H as [n H|f n Hf _ IH H]; [apply Inc; exact H|].
    apply in_split in IH. destruct IH as (l1 & l2 & E). rewrite E. apply in_or_app. left. apply (Ib l1 f l2 Hf E). exact H.
  Qed.
End Request.

(** ** Guards that are the same *)

Lemma NoDup_map_eq {A B} (f : A -> B) l a b : NoDup (map f l) -> In a l -> In b l -> f a = f b -> a = b.
Proof.
  induction l as [|x l IH]; [intros _ []|]. cbn [map]. intros Hn. inversion Hn as [|? ? Hx Hl]; subst.
  intros [<-|Ha] [<-|Hb] E; [reflexivity| | |auto]; exfalso; apply Hx; [rewrite E|rewrite <- E]; apply in_map; assumption.
Qed.
Definition macro (h : hfile) : option text := macro_name (h_guard h).
Lemma read_once depth hs : forall h defined read defined' read', In h hs -> read_header depth hs h (defined, read) = Some (defined', read') ->
  exists more, read' = read ++ map h_name more /\ incl more hs /\ incl defined defined' /\ NoDup (map macro more)
    /\ Forall (fun h => exists g, macro h = Some g /\ In g defined' /\ ~ In g defined) more.
Proof.
  induction depth as [|depth IH]; intros h defined read defined' read' Hh H; [discriminate|]. cbn [read_header fst snd] in H.
  destruct (macro_name (h_guard h)) as [g|] eqn:Eg; [|discriminate]. fold (mem g defined) in H. destruct (mem g defined) eqn:Em.
  - injection H as <- <-. exists []. rewrite app_nil_r. split; [reflexivity|]. split; [intros x []|]. split; [intros x Hx; exact Hx|]. split; constructor.
  - assert (Hg : ~ In g defined) by (intros K; assert (mem g defined = true); [|congruence]; unfold mem; apply existsb_exists; exists g; split; [exact K|apply text_eqb_eq; reflexivity]).
    match type of H with context [(fix read_all (ns : list text) (st : state) {struct ns} : option state := @?body read_all ns st)] =>
      set (rd := fix read_all (ns : list text) (st : state) {struct ns} : option state := body read_all ns st) in H end.
    assert (Hall : forall ns defined read defined' read', rd ns (defined, read) = Some (defined', read') ->
      exists more, read' = read ++ map h_name more /\ incl more hs /\ incl defined defined' /\ NoDup (map macro more)
        /\ Forall (fun h => exists g, macro h = Some g /\ In g defined' /\ ~ In g defined) more).
    { clear - IH. induction ns as [|n ns IHns]; intros defined read defined' read' H.
      - injection H as <- <-. exists []. rewrite app_nil_r. split; [reflexivity|]. split; [intros x []|]. split; [intros x Hx; exact Hx|]. split; constructor.
      - unfold rd in H. fold rd in H. destruct (resolve hs (h_name h) n) as [h'|] eqn:Er; [|discriminate].
        assert (Hh' : In h' hs).
        { unfold resolve, by_name in Er. destruct (find _ hs) as [x|] eqn:Ef; [injection Er as <-; apply find_some in Ef; apply Ef|]. apply find_some in Er. apply Er. }
        destruct (read_header depth hs h' (defined, read)) as [[d1 r1]|] eqn:R1; [|discriminate].
        destruct (IH _ _ _ _ _ Hh' R1) as (m1 & -> & I1 & S1 & N1 & F1). destruct (IHns _ _ _ _ H) as (m2 & -> & I2 & S2 & N2 & F2).
        exists (m1 ++ m2). split; [rewrite map_app, app_assoc; reflexivity|]. split; [intros x Hx; apply in_app_or in Hx; destruct Hx; auto|].
        split; [intros x Hx; apply S2, S1; exact Hx|]. rewrite Forall_forall in F1, F2. split.
        + rewrite map_app. apply NoDup_app; [exact N1|exact N2|]. intros x Hx Hy. apply in_map_iff in Hx, Hy. destruct Hx as (a & <- & Ha), Hy as (b & E & Hb).
          destruct (F1 a Ha) as (ga & Ea & Ia & _), (F2 b Hb) as (gb & Eb & _ & Nb). apply Nb. replace gb with ga by congruence. exact Ia.
        + rewrite Forall_forall. intros x Hx. apply in_app_or in Hx. destruct Hx as [Hx|Hx].
          * destruct (F1 x Hx) as (gx & Ex & Ix & Nx). exists gx. split; [exact Ex|]. split; [apply S2; exact Ix|exact Nx].
          * destruct (F2 x Hx) as (gx & Ex & Ix & Nx). exists gx. split; [exact Ex|]. split; [exact Ix|]. intros K. apply Nx, S1. exact K. }
    destruct (rd (h_includes h) (g :: defined, read)) as [[d1 r1]|] eqn:R1; [|discriminate]. injection H as <- <-.
    destruct (Hall _ _ _ _ _ R1) as (m1 & -> & I1 & S1 & N1 & F1). exists (m1 ++ [h]). rewrite Forall_forall in F1.
    split; [rewrite map_app, app_assoc; reflexivity|]. split; [intros x Hx; apply in_app_or in Hx; destruct Hx as [Hx|[<-|[]]]; auto|].
    split; [intros x Hx; apply S1; right; exact Hx|]. split.
    + rewrite map_app. apply NoDup_app; [exact N1|constructor; [intros []|constructor]|]. intros x Hx [<-|[]]. apply in_map_iff in Hx. destruct Hx as (a & E & Ha).
      destruct (F1 a Ha) as (ga & Ea & _ & Na). apply Na. left. unfold macro in *. congruence.
    + rewrite Forall_forall. intros x Hx. apply in_app_or in Hx. destruct Hx as [Hx|[<-|[]]].
      * destruct (F1 x Hx) as (gx & Ex & Ix & Nx). exists gx. split; [exact Ex|]. split; [exact Ix|]. intros K. apply Nx. right. exact K.
      * exists g. split; [exact Eg|]. split; [apply S1; left; reflexivity|exact Hg].
Qed.
Lemma read_includes_once depth hs ns : forall defined read defined' read', read_includes depth hs ns (defined, read) = Some (defined', read') ->
  exists more, read' = read ++ map h_name more /\ incl more hs /\ incl defined defined' /\ NoDup (map macro more)
    /\ Forall (fun h => exists g, macro h = Some g /\ In g defined' /\ ~ In g defined) more.
Proof.
  induction ns as [|n ns IHns]; intros defined read defined' read' H.
  - injection H as <- <-. exists []. rewrite app_nil_r. split; [reflexivity|]. split; [intros x []|]. split; [intros x Hx; exact Hx|]. split; constructor.
  - cbn [read_includes] in H. destruct (by_name hs n) as [h'|] eqn:Er; [|discriminate]. unfold by_name in Er. apply find_some in Er. destruct Er as [Hh' _].
    destruct (read_header depth hs h' (defined, read)) as [[d1 r1]|] eqn:R1; [|discriminate].
    destruct (read_once _ _ _ _ _ _ _ Hh' R1) as (m1 & -> & I1 & S1 & N1 & F1). destruct (IHns _ _ _ _ H) as (m2 & -> & I2 & S2 & N2 & F2).
    exists (m1 ++ m2). split; [rewrite map_app, app_assoc; reflexivity|]. split; [intros x Hx; apply in_app_or in Hx; destruct Hx; auto|].
    split; [intros x Hx; apply S2, S1; exact Hx|]. rewrite Forall_forall in F1, F2. split.
    + rewrite map_app. apply NoDup_app; [exact N1|exact N2|]. intros x Hx Hy. apply in_map_iff in Hx, Hy. destruct Hx as (a & <- & Ha), Hy as (b & E & Hb).
      destruct (F1 a Ha) as (ga & Ea & Ia & _), (F2 b Hb) as (gb & Eb & _ & Nb). apply Nb. replace gb with ga by congruence. exact Ia.
    + rewrite Forall_forall. intros x Hx. apply in_app_or in Hx. destruct Hx as [Hx|Hx].
      * destruct (F1 x Hx) as (gx & Ex & Ix & Nx). exists gx. split; [exact Ex|]. split; [apply S2; exact Ix|exact Nx].
      * destruct (F2 x Hx) as (gx & Ex & Ix & Nx). exists gx. split; [exact Ex|]. split; [exact Ix|]. intros K. apply Nx, S1. exact K.
Qed.
Lemma compile_read depth hs ns read : compile depth hs ns = Some read -> exists more, read = map h_name more /\ incl more hs /\ NoDup (map macro more).
Proof.
  unfold compile. destruct (read_includes depth hs ns ([], [])) as [[d r]|] eqn:E; [|discriminate]. intros H. injection H as <-.
  destruct (read_includes_once _ _ _ _ _ _ _ E) as (more & -> & I & _ & N & _). exists more. auto.
Qed.
Lemma in_header_files request h : In h (header_files request) ->
  (exists f, In f request /\ h = header_of f /\ contains options_name (s_name f) = false) \/
  (exists f, In f request /\ h = header_of f /\ contains descriptor_name (s_name f) = true).
Proof.
  unfold header_files. intros H. apply in_map_iff in H. destruct H as (f & <- & Hf). unfold definitions in Hf.
  assert (Hk : In f (filter (fun f => negb (contains options_name (s_name f)) && negb (contains descriptor_name (s_name f))) request) ->
    In f request /\ contains options_name (s_name f) = false).
  { intros K. apply filter_In in K. destruct K as [K E]. apply andb_true_iff in E. destruct E as [E _]. apply negb_true_iff in E. auto. }
  destruct (rev (filter (fun f => contains descriptor_name (s_name f)) request)) as [|d l] eqn:Er.
  - left. exists f. destruct (Hk Hf). auto.
  - assert (Hd : In d request /\ contains descriptor_name (s_name d) = true).
    { apply (filter_In (fun f => contains descriptor_name (s_name f))). apply in_rev. rewrite Er. left. reflexivity. }
    destruct (existsb _ _); [destruct Hf as [<-|Hf]|].
    + right. exists d. destruct Hd. auto.
    + left. exists f. destruct (Hk Hf). auto.
    + left. exists f. destruct (Hk Hf). auto.
Qed.
Lemma header_file_of request h : In h (header_files request) -> exists f, In f request /\ h = header_of f.
Proof. intros H. destruct (in_header_files request h H) as [(f & A & B & _)|(f & A & B & _)]; exists f; auto. Qed.

Lemma same_macro depth request ns read a b : compile depth (header_files request) ns = Some read ->
  macro_name (guard a) = macro_name (guard b) -> header_name a <> header_name b -> ~ (In (header_name a) read /\ In (header_name b) read).
Proof.
  intros H E Hne [Ha Hb]. destruct (compile_read _ _ _ _ H) as (more & -> & Hi & Hn). apply in_map_iff in Ha, Hb.
  destruct Ha as (ha & Ea & Ha), Hb as (hb & Eb & Hb). destruct (header_file_of _ _ (Hi _ Ha)) as (fa & _ & ->), (header_file_of _ _ (Hi _ Hb)) as (fb & _ & ->).
  cbn [header_of h_name] in Ea, Eb.
  assert (Em : macro (header_of fa) = macro (header_of fb)).
  { unfold macro. cbn [header_of h_guard]. unfold header_name in Ea, Eb. apply app_inv_tail in Ea, Eb. unfold guard in *. rewrite Ea, Eb. exact E. }
  assert (Heq : header_of fa = header_of fb) by (eapply NoDup_map_eq; eassumption).
  apply Hne. rewrite <- Ea, <- Eb. change (h_name (header_of fa) = h_name (header_of fb)). rewrite Heq. reflexivity.
Qed.

Lemma case_guard depth request ns read a b : compile depth (header_files request) ns = Some read -> well_named a -> well_named b -> a <> b ->
  same_but_case a b -> ~ (In (header_name a) read /\ In (header_name b) read).
Proof.
  intros H Ha Hb Hne E. apply same_upper in E. eapply same_macro; [exact H| |intros K; apply Hne; apply header_name_inj; assumption]. rewrite !macro_guard by assumption. f_equal.
  destruct (plain_stem a Ha) as (s & -> & Hs), (plain_stem b Hb) as (t & -> & Ht). unfold guard. rewrite !splitext_stem by assumption. f_equal.
  unfold slashes, upper in *. rewrite !map_app in E. apply app_inv_tail in E. exact E.
Qed.
Lemma dash_guard depth request ns read p x y : compile depth (header_files request) ns = Some read -> stem_ok p -> x <> y ->
  (forall c, In c (x ++ y) -> c <> 46 /\ c <> 47) ->
  ~ (In (header_name (p ++ chars "-" ++ x ++ chars ".proto")) read /\ In (header_name (p ++ chars "-" ++ y ++ chars ".proto")) read).
Proof.
  intros H Hp Hne Hc.
  assert (Hs : forall z, (forall c, In c z -> c <> 46 /\ c <> 47) -> splitext (p ++ chars "-" ++ z ++ chars ".proto") = p ++ chars "-" ++ z).
  { intros z Hz. rewrite !app_assoc. set (s := (p ++ chars "-") ++ z). unfold splitext.
    replace (rfind 46 (s ++ chars ".proto")) with (Some (length s)).
    2:{ symmetry. change (chars ".proto") with (46 :: chars "proto"). apply rfind_app_found. vm_compute. intuition discriminate. }
    rewrite rfind_app_none by apply suffix_no_slash. rewrite firstn_app, firstn_all, Nat.sub_diag, firstn_O, app_nil_r.
    assert (Er : rfind 47 s = rfind 47 p).
    { unfold s. rewrite rfind_app_none by (intros K; destruct (Hz 47 K) as [_ K']; congruence). apply rfind_app_none. vm_compute. intuition discriminate. }
    rewrite Er. set (start := match rfind 47 p with None => O | Some sep => S sep end).
    assert (Hst : (start <= length p)%nat) by (unfold start; destruct (rfind 47 p) as [i|] eqn:Ei; [apply rfind_lt in Ei; lia|lia]).
    replace (Nat.ltb start (S (length s))) with true by (symmetry; apply Nat.ltb_lt; unfold s; rewrite !app_length; lia).
    replace (existsb _ _) with true; [reflexivity|]. symmetry. apply existsb_exists. exists 45. split; [|lia].
    unfold s. rewrite <- app_assoc, skipn_app. apply in_or_app. right. replace (start - length p)%nat with O by lia. left. reflexivity. }
  assert (Hm : forall z, (forall c, In c z -> c <> 46 /\ c <> 47) -> macro_name (guard (p ++ chars "-" ++ z ++ chars ".proto")) = Some (upper (slashes p))).
  { intros z Hz. unfold guard. rewrite Hs by exact Hz.
    assert (Hall : Forall (fun c => letter c || digit c = true) (upper (slashes p))).
    { unfold upper, slashes. rewrite map_map. apply Forall_map. eapply Forall_impl; [|apply stem_chars; exact Hp]. intros c Hc'. apply slash_char. exact Hc'. }
    pose proof Hp as [(c & r & Ep & Hc' & Hr) _].
    assert (Hl : letter (upper_char (if c =? 47 then 95 else c)) = true) by (destruct (c =? 47); [reflexivity|apply upper_char_letter; exact Hc']).
    replace (upper (slashes (p ++ chars "-" ++ z)) ++ chars "_H") with (upper (slashes p) ++ 45 :: upper (slashes z) ++ chars "_H").
    2:{ unfold upper, slashes. rewrite !map_app. rewrite <- !app_assoc. reflexivity. }
    unfold macro_name. rewrite Ep at 1. cbn [slashes upper map app]. rewrite Hl. f_equal.
    rewrite identifier_prefix_app by exact Hall. cbn [identifier_prefix]. change (letter 45 || digit 45) with false. cbn match. apply app_nil_r. }
  assert (Hx : forall c, In c x -> c <> 46 /\ c <> 47) by (intros c K; apply Hc; apply in_or_app; left; exact K).
  assert (Hy : forall c, In c y -> c <> 46 /\ c <> 47) by (intros c K; apply Hc; apply in_or_app; right; exact K).
  eapply same_macro; [exact H|rewrite !Hm by assumption; reflexivity|]. unfold header_name. rewrite !Hs by assumption. intros E. apply app_inv_tail in E.
  apply app_inv_head in E. apply app_inv_head in E. contradiction.
Qed.

(** ** Files without a header *)

Lemma options_missing depth request ns read f : Forall well_named (names request) -> NoDup (names request) -> In f request ->
  in_text options_name (s_name f) -> ~ in_text descriptor_name (s_name f) ->
  compile depth (header_files request) ns = Some read -> ~ In (header_name (s_name f)) read.
Proof.
  intros Hw Hn Hf Ho Hd H Hin. apply contains_spec in Ho. apply contains_not in Hd. destruct (compile_read _ _ _ _ H) as (more & -> & Hi & _). apply in_map_iff in Hin. destruct Hin as (h & Eh & Hh).
  apply Hi in Hh. rewrite Forall_forall in Hw. destruct (in_header_files _ _ Hh) as [(g & Hg & -> & E)|(g & Hg & -> & E)]; cbn [header_of h_name] in Eh;
    apply header_name_inj in Eh; try (apply Hw, in_map; assumption); rewrite Eh in E; congruence.
Qed.

Lemma missing_include depth hs h n st st' : In n (h_includes h) -> resolve hs (h_name h) n = None -> fst st = [] -> read_header depth hs h st = Some st' -> False.
Proof.
  intros Hi Hr Hs. destruct depth as [|depth]; [discriminate|]. cbn [read_header]. rewrite Hs. destruct (macro_name (h_guard h)) as [g|]; [|discriminate]. cbn [mem existsb].
  match goal with |- context [(fix read_all (ns : list text) (st : state) {struct ns} : option state := @?body read_all ns st)] =>
    set (rd := fix read_all (ns : list text) (st : state) {struct ns} : option state := body read_all ns st) end.
  assert (Hall : forall ns st, In n ns -> rd ns st = None).
  { induction ns as [|m ns IH]; intros s []; unfold rd; fold rd.
    - subst m. rewrite Hr. reflexivity.
    - destruct (resolve hs (h_name h) m); [|reflexivity]. destruct (read_header depth hs h0 s); [|reflexivity]. apply IH. assumption. }
  rewrite Hall by exact Hi. discriminate.
Qed.
Lemma descriptor_missing depth request f n : ordered_request request -> Forall well_named (names request) -> no_namesake request -> In f request ->
  ~ in_text options_name (s_name f) -> ~ in_text descriptor_name (s_name f) ->
  In n (s_imports f) -> In n (names request) -> ~ in_text options_name n -> in_text descriptor_name n ->
  (forall g, In g request -> ~ In descriptor_name (s_imports g)) ->
  compile depth (header_files request) [header_name (s_name f)] = None.
Proof.
  intros Hord Hw Hnn Hf Hfo Hfd Hn Hnr Hno Hnd Hex. apply contains_not in Hfo, Hfd, Hno. apply contains_spec in Hnd. rewrite Forall_forall in Hw.
  assert (Hdef : forall g, In g (definitions request) -> In g request /\ contains descriptor_name (s_name g) = false).
  { intros g Hg. unfold definitions in Hg.
    set (kept := filter (fun f => negb (contains options_name (s_name f)) && negb (contains descriptor_name (s_name f))) request) in Hg.
    assert (Hk : In g kept -> In g request /\ contains descriptor_name (s_name g) = false).
    { intros K. unfold kept in K. apply filter_In in K. destruct K as [K E]. apply andb_true_iff in E. destruct E as [_ E]. apply negb_true_iff in E. auto. }
    assert (Hneed : existsb (fun f => mem descriptor_name (s_imports f)) kept = false).
    { destruct (existsb _ kept) eqn:E; [|reflexivity]. exfalso. apply existsb_exists in E. destruct E as (k & Hk' & E). unfold mem in E. apply existsb_exists in E.
      destruct E as (x & Hx & E). apply text_eqb_eq in E. subst x. unfold kept in Hk'. apply filter_In in Hk'. apply (Hex k); [apply Hk'|exact Hx]. }
    rewrite Hneed in Hg. destruct (rev _); auto. }
  assert (Hname : forall m, In m (names request) -> contains descriptor_name m = true -> by_name (header_files request) (header_name m) = None).
  { intros m Hm Hmd. destruct (by_name (header_files request) (header_name m)) as [h|] eqn:E; [|reflexivity]. exfalso. unfold by_name in E. apply find_some in E. destruct E as [Hh E].
    apply text_eqb_eq in E. unfold header_files in Hh. apply in_map_iff in Hh. destruct Hh as (g & <- & Hg). destruct (Hdef g Hg) as [Hgr Hgd]. cbn [header_of h_name] in E.
    apply header_name_inj in E; [|apply Hw; exact Hm|apply Hw, in_map; exact Hgr]. congruence. }
  assert (Hres : resolve (header_files request) (header_name (s_name f)) (header_name n) = None).
  { unfold resolve. rewrite folder_header by (apply Hw, in_map; exact Hf). rewrite (Hname n Hnr Hnd).
    destruct (by_name (header_files request) (folder (s_name f) ++ header_name n)) as [h|] eqn:E; [|reflexivity]. exfalso.
    destruct (folder (s_name f)) as [|c r] eqn:Ef; [cbn [app] in E; rewrite (Hname n Hnr Hnd) in E; discriminate|].
    unfold by_name in E. apply find_some in E. destruct E as [Hh E]. apply text_eqb_eq in E. unfold header_files in Hh. apply in_map_iff in Hh. destruct Hh as (g & <- & Hg).
    destruct (Hdef g Hg) as [Hgr _]. cbn [header_of h_name] in E. apply (Hnn f n Hf Hn); [rewrite Ef; discriminate|]. rewrite Ef.
    destruct (plain_stem n) as (sn & En & Hsn); [apply Hw; exact Hnr|]. destruct (plain_stem (s_name g)) as (sg & Eg & Hsg); [apply Hw, in_map; exact Hgr|].
    rewrite En, Eg, !header_name_stem, app_assoc in E by assumption. apply app_inv_tail in E. rewrite En, app_assoc, E, <- Eg. apply in_map. exact Hgr. }
  unfold compile. cbn [read_includes]. destruct (by_name (header_files request) (header_name (s_name f))) as [h|] eqn:E; [|reflexivity].
  unfold by_name in E. apply find_some in E. destruct E as [Hh E]. apply text_eqb_eq in E. unfold header_files in Hh. apply in_map_iff in Hh. destruct Hh as (g & <- & Hg).
  destruct (Hdef g Hg) as [Hgr _]. cbn [header_of h_name] in E. apply header_name_inj in E; [|apply Hw, in_map; exact Hf|apply Hw, in_map; exact Hgr].
  destruct (read_header depth (header_files request) (header_of g) ([], [])) as [st|] eqn:R; [|reflexivity]. exfalso.
  assert (Hi : In (header_name n) (h_includes (header_of g))).
  { cbn [header_of h_includes]. unfold includes. apply in_map. apply filter_In. rewrite Hno. split; [|reflexivity].
    destruct Hord as [Hnd' _]. assert (Eg : g = f) by (apply (NoDup_map_eq s_name request); auto). rewrite Eg. exact Hn. }
  rewrite E in Hres. change (header_name (s_name g)) with (h_name (header_of g)) in Hres. revert R. apply missing_include with (n := header_name n); [exact Hi|exact Hres|reflexivity].
Qed.

(** ** A namesake relative to the folder of the file *)

Lemma namesake_resolve request f n : Forall well_named (names request) -> In f request -> In n (names request) ->
  folder (s_name f) <> [] -> In (folder (s_name f) ++ n) (names (definitions request)) ->
  exists h, resolve (header_files request) (header_name (s_name f)) (header_name n) = Some h /\ h_name h = header_name (folder (s_name f) ++ n)
    /\ h_name h <> header_name n.
Proof.
  intros Hw Hf Hn Hfo Hin. rewrite Forall_forall in Hw. unfold resolve. rewrite folder_header by (apply Hw, in_map; exact Hf).
  unfold names in Hin. apply in_map_iff in Hin. destruct Hin as (g & Eg & Hg).
  destruct (plain_stem n) as (sn & En & Hsn); [apply Hw; exact Hn|].
  destruct (plain_stem (s_name f)) as (sf & Ef & Hsf); [apply Hw, in_map; exact Hf|].
  assert (Hst : stem_ok (folder (s_name f) ++ sn)).
  { rewrite Ef in *. destruct (folder_nonempty_stem sf Hsf Hfo) as (c & r & Er & Hc & Hr). rewrite Er. split.
    - exists c, (r ++ sn). split; [reflexivity|]. split; [exact Hc|]. apply Forall_app. split; [exact Hr|]. apply stem_chars. exact Hsn.
    - destruct (stem_last sn Hsn) as (s' & x & -> & Hx & _). rewrite app_assoc, last_last. exact Hx. }
  assert (Ehn : header_name (folder (s_name f) ++ n) = folder (s_name f) ++ header_name n).
  { rewrite En, app_assoc, header_name_stem, header_name_stem by assumption. rewrite app_assoc. reflexivity. }
  assert (Hb : exists h, by_name (header_files request) (folder (s_name f) ++ header_name n) = Some h).
  { destruct (by_name (header_files request) (folder (s_name f) ++ header_name n)) as [h|] eqn:E; [exists h; reflexivity|]. exfalso.
    unfold by_name in E. assert (Hi : In (header_of g) (header_files request)) by (unfold header_files; apply in_map; exact Hg).
    apply (find_none _ _ E) in Hi. cbn [header_of h_name] in Hi. rewrite Eg, Ehn in Hi. rewrite (proj2 (text_eqb_eq _ _) eq_refl) in Hi. discriminate. }
  destruct Hb as (h & Hb). rewrite Hb. exists h. split; [reflexivity|]. unfold by_name in Hb. apply find_some in Hb. destruct Hb as [_ Hb]. apply text_eqb_eq in Hb.
  rewrite Ehn. split; [symmetry; exact Hb|]. rewrite <- Hb. intros K. apply Hfo. destruct (folder (s_name f)) as [|c r]; [reflexivity|]. exfalso.
  assert (L : length ((c :: r) ++ header_name n) = length (header_name n)) by (rewrite K; reflexivity). rewrite app_length in L. cbn [length] in L. lia.
Qed.

(** ** A name that starts with a digit *)

Lemma digit_error depth request c r : digit c = true ->
  compile depth (header_files request) [header_name (c :: r)] = None.
Proof.
  intros Hc. unfold compile. cbn [read_includes]. destruct (by_name _ _) as [h|] eqn:E; [|reflexivity].
  unfold by_name in E. apply find_some in E. destruct E as [Hh E]. apply text_eqb_eq in E. destruct (header_file_of _ _ Hh) as (f & _ & ->). cbn [header_of h_name] in E.
  destruct depth as [|depth]; [reflexivity|]. cbn [read_header header_of h_guard]. unfold header_name in E. apply app_inv_tail in E. unfold guard. rewrite <- E.
  assert (Hsp : exists r', splitext (c :: r) = c :: r').
  { unfold splitext. destruct (rfind 46 (c :: r)) as [dot|] eqn:Ed; [|exists r; reflexivity]. destruct (_ && _); [|exists r; reflexivity].
    destruct dot as [|dot]; [exfalso; cbn [rfind] in Ed; destruct (rfind 46 r); [discriminate|]; unfold digit in Hc; destruct (Z.eqb_spec c 46); [lia|discriminate]|]. exists (firstn dot r). reflexivity. }
  destruct Hsp as (r' & ->). cbn [slashes map upper app macro_name].
  replace (letter (upper_char (if c =? 47 then 95 else c))) with false; [reflexivity|]. symmetry.
  unfold digit in Hc. replace (c =? 47) with false by lia. unfold letter, upper_char. destruct ((97 <=? c) && (c <=? 122)) eqn:E1; lia.
Qed.

(** ** Requests with the file of the options *)

Lemma contains_self t : contains t t = true.
Proof.
  assert (H : forall t, starts t t = true) by (intros u; induction u as [|x u IH]; [reflexivity|]; cbn [starts]; rewrite Z.eqb_refl; exact IH).
  destruct t; [reflexivity|]. cbn [contains]. rewrite H. reflexivity.
Qed.
Lemma file_eqb_false a b : text_eqb a b = false <-> a <> b.
Proof. rewrite <- (text_eqb_eq a b). destruct (text_eqb a b); intuition congruence. Qed.

(** The specification writes the two names again. *)
Ltac same_names := try change options_file with options_name in *; try change descriptor_file with descriptor_name in *.
Section WithOptions.
  Variable request : list srcfile.
  Hypothesis Hord : ordered_request request.
  Hypothesis Hnames : forall f, In f request -> s_name f = options_name \/ s_name f = descriptor_name \/ plain_name (s_name f).
  Hypothesis Hdesc : forall f, In f (user_files request) -> ~ In descriptor_name (s_imports f).

  Lemma user_in f : In f (user_files request) <-> exists g, In g request /\ plain_name (s_name g) /\ f = {| s_name := s_name g; s_imports := user_names (s_imports g) |}.
  Proof.
    unfold user_files. same_names. rewrite in_map_iff. split.
    - intros (g & <- & Hg). apply filter_In in Hg. destruct Hg as [Hg E]. exists g. split; [exact Hg|]. split; [|reflexivity].
      apply negb_true_iff, orb_false_iff in E. destruct E as [E1 E2]. apply file_eqb_false in E1, E2. destruct (Hnames g Hg) as [H|[H|H]]; [congruence|congruence|exact H].
    - intros (g & Hg & Hp & ->). exists g. split; [reflexivity|]. apply filter_In. split; [exact Hg|]. apply negb_true_iff, orb_false_iff.
      apply plain_contains in Hp. destruct Hp as (A & B & _). split; apply file_eqb_false; intros K; rewrite K in *; [rewrite contains_self in A; discriminate|rewrite contains_self in B; discriminate].
  Qed.
  Lemma user_headers : header_files request = header_files (user_files request).
  Proof.
    unfold header_files.
    assert (E1 : definitions request = filter (fun f => negb (contains options_name (s_name f)) && negb (contains descriptor_name (s_name f))) request).
    { unfold definitions. set (kept := filter (fun f => negb (contains options_name (s_name f)) && negb (contains descriptor_name (s_name f))) request).
      replace (existsb (fun f => mem descriptor_name (s_imports f)) kept) with false; [destruct (rev _); reflexivity|]. symmetry.
      destruct (existsb _ kept) eqn:E; [|reflexivity]. exfalso. apply existsb_exists in E. destruct E as (k & Hk & E). unfold kept in Hk. apply filter_In in Hk. destruct Hk as [Hk Ek].
      apply andb_true_iff in Ek. destruct Ek as [E1 E2]. apply negb_true_iff in E1, E2. unfold mem in E. apply existsb_exists in E. destruct E as (x & Hx & E). apply text_eqb_eq in E. subst x.
      apply (Hdesc {| s_name := s_name k; s_imports := user_names (s_imports k) |}).
      - apply user_in. exists k. split; [exact Hk|]. split; [|reflexivity]. destruct (Hnames k Hk) as [H|[H|H]]; [rewrite H, contains_self in E1; discriminate|rewrite H, contains_self in E2; discriminate|exact H].
      - cbn [s_imports]. unfold user_names. same_names. apply filter_In. split; [exact Hx|reflexivity]. }
    rewrite E1. rewrite definitions_plain.
    2:{ rewrite Forall_forall. intros n Hn. unfold names in Hn. apply in_map_iff in Hn. destruct Hn as (f & <- & Hf). apply user_in in Hf. destruct Hf as (g & _ & Hp & ->). exact Hp. }
    unfold user_files. same_names. rewrite map_map.
    assert (E2 : filter (fun f => negb (contains options_name (s_name f)) && negb (contains descriptor_name (s_name f))) request
      = filter (fun f => negb (text_eqb (s_name f) options_name || text_eqb (s_name f) descriptor_name)) request).
    { apply filter_ext_in. intros f Hf. destruct (Hnames f Hf) as [H|[H|H]].
      - rewrite H, contains_self. replace (text_eqb options_name options_name) with true by (symmetry; apply text_eqb_eq; reflexivity). reflexivity.
      - rewrite H, contains_self. replace (text_eqb descriptor_name descriptor_name) with true by (symmetry; apply text_eqb_eq; reflexivity). rewrite orb_true_r, andb_false_r. reflexivity.
      - apply plain_contains in H. destruct H as (A & B & _). rewrite A, B. cbn [negb andb]. symmetry. apply negb_true_iff, orb_false_iff.
        split; apply file_eqb_false; intros K; rewrite K in *; [rewrite contains_self in A; discriminate|rewrite contains_self in B; discriminate]. }
    rewrite E2. apply map_ext_in. intros f Hf. apply filter_In in Hf. destruct Hf as [Hf _]. unfold header_of. cbn [s_name s_imports]. f_equal. unfold includes. cbn [s_imports]. f_equal.
    assert (Himp : forall n, In n (s_imports f) -> n = options_name \/ n = descriptor_name \/ plain_name n).
    { intros n Hn. apply in_split in Hf. destruct Hf as (l1 & l2 & E). destruct Hord as [_ H]. specialize (H l1 f l2 E n Hn). unfold names in H. apply in_map_iff in H.
      destruct H as (g & <- & Hg). apply Hnames. rewrite E. apply in_or_app. left. exact Hg. }
    clear - Himp. induction (s_imports f) as [|n l IH]; [reflexivity|]. cbn [filter user_names]. unfold user_names in IH |- *. same_names. cbn [filter].
    destruct (text_eqb n options_name) eqn:E.
    - apply text_eqb_eq in E. subst n. rewrite contains_self. cbn [negb]. apply IH. intros m Hm. apply Himp. right. exact Hm.
    - cbn [negb filter]. destruct (negb (contains options_name n)); [f_equal|]; apply IH; intros m Hm; apply Himp; right; exact Hm.
  Qed.
  Lemma user_ordered : ordered_request (user_files request).
  Proof.
    destruct Hord as [Hn Ho]. split.
    - unfold names, user_files. rewrite map_map. cbn [s_name]. clear - Hn. unfold names in Hn. induction request as [|f l IH]; [constructor|]. cbn [map] in Hn. inversion Hn as [|? ? Hx Hl]; subst.
      cbn [filter]. destruct (negb _); [|apply IH; exact Hl]. cbn [map]. constructor; [|apply IH; exact Hl]. intros K. apply Hx. apply in_map_iff in K. destruct K as (g & E & Hg).
      apply filter_In in Hg. rewrite <- E. apply in_map. apply Hg.
    - intros l1 f l2 E n Hin.
      assert (Hsplit : forall (l : list srcfile) l1 f l2, user_files l = l1 ++ f :: l2 -> exists k1 g k2, l = k1 ++ g :: k2 /\ user_files k1 = l1
        /\ f = {| s_name := s_name g; s_imports := user_names (s_imports g) |}).
      { clear. induction l as [|x l IH]; intros l1 f l2 E; [destruct l1; discriminate|]. unfold user_files in E. same_names. cbn [filter] in E.
        destruct (negb (text_eqb (s_name x) options_name || text_eqb (s_name x) descriptor_name)) eqn:Ex.
        - cbn [map] in E. destruct l1 as [|y l1].
          + cbn [app] in E. injection E as E _. exists [], x, l. split; [reflexivity|]. split; [reflexivity|]. symmetry. exact E.
          + cbn [app] in E. injection E as Ey E. destruct (IH l1 f l2 E) as (k1 & g & k2 & -> & E1 & E2). exists (x :: k1), g, k2. split; [reflexivity|]. split; [|exact E2].
            unfold user_files. same_names. cbn [filter]. rewrite Ex. cbn [map]. rewrite Ey. f_equal. exact E1.
        - destruct (IH l1 f l2 E) as (k1 & g & k2 & -> & E1 & E2). exists (x :: k1), g, k2. split; [reflexivity|]. split; [|exact E2].
          unfold user_files. same_names. cbn [filter]. rewrite Ex. exact E1. }
      destruct (Hsplit request l1 f l2 E) as (k1 & g & k2 & Er & E1 & ->). cbn [s_imports] in Hin. unfold user_names in Hin. same_names. apply filter_In in Hin. destruct Hin as [Hin Hno].
      pose proof (Ho k1 g k2 Er n Hin) as Hk. unfold names in Hk. apply in_map_iff in Hk. destruct Hk as (k & <- & Hk). rewrite <- E1. unfold names, user_files. same_names. rewrite map_map. cbn [s_name].
      apply in_map. apply filter_In. split; [exact Hk|]. apply negb_true_iff in Hno. rewrite Hno. cbn [orb]. apply negb_true_iff. apply file_eqb_false. intros K.
      apply (Hdesc {| s_name := s_name g; s_imports := user_names (s_imports g) |}).
      + rewrite E. apply in_or_app. right. left. reflexivity.
      + cbn [s_imports]. unfold user_names. same_names. apply filter_In. rewrite <- K. split; [exact Hin|rewrite Hno; reflexivity].
  Qed.
End WithOptions.

Theorem compile_request request : ordered_request request ->
  (forall f, In f request -> s_name f = options_name \/ s_name f = descriptor_name \/ plain_name (s_name f)) ->
  (forall f, In f (user_files request) -> ~ In descriptor_name (s_imports f)) ->
  distinct_guards (user_files request) -> no_namesake (user_files request) ->
  forall depth ns, (length request <= depth)%nat -> incl ns (names (user_files request)) ->
  exists read, compile depth (header_files request) (map header_name ns) = Some (map header_name read)
    /\ NoDup read /\ imports_before (user_files request) read /\ forall n, In n read <-> needed (user_files request) ns n.
Proof.
  intros Ho Hn Hd Hg Hs depth ns Hdep Hns. rewrite (user_headers request Ho Hn Hd). apply compile_files; try assumption.
  - apply user_ordered; assumption.
  - rewrite Forall_forall. intros n Hin. unfold names in Hin. apply in_map_iff in Hin. destruct Hin as (f & <- & Hf). apply user_in in Hf; [|exact Hn]. destruct Hf as (g & _ & Hp & ->). exact Hp.
  - etransitivity; [|exact Hdep]. unfold user_files. rewrite map_length. clear. induction request as [|f l IH]; [apply le_n|]. cbn [filter length]. destruct (negb _); cbn [length]; lia.
Qed.
Lemma dash_names depth request ns read p x y : compile depth (header_files request) ns = Some read -> well_named (p ++ chars ".proto") -> x <> y ->
  (forall c, In c (x ++ y) -> c <> 46 /\ c <> 47) ->
  ~ (In (header_name (p ++ chars "-" ++ x ++ chars ".proto")) read /\ In (header_name (p ++ chars "-" ++ y ++ chars ".proto")) read).
Proof.
  intros H Hp. apply (dash_guard depth request ns); [exact H|]. destruct (plain_stem _ Hp) as (s & E & Hs). apply app_inv_tail in E. subst. exact Hs.
Qed.
