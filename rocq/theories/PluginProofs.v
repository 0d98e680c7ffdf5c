(** * PluginProofs: the response of the plugin. *)
From Coq Require Import String.
From Verif Require Import Base Schema Printf Generator GenMembers GenFiles SpecGenerator SpecFiles GenPlugin SpecPlugin GenFilesProps GenRender.
From Coq Require Import List ZArith Bool Lia.

Definition contents (l : list source) : list pfile := map i_content l.
Definition head_name (f : source) : text := header_name (s_name (i_file f)).
Definition says_proto2 (f : source) : Prop := i_syntax f = chars "proto2".

Lemma text_eqb_spec a b : text_eqb a b = true <-> a = b.
Proof. unfold text_eqb. destruct (text_dec a b); split; congruence. Qed.

Lemma f2_len {A B} (R : A -> B -> Prop) l l' : Forall2 R l l' -> List.length l = List.length l'.
Proof. induction 1 as [|a b l l' _ _ IH]; [reflexivity|]. cbn [List.length]. rewrite IH. reflexivity. Qed.
Lemma proto_files l : (forall f, In f l -> ~ says_proto2 f) -> map proto_file l = map sort_file (contents l).
Proof.
  intros H. unfold contents. rewrite map_map. apply map_ext_in. intros f Hf. unfold proto_file.
  destruct (text_eqb (chars "proto2") (i_syntax f)) eqn:E; [|reflexivity]. apply text_eqb_spec in E. exfalso. apply (H f Hf). unfold says_proto2. congruence.
Qed.
Lemma proto_files_none l f : In f l -> says_proto2 f -> sequence (map proto_file l) = None.
Proof.
  intros Hf Hs. destruct (sequence (map proto_file l)) as [xs|] eqn:E; [|reflexivity]. exfalso. apply sequence_map in E.
  clear -Hf Hs E. induction E as [|a x l xs Ha _ IH]; [destruct Hf|]. destruct Hf as [<-|Hf]; [|auto].
  unfold proto_file in Ha. unfold says_proto2 in Hs. rewrite Hs in Ha. cbn in Ha. discriminate.
Qed.

Definition headers (l : list source) (css : list (list class)) : list header :=
  map (fun '(f, cs) => {| h_package := p_package f; h_enums := p_enums f; h_classes := cs |}) (combine (contents l) css).

Lemma render_loop limit st l : forall files r, List.length files = List.length l ->
  match sequence (map (fun ds => sequence (map (render (templates limit st)) ds)) files) with
  | Some css => render_files limit st (combine l files) r
      = ({| r_files := r_files r ++ combine (map head_name l) (headers l css); r_error := r_error r; r_optional := r_optional r |}, false)
  | None => exists r', render_files limit st (combine l files) r = (r', true) /\ r_optional r' = r_optional r
  end.
Proof.
  induction l as [|f l IH]; intros files r Hl; destruct files as [|ds files]; try discriminate Hl.
  - cbn [map sequence combine render_files headers contents map]. rewrite app_nil_r. destruct r; reflexivity.
  - cbn [map sequence combine render_files]. destruct (sequence (map (render (templates limit st)) ds)) as [cs|]; [|exists r; auto].
    cbn [List.length] in Hl. injection Hl as Hl.
    specialize (IH files {| r_files := r_files r ++ [(head_name f, {| h_package := p_package (i_content f); h_enums := p_enums (i_content f); h_classes := cs |})];
                            r_error := r_error r; r_optional := r_optional r |} Hl).
    destruct (sequence (map (fun ds => sequence (map (render (templates limit st)) ds)) files)) as [css|].
    + unfold head_name in IH at 1. cbv zeta. rewrite IH. cbn [r_files r_error r_optional]. f_equal. f_equal. rewrite <- app_assoc. reflexivity.
    + cbv zeta. destruct IH as (r' & E & O). exists r'. split; [exact E|exact O].
Qed.

(** The response against the function of Generator.v. *)
Lemma plugin_answer limit request :
  (forall f, In f (selected request) -> ~ says_proto2 f) ->
  match generate limit (contents (selected request)) with
  | Some hs => main_plugin limit request = {| r_files := combine (map head_name (selected request)) hs; r_error := false; r_optional := true |}
  | None => r_error (main_plugin limit request) = true
  end.
Proof.
  intros H. unfold main_plugin, generate_code, generate. cbv zeta. rewrite (proto_files _ H).
  destruct (sequence (map sort_file (contents (selected request)))) as [files|] eqn:Es; [|reflexivity].
  assert (Hlen : List.length files = List.length (selected request)).
  { apply sequence_map in Es. apply f2_len in Es. unfold contents in Es. rewrite map_length in Es. lia. }
  replace (concat (map (fun f => map (fun e => p_package (i_content f) ++ [e]) (p_enums (i_content f))) (selected request)))
    with (concat (map (fun f => map (fun e => p_package f ++ [e]) (p_enums f)) (contents (selected request))))
    by (unfold contents; rewrite map_map; reflexivity).
  destruct (forallb _ (concat files)); [|reflexivity].
  destruct (register_passes 3 files true no_regs) as [all st]. destruct all; [|reflexivity].
  pose proof (render_loop limit st (selected request) files {| r_files := []; r_error := false; r_optional := true |} Hlen) as HL.
  destruct (sequence (map (fun ds => sequence (map (render (templates limit st)) ds)) files)) as [css|].
  - rewrite HL. reflexivity.
  - destruct HL as (r' & E & O). rewrite E. reflexivity.
Qed.
Lemma plugin_proto2 limit request f : In f (selected request) -> says_proto2 f -> r_error (main_plugin limit request) = true.
Proof. intros Hf Hs. unfold main_plugin, generate_code. cbv zeta. rewrite (proto_files_none _ f Hf Hs). reflexivity. Qed.

(** The selection. *)
Definition of_name (f : source) : text := s_name (i_file f).
Lemma special_usual request f : usual_names request -> In f request ->
  is_options f = text_eqb (of_name f) options_name /\ is_descriptor f = text_eqb (of_name f) descriptor_name.
Proof.
  intros (_ & H) Hf. unfold is_options, is_descriptor. destruct (H f Hf) as [E|[E|P]].
  - unfold of_name. rewrite E. split; vm_compute; reflexivity.
  - unfold of_name. rewrite E. split; vm_compute; reflexivity.
  - apply plain_contains in P. destruct P as (A & B & _). fold (of_name f) in *. rewrite A, B. split; symmetry; apply file_eqb_false; intros E; rewrite E in A, B; vm_compute in A, B; discriminate.
Qed.
Lemma filter_ext_in' {A} (f g : A -> bool) l : (forall a, In a l -> f a = g a) -> filter f l = filter g l.
Proof.
  induction l as [|a l IH]; intros H; [reflexivity|]. cbn [filter]. rewrite (H a (or_introl eq_refl)), (IH (fun b Hb => H b (or_intror Hb))). reflexivity.
Qed.
Lemma one_left (n : text) l : NoDup (map of_name l) -> (List.length (filter (fun f => text_eqb (of_name f) n) l) <= 1)%nat.
Proof.
  induction l as [|a l IH]; intros H; [cbn; lia|]. cbn [map] in H. inversion H as [|x xs Hn Hd]; subst. cbn [filter].
  destruct (text_eqb (of_name a) n) eqn:E; [|auto]. apply text_eqb_spec in E.
  assert (K : filter (fun f => text_eqb (of_name f) n) l = []).
  { clear IH Hd H. induction l as [|b l IH]; [reflexivity|]. cbn [filter]. destruct (text_eqb (of_name b) n) eqn:Eb.
    - apply text_eqb_spec in Eb. exfalso. apply Hn. left. congruence.
    - apply IH. intros K. apply Hn. right. exact K. }
  rewrite K. cbn. lia.
Qed.
Lemma selected_wanted request : usual_names request -> selected request = wanted request.
Proof.
  intros H. unfold selected, wanted. same_names. cbv zeta.
  rewrite (filter_ext_in' (fun f => negb (is_options f) && negb (is_descriptor f)) of_user) by
    (intros f Hf; destruct (special_usual _ _ H Hf) as (A & B); rewrite A, B; unfold of_user, of_name; same_names; symmetry; apply negb_orb).
  rewrite (filter_ext_in' is_descriptor (fun f => text_eqb (of_name f) descriptor_name)) by
    (intros f Hf; apply (special_usual _ _ H Hf)).
  destruct H as (Hd & _). pose proof (one_left descriptor_name request Hd) as L. unfold of_name in *.
  destruct (filter (fun f => text_eqb (s_name (i_file f)) descriptor_name) request) as [|d [|d' l]] eqn:E.
  - cbn [rev app]. destruct (existsb _ _); reflexivity.
  - cbn [rev app]. reflexivity.
  - cbn [List.length] in L. lia.
Qed.
Lemma wanted_in request f : In f (wanted request) -> In f request /\ of_name f <> options_name.
Proof.
  unfold wanted, of_name. same_names. cbv zeta. intros H.
  assert (U : In f (filter of_user request) -> In f request /\ s_name (i_file f) <> options_name).
  { intros K. apply filter_In in K. destruct K as (A & B). split; [exact A|]. unfold of_user in B; same_names. apply negb_true_iff, orb_false_iff in B. destruct B as (B & _). apply file_eqb_false in B. exact B. }
  destruct (existsb _ _); [|auto]. apply in_app_or in H. destruct H as [H|H]; [|auto]. apply filter_In in H. destruct H as (A & B). split; [exact A|].
  apply text_eqb_spec in B. rewrite B. vm_compute. discriminate.
Qed.
Lemma wanted_named request f : usual_names request -> In f (wanted request) -> well_named (of_name f).
Proof.
  intros (_ & H) Hf. apply wanted_in in Hf. destruct Hf as (Hf & Ho). unfold of_name in *. destruct (H f Hf) as [E|[E|(_ & _ & E)]]; [contradiction| |exact E].
  rewrite E. exists 103, (chars "oogle/protobuf/descriptor"). split; [reflexivity|]. split; [reflexivity|]. split; [|vm_compute; discriminate].
  rewrite Forall_forall. intros x Hx. assert (B : letter x || digit x || (x =? 47) = true); [|apply orb_true_iff in B; rewrite orb_true_iff in B; lia].
  revert x Hx. apply forallb_forall. vm_compute. reflexivity.
Qed.
Lemma NoDup_filter_map {A B} (g : A -> B) (h : A -> bool) l : NoDup (map g l) -> NoDup (map g (filter h l)).
Proof.
  induction l as [|a l IH]; [auto|]. cbn [map filter]. intros H. inversion H as [|x xs Hn Hd]; subst. destruct (h a); [|auto]. cbn [map]. constructor; [|auto].
  intros K. apply Hn. apply in_map_iff in K. destruct K as (b & E & Hb). apply filter_In in Hb. apply in_map_iff. exists b. tauto.
Qed.
Lemma wanted_once request : usual_names request -> NoDup (map of_name (wanted request)).
Proof.
  intros (H & _). unfold wanted. same_names. cbv zeta. destruct (existsb _ _); [|apply NoDup_filter_map; exact H].
  rewrite map_app. pose proof (one_left descriptor_name request H) as L. unfold of_name at 1 in L.
  pose proof (NoDup_filter_map of_name of_user request H) as N.
  destruct (filter (fun f => text_eqb (s_name (i_file f)) descriptor_name) request) as [|d [|d' l]] eqn:E; [exact N| |cbn [List.length] in L; lia].
  cbn [map app]. constructor; [|exact N]. intros K. apply in_map_iff in K. destruct K as (f & Ef & Hf). apply filter_In in Hf. destruct Hf as (_ & Hf).
  assert (Hd : In d (filter (fun f => text_eqb (s_name (i_file f)) descriptor_name) request)) by (rewrite E; left; reflexivity).
  apply filter_In in Hd. destruct Hd as (_ & Hd). apply text_eqb_spec in Hd. unfold of_name in Ef. unfold of_user in Hf; same_names. rewrite Ef, Hd in Hf. vm_compute in Hf. discriminate.
Qed.
Lemma wanted_headers_once request : usual_names request -> NoDup (map head_name (wanted request)).
Proof.
  intros H. pose proof (wanted_once _ H) as N. pose proof (fun f => wanted_named request f H) as W. clear H.
  induction (wanted request) as [|f l IH]; [constructor|]. cbn [map] in *. inversion N as [|x xs Hn Hd]; subst. constructor; [|apply IH; [exact Hd|intros g Hg; apply W; right; exact Hg]].
  intros K. apply Hn. apply in_map_iff in K. destruct K as (g & E & Hg). apply in_map_iff. exists g. split; [|exact Hg].
  apply (header_name_inj (of_name g) (of_name f)); [apply W; right; exact Hg|apply W; left; reflexivity|exact E].
Qed.
Lemma distinct_spec l : distinct l = true <-> NoDup l.
Proof.
  induction l as [|n l IH]; [split; [constructor|reflexivity]|]. cbn [distinct]. rewrite andb_true_iff, negb_true_iff, IH. unfold mem. split.
  - intros (A & B). constructor; [|exact B]. intros K. assert (E : existsb (text_eqb n) l = true) by (apply existsb_exists; exists n; split; [exact K|apply text_eqb_spec; reflexivity]). congruence.
  - intros H. inversion H as [|x xs Hn Hd]; subst. split; [|exact Hd]. destruct (existsb (text_eqb n) l) eqn:E; [|reflexivity]. exfalso. apply Hn.
    apply existsb_exists in E. destruct E as (x & Hx & Ex). apply text_eqb_spec in Ex. subst. exact Hx.
Qed.
Lemma generate_length limit request hs : generate limit request = Some hs -> List.length hs = List.length request.
Proof.
  unfold generate. destruct (sequence (map sort_file request)) as [files|] eqn:Es; [|discriminate]. cbv zeta. destruct (forallb _ _); [|discriminate].
  destruct (register_passes 3 files true no_regs) as [all st]. destruct all; [|discriminate].
  destruct (sequence (map _ files)) as [css|] eqn:Ec; [|discriminate]. intros E. injection E as <-. rewrite map_length, combine_length.
  apply sequence_map in Es. apply f2_len in Es. apply sequence_map in Ec. apply f2_len in Ec. lia.
Qed.
Lemma combine_fst {A B} (l : list A) : forall l' : list B, List.length l' = List.length l -> map fst (combine l l') = l.
Proof. induction l as [|a l IH]; intros [|b l'] H; try discriminate H; [reflexivity|]. cbn [combine map fst]. f_equal. apply IH. cbn in H. lia. Qed.
Lemma combine_snd {A B} (l : list A) : forall l' : list B, List.length l' = List.length l -> map snd (combine l l') = l'.
Proof. induction l as [|a l IH]; intros [|b l'] H; try discriminate H; [reflexivity|]. cbn [combine map snd]. f_equal. apply IH. cbn in H. lia. Qed.

Lemma protoc_some limit request out : usual_names request ->
  (protoc limit request = Some out <->
   (forall f, In f (wanted request) -> ~ says_proto2 f)
   /\ exists hs, generate limit (contents (wanted request)) = Some hs /\ out = combine (map head_name (wanted request)) hs).
Proof.
  intros H. rewrite <- (selected_wanted _ H). unfold protoc, protoc_writes. split.
  - intros E. assert (P : forall f, In f (selected request) -> ~ says_proto2 f).
    { intros f Hf Hs. rewrite (plugin_proto2 limit request f Hf Hs) in E. discriminate. }
    split; [exact P|]. pose proof (plugin_answer limit request P) as A.
    destruct (generate limit (contents (selected request))) as [hs|]; [|rewrite A in E; discriminate].
    exists hs. split; [reflexivity|]. rewrite A in E. cbn [r_error r_optional r_files] in E. rewrite andb_false_r in E. destruct (distinct _); congruence.
  - intros (P & hs & G & ->). pose proof (plugin_answer limit request P) as A. rewrite G in A. rewrite A. cbn [r_error r_optional r_files]. rewrite andb_false_r.
    rewrite combine_fst. 2:{ rewrite (generate_length _ _ _ G). unfold contents. rewrite !map_length. reflexivity. }
    rewrite (selected_wanted _ H). pose proof (wanted_headers_once _ H) as N. apply distinct_spec in N. rewrite N. reflexivity.
Qed.

Theorem plugin_headers limit request : usual_names request -> (forall f, In f (wanted request) -> i_syntax f <> chars "proto2") ->
  match generate limit (map i_content (wanted request)) with
  | Some hs => exists out, protoc limit request = Some out /\ map snd out = hs
      /\ Forall2 header_for (map (fun f => s_name (i_file f)) (wanted request)) (map fst out) /\ NoDup (map fst out)
  | None => protoc limit request = None
  end.
Proof.
  intros H P. destruct (generate limit (map i_content (wanted request))) as [hs|] eqn:G.
  - exists (combine (map head_name (wanted request)) hs). split; [apply protoc_some; [exact H|]; split; [exact P|]; exists hs; auto|].
    assert (L : List.length hs = List.length (map head_name (wanted request))).
    { rewrite (generate_length _ _ _ G), !map_length. reflexivity. }
    rewrite (combine_fst _ _ L), (combine_snd _ _ L). split; [reflexivity|]. split; [|apply wanted_headers_once; exact H].
    pose proof (fun f => wanted_named request f H) as W. clear -W. induction (wanted request) as [|f l IH]; [constructor|]. cbn [map]. constructor; [|apply IH; intros g Hg; apply W; right; exact Hg].
    pose proof (W f (or_introl eq_refl)) as Wf. apply plain_stem in Wf. destruct Wf as (s & E & S). exists s. unfold of_name in E. split; [exact E|].
    unfold head_name. rewrite E. apply header_name_stem. exact S.
  - destruct (protoc limit request) as [out|] eqn:E; [|reflexivity]. apply (protoc_some _ _ _ H) in E. destruct E as (_ & hs & G' & _). unfold contents in G'. congruence.
Qed.
Theorem plugin_says_proto2 limit request f : usual_names request -> In f (wanted request) -> i_syntax f = chars "proto2" -> protoc limit request = None.
Proof.
  intros H Hf Hs. destruct (protoc limit request) as [out|] eqn:E; [|reflexivity]. apply (protoc_some _ _ _ H) in E. destruct E as (P & _). exfalso. exact (P f Hf Hs).
Qed.

(** The versions of the files make no difference. *)
Lemma versions_names vs request : List.length vs = List.length request ->
  Forall2 (fun f g => i_file f = i_file g /\ i_content f = i_content g) (in_versions vs request) request
  /\ forall f, In f (in_versions vs request) -> ~ says_proto2 f.
Proof.
  revert request. induction vs as [|v vs IH]; intros [|f l] H; try discriminate H; [split; [constructor|intros f []]|].
  cbn [List.length] in H. injection H as H. destruct (IH l H) as (A & B). unfold in_versions in *. cbn [combine map]. split; [constructor; [split; reflexivity|exact A]|].
  intros g [<-|Hg]; [|apply B; exact Hg]. unfold says_proto2. cbn [i_syntax]. destruct v; vm_compute; discriminate.
Qed.
Definition alike (f g : source) : Prop := i_file f = i_file g /\ i_content f = i_content g.
Lemma alike_filter p l l' : (forall f g, alike f g -> p f = p g) -> Forall2 alike l l' -> Forall2 alike (filter p l) (filter p l').
Proof.
  intros Hp. induction 1 as [|f g l l' Hf Hl IH]; [constructor|]. cbn [filter]. rewrite (Hp f g Hf). destruct (p g); [constructor; assumption|exact IH].
Qed.
Lemma alike_existsb p l l' : (forall f g, alike f g -> p f = p g) -> Forall2 alike l l' -> existsb p l = existsb p l'.
Proof. intros Hp. induction 1 as [|f g l l' Hf Hl IH]; [reflexivity|]. cbn [existsb]. rewrite (Hp f g Hf), IH. reflexivity. Qed.
Lemma alike_map {B} (p : source -> B) l l' : (forall f g, alike f g -> p f = p g) -> Forall2 alike l l' -> map p l = map p l'.
Proof. intros Hp. induction 1 as [|f g l l' Hf Hl IH]; [reflexivity|]. cbn [map]. rewrite (Hp f g Hf), IH. reflexivity. Qed.
Lemma Forall2_rev' {A B} (R : A -> B -> Prop) l l' : Forall2 R l l' -> Forall2 R (rev l) (rev l').
Proof. induction 1 as [|a b l l' H _ IH]; [constructor|]. cbn [rev]. apply Forall2_app; [exact IH|constructor; [exact H|constructor]]. Qed.
Lemma alike_selected l l' : Forall2 alike l l' -> Forall2 alike (selected l) (selected l').
Proof.
  intros H. unfold selected. cbv zeta.
  assert (K : Forall2 alike (filter (fun f => negb (is_options f) && negb (is_descriptor f)) l) (filter (fun f => negb (is_options f) && negb (is_descriptor f)) l')).
  { apply alike_filter; [|exact H]. intros f g (A & _). unfold is_options, is_descriptor. rewrite A. reflexivity. }
  assert (D : Forall2 alike (rev (filter is_descriptor l)) (rev (filter is_descriptor l'))).
  { apply Forall2_rev'. apply alike_filter; [|exact H]. intros f g (A & _). unfold is_descriptor. rewrite A. reflexivity. }
  rewrite (alike_existsb (fun f => mem descriptor_name (s_imports (i_file f))) _ _ (fun f g '(conj A _) => f_equal (fun x => mem descriptor_name (s_imports x)) A) K).
  destruct D as [|d d' ds ds' Hd _]; [exact K|]. destruct (existsb _ _); [constructor; assumption|exact K].
Qed.
Lemma selected_in request f : In f (selected request) -> In f request.
Proof.
  unfold selected. cbv zeta. intros H.
  destruct (rev (filter is_descriptor request)) as [|d ds] eqn:E; [apply filter_In in H; tauto|].
  destruct (existsb _ _); [|apply filter_In in H; tauto]. destruct H as [<-|H]; [|apply filter_In in H; tauto].
  assert (K : In d (rev (filter is_descriptor request))) by (rewrite E; left; reflexivity). apply in_rev in K. apply filter_In in K. tauto.
Qed.
Theorem plugin_versions limit request vs : List.length vs = List.length request ->
  (forall f, In f request -> i_syntax f = chars "proto3") -> protoc limit (in_versions vs request) = protoc limit request.
Proof.
  intros L H3. destruct (versions_names vs request L) as (A & B). pose proof (alike_selected _ _ A) as S.
  assert (P1 : forall f, In f (selected (in_versions vs request)) -> ~ says_proto2 f) by (intros f Hf; apply B, selected_in; exact Hf).
  assert (P2 : forall f, In f (selected request) -> ~ says_proto2 f).
  { intros f Hf K. apply selected_in in Hf. unfold says_proto2 in K. rewrite (H3 f Hf) in K. vm_compute in K. discriminate. }
  pose proof (plugin_answer limit _ P1) as A1. pose proof (plugin_answer limit _ P2) as A2.
  assert (EC : contents (selected (in_versions vs request)) = contents (selected request)) by (apply alike_map; [intros f g (_ & K); exact K|exact S]).
  assert (EN : map head_name (selected (in_versions vs request)) = map head_name (selected request)) by
    (apply alike_map; [intros f g (K & _); unfold head_name; rewrite K; reflexivity|exact S]).
  assert (EO : uses_optional (in_versions vs request) = uses_optional request) by
    (unfold uses_optional; apply alike_existsb; [intros f g (_ & K); rewrite K; reflexivity|exact A]).
  rewrite EC, EN in A1. unfold protoc, protoc_writes. rewrite EO.
  destruct (generate limit (contents (selected request))) as [hs|]; rewrite A1, A2; reflexivity.
Qed.

(** ** Names that differ in the extension *)
Lemma splitext_any s ext : stem_ok s -> ~ In 46 ext -> ~ In 47 ext -> splitext (s ++ chars "." ++ ext) = s.
Proof.
  intros H Hdot Hslash. destruct (stem_last s H) as (s' & x & E & Hx & Hd). unfold splitext. change (chars "." ++ ext) with (46 :: ext).
  replace (rfind 46 (s ++ 46 :: ext)) with (Some (List.length s)) by (symmetry; apply rfind_app_found; exact Hdot).
  rewrite (rfind_app_none 47 s (46 :: ext)) by (intros [K|K]; [discriminate K|exact (Hslash K)]). rewrite firstn_app, firstn_all, Nat.sub_diag, firstn_O, app_nil_r.
  replace (rfind 47 s) with (rfind 47 s') by (rewrite E; symmetry; apply rfind_app_none; cbn [In]; intuition).
  set (start := match rfind 47 s' with None => O | Some sep => S sep end).
  assert (Hs : (start <= List.length s')%nat) by (unfold start; destruct (rfind 47 s') as [i|] eqn:Ei; [apply rfind_lt in Ei; lia|lia]).
  replace (Nat.ltb start (S (List.length s))) with true by (symmetry; apply Nat.ltb_lt; rewrite E, app_length; lia).
  replace (existsb _ _) with true; [reflexivity|]. symmetry. apply existsb_exists. exists x. split; [|lia].
  rewrite E, skipn_app. apply in_or_app. right. replace (start - List.length s')%nat with O by lia. left. reflexivity.
Qed.
Lemma selected_user request f : In f request -> contains options_name (of_name f) = false -> contains descriptor_name (of_name f) = false -> In f (selected request).
Proof.
  intros Hf A B. unfold selected. cbv zeta.
  assert (K : In f (filter (fun f => negb (is_options f) && negb (is_descriptor f)) request)).
  { apply filter_In. split; [exact Hf|]. unfold is_options, is_descriptor. unfold of_name in *. rewrite A, B. reflexivity. }
  destruct (rev _); [exact K|]. destruct (existsb _ _); [right|]; exact K.
Qed.
Lemma NoDup_map_inj {A B} (g : A -> B) l a b : NoDup (map g l) -> In a l -> In b l -> g a = g b -> a = b.
Proof.
  induction l as [|x l IH]; [intros _ []|]. cbn [map]. intros H Ha Hb E. inversion H as [|y ys Hn Hd]; subst.
  destruct Ha as [->|Ha], Hb as [->|Hb]; [reflexivity| | |auto]; exfalso; apply Hn; [rewrite E|rewrite <- E]; apply in_map; assumption.
Qed.
Theorem plugin_extension limit request f g stem ext :
  In f request -> In g request -> s_name (i_file f) = stem ++ chars ".proto" -> s_name (i_file g) = stem ++ chars "." ++ ext ->
  plain_name (stem ++ chars ".proto") -> ~ in_text options_name (stem ++ chars "." ++ ext) -> ~ in_text descriptor_name (stem ++ chars "." ++ ext) ->
  ~ In 46 ext -> ~ In 47 ext -> ext <> chars "proto" ->
  protoc limit request = None.
Proof.
  intros Hf Hg Ef Eg P Q1 Q2 D S N. apply plain_contains in P. destruct P as (P1 & P2 & W). apply contains_not in Q1, Q2. apply plain_stem in W. destruct W as (s & Es & Hs). apply app_inv_tail in Es. subst s.
  assert (Ne : f <> g).
  { intros <-. rewrite Ef in Eg. apply app_inv_head in Eg. change (chars ".proto") with (chars "." ++ chars "proto") in Eg. apply app_inv_head in Eg. congruence. }
  assert (If : In f (selected request)) by (apply selected_user; unfold of_name; [exact Hf|rewrite Ef; assumption|rewrite Ef; assumption]).
  assert (Ig : In g (selected request)) by (apply selected_user; unfold of_name; [exact Hg|rewrite Eg; assumption|rewrite Eg; assumption]).
  assert (Eh : head_name f = head_name g).
  { unfold head_name. rewrite Ef, Eg. unfold header_name. rewrite (splitext_any stem ext Hs D S), (splitext_stem stem Hs). reflexivity. }
  unfold protoc, protoc_writes. destruct (r_error (main_plugin limit request)) eqn:Er; [reflexivity|].
  assert (P : forall f, In f (selected request) -> ~ says_proto2 f).
  { intros x Hx K. rewrite (plugin_proto2 limit request x Hx K) in Er. discriminate. }
  pose proof (plugin_answer limit request P) as A. destruct (generate limit (contents (selected request))) as [hs|] eqn:G; [|congruence].
  rewrite A. cbn [r_optional r_files]. rewrite andb_false_r.
  rewrite combine_fst. 2:{ rewrite (generate_length _ _ _ G). unfold contents. rewrite !map_length. reflexivity. }
  destruct (distinct _) eqn:Ed; [|reflexivity]. apply distinct_spec in Ed. exfalso. apply Ne. exact (NoDup_map_inj head_name _ f g Ed If Ig Eh).
Qed.
