(** * GenBodyCalls: the functions of a generated class, called by name. *)
From Coq Require Import String.
From Verif Require Import Base Buffers Wire Schema Fields Message Api Spec BitLemmas Struct Printf Generator GenMembers GenBody SpecBody GenOrder GenBodyRun GenBodySound
  GenBodyOneof Tables ReadAny ApiProofs DecodeProofs GenBodySer GenBodyDes GenBodyApi.
From Coq Require Import List ZifyBool ZifyNat Lia.

Section Calls.
Context (d : mdef) (fs : list fdesc) (os : list odesc) (Hs : sound d fs os).
Context (fuel : nat).
Notation c := (class_of d fs os).
Notation fields := (fields_of d).
Notation oneofs := (oneofs_of d).

Lemma code_clear_same ob v : holds_value d ob v -> same_object d (code_clear d fs os ob) (clear (EMsg fs os) v).
Proof.
  intros Hh. unfold code_clear, execute. pose proof (clear_run _ _ _ Hs (@NoBuffer unit) 0 3 no_frame ob v tt Hh) as H.
  destruct (run_list c NoBuffer 0 (invoke c NoBuffer 0 4) (clear_body fields oneofs) (no_frame, ob, tt)) as [[br [[fr' ob'] s']]| |], (clear (EMsg fs os) v) as [v'| |];
    cbn [bind rel same_object] in *; tauto.
Qed.
Lemma code_assign_same ob rhs v x : holds_value d ob v -> holds_value d rhs x -> same_object d (code_assign d fs os ob rhs) (assign (EMsg fs os) v x).
Proof.
  intros Hh Hx. unfold code_assign, execute. pose proof (assign_run _ _ _ Hs (@NoBuffer unit) 0 1 (with_rhs rhs) ob v x tt Hh Hx) as H.
  destruct (run_list c NoBuffer 0 (invoke c NoBuffer 0 4) (assign_body fields oneofs) (with_rhs rhs, ob, tt)) as [[br [[fr' ob'] s']]| |], (assign (EMsg fs os) v x) as [v'| |];
    cbn [bind rel same_object] in *; tauto.
Qed.

Lemma length_fields ob pres vs ovs : holds_value d ob (VM pres vs ovs) -> length vs = length fs /\ length ovs = length os.
Proof.
  intros (_ & H1 & H2). pose proof (s_fields _ _ _ Hs) as H3. pose proof (s_oneofs _ _ _ Hs) as H4.
  split; [transitivity (length fields); [clear - H1; induction H1; cbn; congruence|clear - H3; induction H3; cbn; congruence]|
          transitivity (length oneofs); [clear - H2; induction H2; cbn; congruence|clear - H4; induction H4; cbn; congruence]].
Qed.
Lemma nth_value {A B} (l : list A) (l' : list B) i x : length l' = length l -> nth_error l i = Some x -> exists y, nth_error l' i = Some y.
Proof.
  intros Hl Hx. destruct (nth_error l' i) as [y|] eqn:E; [eauto|]. apply nth_error_None in E. assert (i < length l)%nat by (apply nth_error_Some; congruence). lia.
Qed.

(** ** Fields outside oneofs *)

Lemma field_op i num k t v o pres vs ovs : nth_error fs i = Some (num, k, t) -> nth_error vs i = Some v -> k <> KRecursive ->
  (let* (_, v') := run_op fuel (OpField i o) (OElem (EMsg fs os)) (VM pres vs ovs) in Done v')
  = let* pres' := (match k with KOpt => presence_set pres (opt_index fs i) | _ => Done pres end) in
    let* (_, x) := run_op fuel o (oty_of k t) v in Done (VM pres' (upd i x vs) ovs).
Proof.
  intros Hd Hv Hk. cbn [run_op]. rewrite Hd. rewrite (aget_nat _ _ _ Hv). cbn [bind].
  assert (Hlt : (i < length vs)%nat) by (apply nth_error_Some; congruence).
  destruct k; try contradiction; cbn [bind].
  - destruct (run_op fuel o (oty_of KPlain t) v) as [[e x]| |]; cbn [bind]; try reflexivity. rewrite aset_nat by exact Hlt. reflexivity.
  - destruct (presence_set pres (opt_index fs i)) as [p| |]; cbn [bind]; try reflexivity.
    destruct (run_op fuel o (oty_of KOpt t) v) as [[e x]| |]; cbn [bind]; try reflexivity. rewrite aset_nat by exact Hlt. reflexivity.
  - destruct (run_op fuel o (oty_of (KRep max_length) t) v) as [[e x]| |]; cbn [bind]; try reflexivity. rewrite aset_nat by exact Hlt. reflexivity.
Qed.
Lemma set_is_op i num k t v x pres vs ovs : nth_error fs i = Some (num, k, t) -> nth_error vs i = Some v ->
  (let* (_, v') := run_op fuel (OpField i (match k with KRep _ => OpAssign x | _ => set_op t x end)) (OElem (EMsg fs os)) (VM pres vs ovs) in Done v')
  = let* (p, y) := field_set k t (opt_index fs i) pres v x in Done (VM p (upd i y vs) ovs).
Proof.
  intros Hd Hv. destruct k as [| | |].
  4: { cbn [run_op field_set bind]. rewrite Hd. cbn [bind]. rewrite (upd_same _ _ _ Hv). reflexivity. }
  all: rewrite (field_op _ _ _ _ _ _ _ _ _ Hd Hv) by discriminate; cbn [bind field_set oty_of].
  - unfold set_op, elem_set. destruct t; cbn [run_op bind];
      [destruct (assign (EScalar sc) v x) as [?| |]; reflexivity|destruct (bytes_set_from v x) as [[? ?]| |]; reflexivity|destruct (assign _ v x) as [?| |]; reflexivity].
  - destruct (presence_set pres (opt_index fs i)); cbn [bind]; try reflexivity. unfold set_op, elem_set. destruct t; cbn [run_op bind];
      [destruct (assign (EScalar sc) v x) as [?| |]; reflexivity|destruct (bytes_set_from v x) as [[? ?]| |]; reflexivity|destruct (assign _ v x) as [?| |]; reflexivity].
  - cbn [run_op]. destruct (rep_assign (assign t) v x) as [?| |]; reflexivity.
Qed.

Lemma call_end {A} (code : res (frame * object * unit)) (m : res A) (g : A -> value) (P : frame * object * unit -> A -> Prop) :
  rel P code m -> (forall fr ob s a, P (fr, ob, s) a -> holds_value d ob (g a)) -> same_object d (let* (_, ob', _) := code in Done ob') (let* a := m in Done (g a)).
Proof. intros H Hp. destruct code as [[[fr ob] s]| |], m; cbn [rel bind same_object] in *; try tauto. eapply Hp. exact H. Qed.

Lemma simple_change i f num k t v fr ob pres vs ovs q m g : nth_error fields i = Some f -> nth_error fs i = Some (num, k, t) -> recursive f = false ->
  holds_value d ob (VM pres vs ovs) -> nth_error vs i = Some v ->
  (forall ob s, run c (@NoBuffer unit) 0 (invoke c NoBuffer 0 3) q (fr, ob, s) = change c (place None f) m fr ob s) ->
  (forall ar fn, look_function ar fn (c_functions c) = Some (Body [q]) ->
   (let* x := m (oty_of k t) v in Done (VM pres (upd i x vs) ovs)) = g ->
   same_object d (code_call d fs os ar fn fr ob) g).
Proof.
  intros Hf Hd Hr Hh Hv Hq ar fn Hfn <-. unfold code_call. cbn [invoke]. rewrite Hfn, run_list_one, Hq. unfold change.
  rewrite (variable_type _ _ _ Hs _ _ _ _ _ Hf Hd Hr). destruct (hold_read _ _ _ _ _ _ _ Hh Hf Hr) as (v0 & Ev & _ & ->). rewrite Hv in Ev. injection Ev as <-. cbn [bind].
  destruct (m (oty_of k t) v) as [x| |]; cbn [bind same_object]; auto. apply (hold_write _ _ _ Hs _ _ _ _ _ _ x Hh Hf Hr).
Qed.

Lemma fits_not_recursive f num k t : fits_field f (num, k, t) -> k <> KRecursive -> recursive f = false.
Proof. intros [_ H] Hk. unfold recursive. destruct (f_class f); auto. destruct H. contradiction. Qed.
Lemma fits_repeated f num n t : fits_field f (num, KRep n, t) -> exists max cl, f_class f = FieldRepeated max cl.
Proof.
  intros [_ H]. destruct (f_class f); try (destruct H as [H _]; destruct (f_optional f); discriminate); eauto.
Qed.

Lemma field_call_same i f num k t ob v ar fn fr o : nth_error fields i = Some f -> nth_error fs i = Some (num, k, t) -> holds_value d ob v ->
  field_call f i k t ar fn fr o ->
  same_object d (code_call d fs os ar fn fr ob) (let* (_, v') := run_op fuel o (OElem (EMsg fs os)) v in Done v').
Proof.
  intros Hf Hd Hh Hc. destruct v as [| | | |pres vs ovs]; try contradiction. destruct (length_fields _ _ _ _ Hh) as [Lf _].
  destruct (nth_value fs vs i _ Lf Hd) as (v & Hv). destruct (Forall2_nth _ _ _ _ _ (s_fields _ _ _ Hs) Hf) as (y & Ey & Hfit). rewrite Hd in Ey. injection Ey as <-.
  inversion Hc as [x|fr'|n j x Hk|n x Hk]; subst; clear Hc.
  - rewrite (set_is_op _ _ _ _ _ _ _ _ _ Hd Hv). unfold code_call.
    pose proof (set_field_call _ _ _ Hs (@NoBuffer unit) 0 3 i f num k t v x ob pres vs ovs tt Hf Hd Hh Hv) as H.
    replace (let* (p, y) := field_set k t (opt_index fs i) pres v x in Done (VM p (upd i y vs) ovs))
      with (let* a := field_set k t (opt_index fs i) pres v x in Done (VM (fst a) (upd i (snd a) vs) ovs)) by (destruct (field_set k t (opt_index fs i) pres v x) as [[? ?]| |]; reflexivity).
    eapply call_end; [exact H|]. intros fr0 ob0 s0 a [_ Ha]. exact Ha.
  - cbn [run_op]. rewrite Hd, (aget_nat _ _ _ Hv). cbn [bind]. unfold code_call.
    pose proof (clear_field_call _ _ _ Hs (@NoBuffer unit) 0 3 i f num k t v fr ob pres vs ovs tt Hf Hd Hh Hv) as H.
    assert (Hlt : (i < length vs)%nat) by (apply nth_error_Some; congruence).
    replace (let* (_, v') := let* (pres', x') := field_clear k (clear t) (opt_index fs i) pres v in let* vs' := aset vs (Z.of_nat i) x' in Done (NoErrors, VM pres' vs' ovs) in Done v')
      with (let* a := field_clear k (clear t) (opt_index fs i) pres v in Done (VM (fst a) (upd i (snd a) vs) ovs))
      by (destruct (field_clear k (clear t) (opt_index fs i) pres v) as [[? ?]| |]; cbn [bind]; try reflexivity; rewrite aset_nat by exact Hlt; reflexivity).
    eapply call_end; [exact H|]. intros fr0 ob0 s0 a [_ Ha]. exact Ha.
  - rewrite (field_op _ _ _ _ _ _ _ _ _ Hd Hv) by discriminate. destruct (fits_repeated _ _ _ _ Hfit) as (max & cl & Ecl).
    assert (Hr : recursive f = false) by (unfold recursive; rewrite Ecl; reflexivity).
    apply (simple_change i f num (KRep n) t v (with_index j x) ob pres vs ovs (CallSetAt (place None f)) (fun ty v => var_set_at ty v j x) _ Hf Hd Hr Hh Hv); [reflexivity| |].
    + apply (function_found _ _ _ Hs). eapply field_function; [eapply nth_error_In; exact Hf|]. unfold field_functions. rewrite Ecl.
      apply in_or_app. right. apply in_or_app. right. right. left. reflexivity.
    + cbn [bind oty_of run_op var_set_at]. destruct (rep_set (assign t) v j x) as [[e y]| |]; reflexivity.
  - rewrite (field_op _ _ _ _ _ _ _ _ _ Hd Hv) by discriminate. destruct (fits_repeated _ _ _ _ Hfit) as (max & cl & Ecl).
    assert (Hr : recursive f = false) by (unfold recursive; rewrite Ecl; reflexivity).
    apply (simple_change i f num (KRep n) t v (with_value x) ob pres vs ovs (CallAdd (place None f)) (fun ty v => var_add ty v x) _ Hf Hd Hr Hh Hv); [reflexivity| |].
    + apply (function_found _ _ _ Hs). eapply field_function; [eapply nth_error_In; exact Hf|]. unfold field_functions. rewrite Ecl.
      apply in_or_app. right. apply in_or_app. right. right. right. left. reflexivity.
    + cbn [bind oty_of run_op var_add]. destruct (rep_add (assign t) v x) as [[e y]| |]; reflexivity.
Qed.

(** ** Members of oneofs *)

Lemma held_at j o ob pres vs ovs : nth_error oneofs j = Some o -> holds_value d ob (VM pres vs ovs) -> exists w, nth_error ovs j = Some w /\ oneof_held ob o w.
Proof. intros Ho (_ & _ & H). apply (Forall2_nth _ _ _ _ _ H Ho). Qed.
Lemma clear_member_run k j o i f ms t w ob fr s : nth_error oneofs j = Some o -> nth_error os j = Some ms -> nth_error (snd o) i = Some f -> nth_error ms i = Some (f_number f, t) -> oneof_held ob o w ->
  exists ob', run_list c (@NoBuffer unit) 0 (invoke c NoBuffer 0 k) (clear_code (Some (fst o)) f) (fr, ob, s) = Done (false, (fr, ob', s)) /\ same_but (oneof_cells o) ob ob'
    /\ oneof_held ob' o (if f_number f =? fst w then oneof_clear (members ms) w else w).
Proof.
  intros Ho Hms Hf Hm Hh. destruct (held_is _ _ _ Hh) as (a & y & Hi & _).
  destruct (fits_at _ _ _ Hs _ _ Ho) as (ms' & Ems & Hfit). rewrite Hms in Ems. injection Ems as <-.
  destruct (Forall2_nth _ _ _ _ _ Hfit Hf) as (e & Ee & (_ & Hopt & Hcl)). rewrite Hm in Ee. injection Ee as <-. cbn [snd] in Hcl.
  assert (Hin : In f (fields ++ concat (map snd oneofs))) by (eapply oneof_In; [exact Ho|eapply nth_error_In; exact Hf]).
  set (last := match f_class f with FieldEnum _ => ClearVar (place (Some (fst o)) f) | _ => Destroy (place (Some (fst o)) f) end).
  replace (clear_code (Some (fst o)) f) with [If (CEqNum (NEnum (id_name f)) (NVar (which_name (fst o)))) [SetWhich (which_name (fst o)) (NEnum (chars "NOT_SET")); last] []].
  2:{ unfold clear_code, last. destruct (f_class f); try contradiction; reflexivity. }
  rewrite run_list_one, run_if. unfold true_now. cbn [holds number_of]. rewrite (id_value _ _ _ Hs f Hin). cbn [bind]. unfold read_number at 1. rewrite (proj1 Hi). cbn [bind].
  destruct (f_number f =? fst w).
  - cbn [run_list run]. cbn [number_of]. rewrite not_set_value by exact Hs. cbn [bind]. unfold read_number. rewrite (proj1 Hi). cbn [bind].
    destruct (set_which _ _ _ Hs _ _ _ _ _ _ 0 Ho Hi) as [Hsb1 Hi1]. set (ob1 := with_cell ob (which_name (fst o)) (CNumber 0)) in *.
    assert (Hlast : exists v, run c (@NoBuffer unit) 0 (invoke c NoBuffer 0 k) last (fr, ob1, s) = Done (false, (fr, write ob1 (place (Some (fst o)) f) v, s))).
    { pose proof (member_type _ _ _ Hs _ _ _ _ _ _ _ Ho Hms Hf Hm) as Hty. unfold last. destruct (f_class f) eqn:Ecl; try contradiction;
        cbn [run]; unfold change; rewrite Hty, (read_member _ _ _ _ _ _ Hi1); cbn [bind]; try (eexists; reflexivity).
      cbn [fits_class] in Hcl. subst t. cbn [var_clear clear bind]. eexists. reflexivity. }
    destruct Hlast as (v & ->). cbn [bind]. destruct (set_member _ _ _ Hs _ _ _ _ _ _ f v Ho Hi1) as [Hsb2 Hi2].
    eexists. split; [reflexivity|]. split; [eapply same_but_trans; eassumption|]. unfold oneof_clear. destruct (find_member (members ms) (fst w)) as [[u ?]|]; eapply none_held; eassumption.
  - cbn [run_list]. exists ob. split; [reflexivity|]. split; [apply same_but_refl|exact Hh].
Qed.

Lemma member_call_same j o i f ms t ob v ar fn fr op : nth_error oneofs j = Some o -> nth_error os j = Some ms -> nth_error (snd o) i = Some f -> nth_error ms i = Some (f_number f, t) ->
  holds_value d ob v -> member_call f j t ar fn fr op ->
  same_object d (code_call d fs os ar fn fr ob) (let* (_, v') := run_op fuel op (OElem (EMsg fs os)) v in Done v').
Proof.
  intros Ho Hms Hf Hm Hh Hc. destruct v as [| | | |pres vs ovs]; try contradiction. destruct (held_at _ _ _ _ _ _ Ho Hh) as (w & Hw & Hhw).
  assert (Hlt : (j < length ovs)%nat) by (apply nth_error_Some; congruence).
  destruct (fits_at _ _ _ Hs _ _ Ho) as (ms' & Ems & Hfit). rewrite Hms in Ems. injection Ems as <-.
  pose proof (fits_find _ _ _ _ _ Hfit Hf Hm (members_NoDup _ _ _ Hs _ _ _ Ho Hms) (fun _ => tt)) as Hfind. change (map _ ms) with (members ms) in Hfind.
  destruct (Forall2_nth _ _ _ _ _ Hfit Hf) as (e & Ee & (_ & Hopt & Hcl)). rewrite Hm in Ee. injection Ee as <-. cbn [snd] in Hcl.
  inversion Hc as [x|fr']; subst; clear Hc.
  - cbn [run_op]. rewrite Hms, Hfind, (aget_nat _ _ _ Hw). cbn [bind].
    pose proof (set_member_call _ _ _ Hs (@NoBuffer unit) 0 1 j o i f ms t w x ob tt Ho Hms Hf Hm Hhw) as H.
    assert (E : (let* (_, v') := let* (e, x') := run_op fuel (set_op t x) (OElem t) (snd (if f_number f =? fst w then w else oneof_init (members ms) (f_number f) w)) in
                  let* ovs' := aset ovs (Z.of_nat j) (fst (if f_number f =? fst w then w else oneof_init (members ms) (f_number f) w), x') in Done (e, VM pres vs ovs') in Done v')
                = let* a := member_set ms (f_number f) t w x in Done (VM pres vs (upd j a ovs))).
    { unfold member_set, selected. set (dd := if f_number f =? fst w then w else oneof_init (members ms) (f_number f) w). unfold set_op, elem_set. destruct t; cbn [run_op bind].
      - destruct (assign (EScalar sc) (snd dd) x) as [y| |]; cbn [bind]; try reflexivity. rewrite aset_nat by exact Hlt. reflexivity.
      - destruct (bytes_set_from (snd dd) x) as [[er y]| |]; cbn [bind]; try reflexivity. rewrite aset_nat by exact Hlt. reflexivity.
      - destruct (assign _ (snd dd) x) as [y| |]; cbn [bind]; try reflexivity. rewrite aset_nat by exact Hlt. reflexivity. }
    rewrite E. unfold code_call. eapply call_end; [exact H|]. intros fr0 ob0 s0 a (_ & Hsb & Ha). eapply hold_oneof; eassumption.
  - cbn [run_op]. rewrite Hms, (aget_nat _ _ _ Hw), Hfind. cbn [bind]. rewrite aset_nat by exact Hlt. cbn [bind]. unfold code_call.
    rewrite (invoke_body _ _ _ Hs NoBuffer 0 3 0 _ (clear_code (Some (fst o)) f)).
    2:{ eapply member_function; [exact Ho|eapply nth_error_In; exact Hf|apply clear_fn]. }
    destruct (clear_member_run 3 j o i f ms t w ob fr tt Ho Hms Hf Hm Hhw) as (ob' & -> & Hsb & Ha). cbn [bind same_object]. eapply hold_oneof; eassumption.
Qed.


(** mutable_n() and what is done through the reference *)
Lemma field_through_same i f num k t ob v o : nth_error fields i = Some f -> nth_error fs i = Some (num, k, t) -> has_mutable k t -> holds_value d ob v ->
  same_object d (code_through fuel d fs os (pre "mutable_" (f_name f)) o ob) (let* (_, v') := run_op fuel (OpField i o) (OElem (EMsg fs os)) v in Done v').
Proof.
  intros Hf Hd [Hk Ht] Hh. destruct v as [| | | |pres vs ovs]; try contradiction. destruct (length_fields _ _ _ _ Hh) as [Lf _].
  destruct (nth_value fs vs i _ Lf Hd) as (v & Hv). destruct (Forall2_nth _ _ _ _ _ (s_fields _ _ _ Hs) Hf) as (y & Ey & Hfit). rewrite Hd in Ey. injection Ey as <-.
  rewrite (field_op _ _ _ _ _ _ _ _ _ Hd Hv Hk). pose proof (fits_not_recursive _ _ _ _ Hfit Hk) as Hr.
  assert (Hin : exists l, In (0%nat, pre "mutable_" (f_name f), Mutable l (place None f)) (functions fields oneofs) /\ l = match k with KRep _ => [] | _ => prepare None f end).
  { assert (Hl : exists l, In (0%nat, pre "mutable_" (f_name f), Mutable l (place None f)) (field_functions None f) /\ l = match k with KRep _ => [] | _ => prepare None f end).
    { unfold recursive in Hr. destruct Hfit as [_ Hfit]. unfold field_functions. destruct (f_class f) eqn:Ecl; try discriminate.
      all: try (destruct Hfit as [Ek Et]).
      6: { destruct Ek as (n & ->). exists []. split; [apply in_or_app; right; apply in_or_app; right; left; reflexivity|reflexivity]. }
      4: { cbn [fits_class] in Et. destruct (Ht Et) as (n & En). rewrite En in Ek. destruct (f_optional f); discriminate. }
      all: exists (prepare None f); (split; [apply in_or_app; right; apply in_or_app; right; left; reflexivity|subst k; destruct (f_optional f); reflexivity]). }
    destruct Hl as (l & H & E). exists l. split; [|exact E]. eapply field_function; [eapply nth_error_In; exact Hf|exact H]. }
  destruct Hin as (l & Hin & El). unfold code_through. rewrite (function_found _ _ _ Hs _ _ _ Hin). subst l. unfold execute.
  assert (Hopt : k = KOpt <-> f_optional f = true).
  { destruct Hfit as [_ Hfit]. unfold recursive in Hr. destruct (f_class f); try discriminate; destruct Hfit as [Ek Eo]; try (subst k; destruct (f_optional f); split; congruence).
    destruct Ek as (n & ->). rewrite Eo. split; discriminate. }
  assert (Hplain : k <> KOpt -> f_optional f = false) by (intros Hne; destruct (f_optional f); [exfalso; apply Hne, Hopt; reflexivity|reflexivity]).
  assert (Hrest : forall ob' pres', holds_value d ob' (VM pres' vs ovs) ->
    same_object d (let* ty := type_of c (place None f) in let* v := read ob' (place None f) in let* (_, v') := run_op fuel o ty v in Done (write ob' (place None f) v'))
                  (let* (_, x) := run_op fuel o (oty_of k t) v in Done (VM pres' (upd i x vs) ovs))).
  { intros ob' pres' Hh'. rewrite (variable_type _ _ _ Hs _ _ _ _ _ Hf Hd Hr). destruct (hold_read _ _ _ _ _ _ _ Hh' Hf Hr) as (v0 & Ev & _ & ->). rewrite Hv in Ev. injection Ev as <-. cbn [bind].
    destruct (run_op fuel o (oty_of k t) v) as [[e x]| |]; cbn [bind same_object]; auto. apply (hold_write _ _ _ Hs _ _ _ _ _ _ x Hh' Hf Hr). }
  destruct k as [| |n|]; try contradiction; unfold prepare.
  - rewrite Hplain by discriminate. cbn [run_list bind]. apply Hrest. exact Hh.
  - rewrite (proj1 Hopt eq_refl). rewrite run_list_one. cbn [run]. rewrite (presence_index_of _ _ _ Hs _ _ Hf (proj1 Hopt eq_refl)). cbn [bind].
    replace (ob_presence ob) with pres by (symmetry; apply Hh). destruct (presence_set pres (opt_index fs i)) as [p| |]; cbn [bind same_object]; auto.
    apply Hrest. eapply hold_presence. exact Hh.
  - cbn [run_list bind]. apply Hrest. exact Hh.
Qed.
Lemma member_through_same j o i f ms t ob v op : nth_error oneofs j = Some o -> nth_error os j = Some ms -> nth_error (snd o) i = Some f -> nth_error ms i = Some (f_number f, t) ->
  ~ is_scalar t -> holds_value d ob v ->
  same_object d (code_through fuel d fs os (pre "mutable_" (f_name f)) op ob) (let* (_, v') := run_op fuel (OpOneof j (f_number f) op) (OElem (EMsg fs os)) v in Done v').
Proof.
  intros Ho Hms Hf Hm Ht Hh. destruct v as [| | | |pres vs ovs]; try contradiction. destruct (held_at _ _ _ _ _ _ Ho Hh) as (w & Hw & Hhw).
  assert (Hlt : (j < length ovs)%nat) by (apply nth_error_Some; congruence).
  destruct (fits_at _ _ _ Hs _ _ Ho) as (ms' & Ems & Hfit). rewrite Hms in Ems. injection Ems as <-.
  pose proof (fits_find _ _ _ _ _ Hfit Hf Hm (members_NoDup _ _ _ Hs _ _ _ Ho Hms) (fun _ => tt)) as Hfind. change (map _ ms) with (members ms) in Hfind.
  destruct (Forall2_nth _ _ _ _ _ Hfit Hf) as (e & Ee & (_ & Hopt & Hcl)). rewrite Hm in Ee. injection Ee as <-. cbn [snd] in Hcl.
  cbn [run_op]. rewrite Hms, Hfind, (aget_nat _ _ _ Hw). cbn [bind].
  assert (Hin : In (0%nat, pre "mutable_" (f_name f), Mutable (select (fst o) f) (place (Some (fst o)) f)) (functions fields oneofs)).
  { eapply member_function; [exact Ho|eapply nth_error_In; exact Hf|]. unfold field_functions. destruct (f_class f) eqn:Ecl; try contradiction; cbn [fits_class] in Hcl;
      try (exfalso; apply Ht; eexists; exact Hcl); (apply in_or_app; right; apply in_or_app; right; left; reflexivity). }
  unfold code_through. rewrite (function_found _ _ _ Hs _ _ _ Hin). unfold execute.
  destruct (select_run _ _ _ Hs (@NoBuffer unit) 0 2 j o no_frame ob tt w i f ms t Ho Hms Hf Hm Hhw) as (ob1 & a1 & y1 & -> & Hsb1 & Hi1 & Hv1 & Hw1). cbn [bind].
  rewrite (member_type _ _ _ Hs _ _ _ _ _ _ _ Ho Hms Hf Hm), (read_member _ _ _ _ _ _ Hi1). cbn [bind]. unfold selected in *.
  destruct Hv1 as [Hv1|Hv1]; [|exfalso; apply Ht; eexists; exact Hv1]. rewrite Hv1.
  destruct (run_op fuel op (OElem t) (snd (if f_number f =? fst w then w else oneof_init (members ms) (f_number f) w))) as [[e x]| |]; cbn [bind same_object]; auto.
  rewrite aset_nat by exact Hlt. cbn [bind same_object]. destruct (set_member _ _ _ Hs _ _ _ _ _ _ f x Ho Hi1) as [Hsb2 Hi2].
  eapply hold_oneof; [exact Hs|exact Hh|exact Ho|eapply same_but_trans; eassumption|]. eapply member_held; [exact Hs|exact Ho|exact Hf|symmetry; exact Hw1|rewrite Hw1; exact Hi2].
Qed.

(** ** Programs *)

Lemma code_deserialize_object bytes ob v : holds_value d ob v -> run_op fuel (OpDeserialize bytes) (OElem (EMsg fs os)) v <> Fuel ->
  same_object d (user_run fuel d fs os (UDeserialize bytes) ob) (let* (_, v') := run_op fuel (OpDeserialize bytes) (OElem (EMsg fs os)) v in Done v').
Proof.
  intros Hh Hfuel. cbn [run_op user_run] in *.
  assert (Hf : deserialize fuel (EMsg fs os) rfix (rfix_ops (zlen bytes)) v (rfix_of bytes) <> Fuel) by (intros E; apply Hfuel; rewrite E; reflexivity).
  pose proof (code_deserialize_same _ _ _ Hs (rfix_ops (zlen bytes)) fuel ob v (rfix_of bytes) Hh Hf) as H.
  destruct (code_deserialize fuel d fs os (rfix_ops (zlen bytes)) ob (rfix_of bytes)) as [[[e ob'] s]| |],
    (deserialize fuel (EMsg fs os) rfix (rfix_ops (zlen bytes)) v (rfix_of bytes)) as [[[e' v'] s']| |]; cbn [bind same_end same_object] in *; tauto.
Qed.
Lemma user_run_same u o ob v : stands_for d fs os u o -> holds_value d ob v -> run_op fuel o (OElem (EMsg fs os)) v <> Fuel ->
  same_object d (user_run fuel d fs os u ob) (let* (_, v') := run_op fuel o (OElem (EMsg fs os)) v in Done v').
Proof.
  intros Hu Hh Hfuel. destruct Hu; cbn [user_run].
  - eapply field_call_same; eassumption.
  - eapply field_through_same; eassumption.
  - eapply (member_call_same j (n, ol)); eassumption.
  - eapply (member_through_same j (n, ol)); eassumption.
  - cbn [run_op]. pose proof (code_clear_same ob v Hh) as H. destruct (clear (EMsg fs os) v); exact H.
  - cbn [run_op]. pose proof (code_assign_same ob rhs v x Hh H) as H'. destruct (assign (EMsg fs os) v x); exact H'.
  - apply code_deserialize_object; assumption.
Qed.
Lemma user_runs_same us ops ob v : Forall2 (stands_for d fs os) us ops -> holds_value d ob v -> run_ops fuel ops (OElem (EMsg fs os)) v <> Fuel ->
  same_object d (user_runs fuel d fs os us ob) (run_ops fuel ops (OElem (EMsg fs os)) v).
Proof.
  intros H. revert ob v. induction H as [|u o us ops Hu _ IH]; intros ob v Hh Hfuel; [exact Hh|]. cbn [user_runs run_ops] in *.
  assert (Hf : run_op fuel o (OElem (EMsg fs os)) v <> Fuel) by (intros E; apply Hfuel; rewrite E; reflexivity).
  pose proof (user_run_same u o ob v Hu Hh Hf) as Ho.
  destruct (user_run fuel d fs os u ob) as [ob'| |], (run_op fuel o (OElem (EMsg fs os)) v) as [[e v']| |]; cbn [bind same_object] in *; try tauto. apply IH; assumption.
Qed.

(** ** Getters *)

Lemma code_has_field i f ob v : nth_error fields i = Some f -> f_optional f = true -> holds_value d ob v ->
  code_has d fs os ob (pre "has_" (f_name f)) = has_field fs v i.
Proof.
  intros Hf Ho Hh. destruct v as [| | | |pres vs ovs]; try contradiction. unfold code_has, has_field. rewrite (has_field_call _ _ _ Hs _ _ _ Hf Ho).
  destruct (Forall2_nth _ _ _ _ _ (s_fields _ _ _ Hs) Hf) as ([[num k] t] & Hd & _ & Hfit). rewrite Hd.
  replace (ob_presence ob) with pres by (symmetry; apply Hh).
  replace k with KOpt; [reflexivity|]. rewrite Ho in Hfit. destruct (f_class f); try (destruct Hfit; congruence); destruct Hfit; discriminate.
Qed.
Lemma code_has_member j o f ob v : nth_error oneofs j = Some o -> In f (snd o) -> holds_value d ob v ->
  code_has d fs os ob (pre "has_" (f_name f)) = has_member v j (f_number f).
Proof.
  intros Ho Hf Hh. destruct v as [| | | |pres vs ovs]; try contradiction. destruct (held_at _ _ _ _ _ _ Ho Hh) as (w & Hw & Hhw). destruct (held_is _ _ _ Hhw) as (a & y & Hi & _).
  unfold code_has. rewrite (has_member_call _ _ _ Hs _ _ _ _ _ _ _ Ho Hf Hi). unfold has_member, which_oneof. rewrite (aget_nat _ _ _ Hw). reflexivity.
Qed.
Lemma code_which_oneof j o ob v : nth_error oneofs j = Some o -> holds_value d ob v -> code_which d fs os ob (pre "get_which_" (fst o)) = which_oneof v j.
Proof.
  intros Ho Hh. destruct v as [| | | |pres vs ovs]; try contradiction. destruct (held_at _ _ _ _ _ _ Ho Hh) as (w & Hw & Hhw). destruct (held_is _ _ _ Hhw) as (a & y & Hi & _).
  unfold code_which. cbn [number_of]. rewrite (function_found _ _ _ Hs _ _ _ (which_function _ _ _ Ho)). cbn [with_rhs fr_rhs]. unfold read_number. rewrite (proj1 Hi).
  unfold which_oneof. rewrite (aget_nat _ _ _ Hw). reflexivity.
Qed.
Lemma code_get_field i f num k t ob pres vs ovs : nth_error fields i = Some f -> nth_error fs i = Some (num, k, t) -> k <> KRecursive -> holds_value d ob (VM pres vs ovs) ->
  exists v, nth_error vs i = Some v /\ code_get d fs os ob (pre "get_" (f_name f)) = Done v.
Proof.
  intros Hf Hd Hk Hh. destruct (length_fields _ _ _ _ Hh) as [Lf _]. destruct (nth_value fs vs i _ Lf Hd) as (v & Hv). exists v. split; [exact Hv|].
  destruct (Forall2_nth _ _ _ _ _ (s_fields _ _ _ Hs) Hf) as (y & Ey & Hfit). rewrite Hd in Ey. injection Ey as <-.
  unfold code_get. rewrite (get_field_of _ _ _ Hs i f ob pres vs ovs v Hf Hh Hv), (fits_not_recursive _ _ _ _ Hfit Hk). reflexivity.
Qed.
Lemma code_get_recursive i f num t ob pres vs ovs : nth_error fields i = Some f -> nth_error fs i = Some (num, KRecursive, t) -> holds_value d ob (VM pres vs ovs) ->
  code_get d fs os ob (pre "get_" (f_name f)) = Done (VS 0).
Proof.
  intros Hf Hd Hh. destruct (length_fields _ _ _ _ Hh) as [Lf _]. destruct (nth_value fs vs i _ Lf Hd) as (v & Hv).
  destruct (Forall2_nth _ _ _ _ _ (s_fields _ _ _ Hs) Hf) as (y & Ey & Hfit). rewrite Hd in Ey. injection Ey as <-.
  unfold code_get. rewrite (get_field_of _ _ _ Hs i f ob pres vs ovs v Hf Hh Hv). replace (recursive f) with true; [reflexivity|]. destruct Hfit as [_ Hfit]. unfold recursive.
  destruct (f_class f); try reflexivity; destruct Hfit as [Hk _]; try (destruct (f_optional f); discriminate). destruct Hk as (n & Hk). discriminate.
Qed.
Lemma code_get_member j o f ob pres vs ovs w : nth_error oneofs j = Some o -> In f (snd o) -> holds_value d ob (VM pres vs ovs) -> nth_error ovs j = Some w -> fst w = f_number f ->
  code_get d fs os ob (pre "get_" (f_name f)) = Done (snd w).
Proof.
  intros Ho Hf Hh Hw E. destruct (held_at _ _ _ _ _ _ Ho Hh) as (w' & Hw' & Hhw). rewrite Hw in Hw'. injection Hw' as <-. destruct (held_is _ _ _ Hhw) as (a & y & Hi & Hv).
  unfold code_get, get_of. rewrite (function_found _ _ _ Hs _ _ _ (member_function d _ _ _ _ Ho Hf (get_fn (Some (fst o)) f))).
  destruct (fits_at _ _ _ Hs _ _ Ho) as (ms & Hms & Hfit). destruct (In_nth_error _ _ Hf) as (i & Hi').
  destruct (Forall2_nth _ _ _ _ _ Hfit Hi') as (e & Ee & (_ & _ & Hcl)).
  destruct (f_class f); try contradiction; rewrite (read_member _ _ _ _ _ _ Hi), (Hv f Hf (eq_sym E)); reflexivity.
Qed.

(** ** field_number_to_name() *)

Lemma code_name_is n : code_name d fs os n = Done (match find (by_number n) (fields ++ concat (map snd oneofs)) with Some f => f_name f | None => chars "Invalid FieldNumber" end).
Proof.
  unfold code_name, execute, name_body. rewrite run_list_one.
  set (code := fun f => [SetName (name_constant (f_name f))]).
  pose proof (run_blocks c (@NoBuffer unit) 0 (invoke c NoBuffer 0 4) NFieldId (map (fun f => ([id_name f], code f)) (fields ++ concat (map snd oneofs)))
                [SetNameTo (chars "Invalid FieldNumber")] (with_field_id n VARINT) nothing tt n eq_refl) as H.
  rewrite map_map in H. unfold block_code in H. cbn [fst snd map app] in H.
  assert (E : concat (map name_case fields) ++ concat (map (fun o => concat (map name_case (snd o))) oneofs) ++ [Default; SetNameTo (chars "Invalid FieldNumber"); Break]
    = concat (map (fun f => Case (id_name f) :: code f ++ [Break]) (fields ++ concat (map snd oneofs))) ++ [Default; SetNameTo (chars "Invalid FieldNumber"); Break]).
  { rewrite map_app, concat_app, <- app_assoc. f_equal. f_equal. clear. induction oneofs as [|o l IH]; [reflexivity|]. cbn [map concat]. rewrite map_app, concat_app, IH. reflexivity. }
  rewrite E. cbn [app] in H. rewrite H; [|apply Forall_forall; intros x Hx; apply in_map_iff in Hx; destruct Hx as (f & <- & _); reflexivity|reflexivity].
  rewrite (chosen_fields _ _ _ Hs code) by apply incl_refl. destruct (find (by_number n) (fields ++ concat (map snd oneofs))) as [f|] eqn:Ef; cbn [option_map].
  - apply find_some in Ef. unfold code. cbn [snd run_list run]. rewrite (constant_found _ _ _ Hs f (proj1 Ef)). reflexivity.
  - reflexivity.
Qed.
Lemma code_name_field f : In f (fields ++ concat (map snd oneofs)) -> code_name d fs os (f_number f) = Done (f_name f).
Proof.
  intros Hf. rewrite code_name_is. destruct (find (by_number (f_number f)) (fields ++ concat (map snd oneofs))) as [g|] eqn:E.
  - apply find_some in E. destruct E as [Hg E]. unfold by_number in E. apply Z.eqb_eq in E. rewrite (number_inj _ _ _ Hs f g Hf Hg E). reflexivity.
  - exfalso. apply (find_none _ _ E) in Hf. unfold by_number in Hf. lia.
Qed.
Lemma code_name_other n : (forall f, In f (fields ++ concat (map snd oneofs)) -> f_number f <> n) -> code_name d fs os n = Done (chars "Invalid FieldNumber").
Proof.
  intros Hn. rewrite code_name_is. destruct (find (by_number n) (fields ++ concat (map snd oneofs))) as [g|] eqn:E; [|reflexivity].
  apply find_some in E. destruct E as [Hg E]. unfold by_number in E. apply Z.eqb_eq in E. exfalso. apply (Hn g Hg). auto.
Qed.
End Calls.
