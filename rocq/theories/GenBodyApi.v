(** * GenBodyApi: clear(), operator= and the accessors of a generated class do what Api.v says. *)
From Coq Require Import String.
From Verif Require Import Base Buffers Wire Schema Fields Message Api Spec BitLemmas Struct Printf Generator GenMembers GenBody SpecBody GenOrder GenBodyRun GenBodySound
  GenBodyOneof Tables ReadAny ApiProofs DecodeProofs GenBodySer GenBodyDes.
From Coq Require Import List ZifyBool ZifyNat Lia.

(** What set_<field>(x) does to the presence bits and the field. *)
Definition field_set (kd : fkind) (t : ety) (oi : Z) (pres : list Z) (v x : value) : res (list Z * value) :=
  match kd with
  | KPlain => let* v' := elem_set t (assign t) v x in Done (pres, v')
  | KOpt => let* pres' := presence_set pres oi in let* v' := elem_set t (assign t) v x in Done (pres', v')
  | KRep _ => let* v' := rep_assign (assign t) v x in Done (pres, v')
  | KRecursive => Done (pres, v)
  end.
Definition member_set (ms : odesc) (id : Z) (t : ety) (w : Z * value) (x : value) : res (Z * value) :=
  let d := selected ms id w in let* v' := elem_set t (assign t) (snd d) x in Done (fst d, v').

Section Class.
Context (d : mdef) (fs : list fdesc) (os : list odesc) (Hs : sound d fs os).
Notation c := (class_of d fs os).
Notation fields := (fields_of d).
Notation oneofs := (oneofs_of d).
Context {S : Type} (b : buffer S) (fuel : nat).
Notation call k := (invoke c b fuel k).
Notation rl k := (run_list c b fuel (call k)).

Definition changed (fr : frame) (s : S) (i : nat) (vs : list value) (ovs : list (Z * value)) (x : bool * (frame * object * S)) (y : list Z * value) : Prop :=
  let '(br, (fr', ob', s')) := x in br = false /\ fr' = fr /\ s' = s /\ holds_value d ob' (VM (fst y) (upd i (snd y) vs) ovs).
Lemma field_change k i f num kd t v fr ob pres vs ovs s q m : nth_error fields i = Some f -> nth_error fs i = Some (num, kd, t) -> recursive f = false ->
  holds_value d ob (VM pres vs ovs) -> nth_error vs i = Some v -> (forall fr ob s, run c b fuel (call k) q (fr, ob, s) = change c (place None f) m fr ob s) -> fr = fr ->
  rel (changed fr s i vs ovs) (rl k [q] (fr, ob, s)) (let* v' := m (oty_of kd t) v in Done (pres, v')).
Proof.
  intros Hf Hd Hr Hh Hv Hq _. rewrite run_list_one, Hq. unfold change. rewrite (variable_type _ _ _ Hs _ _ _ _ _ Hf Hd Hr).
  destruct (hold_read _ _ _ _ _ _ _ Hh Hf Hr) as (v0 & Ev & _ & ->). rewrite Hv in Ev. injection Ev as <-. cbn [bind].
  destruct (m (oty_of kd t) v) as [v'| |]; cbn [bind rel]; auto. repeat split; auto; apply (hold_write _ _ _ Hs _ _ _ _ _ _ v' Hh Hf Hr).
Qed.
Lemma field_change_pres k i f num kd t v fr ob pres vs ovs s p q m g : nth_error fields i = Some f -> nth_error fs i = Some (num, kd, t) -> recursive f = false ->
  holds_value d ob (VM pres vs ovs) -> nth_error vs i = Some v -> (forall fr ob s, run c b fuel (call k) q (fr, ob, s) = change c (place None f) m fr ob s) -> f_optional f = true ->
  (forall fr ob s, run c b fuel (call k) p (fr, ob, s) = let* i := presence_value c (upper (f_name f)) in let* ps := g (ob_presence ob) i in Done (false, (fr, with_presence ob ps, s))) ->
  rel (changed fr s i vs ovs) (rl k [p; q] (fr, ob, s)) (let* pres' := g pres (opt_index fs i) in let* v' := m (oty_of kd t) v in Done (pres', v')).
Proof.
  intros Hf Hd Hr Hh Hv Hq Ho Hp. change [p; q] with ([p] ++ [q]). rewrite run_list_app, run_list_one, Hp, (presence_index_of _ _ _ Hs _ _ Hf Ho). cbn [bind].
  replace (ob_presence ob) with pres by (symmetry; apply Hh). destruct (g pres (opt_index fs i)) as [pres'| |]; cbn [bind rel]; auto.
  apply (field_change k i f num kd t v fr (with_presence ob pres') pres' vs ovs s q m Hf Hd Hr); auto. eapply hold_presence. exact Hh.
Qed.

Lemma set_value_run k i f num kd t v x ob pres vs ovs s : nth_error fields i = Some f -> nth_error fs i = Some (num, kd, t) -> holds_value d ob (VM pres vs ovs) -> nth_error vs i = Some v ->
  rel (changed (with_value x) s i vs ovs) (rl k (set_code None f) (with_value x, ob, s)) (field_set kd t (opt_index fs i) pres v x).
Proof.
  intros Hf Hd Hh Hv. destruct (Forall2_nth _ _ _ _ _ (s_fields _ _ _ Hs) Hf) as (y & Ey & Hfit). rewrite Hd in Ey. injection Ey as <-. destruct Hfit as [Hnum Hfit].
  destruct (recursive f) eqn:Erec.
  { unfold recursive in Erec. unfold set_code. destruct (f_class f); try discriminate. destruct Hfit as [-> _]. cbn [run_list field_set rel changed fst snd]. rewrite (upd_same _ _ _ Hv). auto. }
  assert (Hgen : forall q m, (forall fr ob s, fr_value fr = x -> run c b fuel (call k) q (fr, ob, s) = change c (place None f) m fr ob s) -> kd = (if f_optional f then KOpt else KPlain) ->
      m (OElem t) v = elem_set t (assign t) v x ->
      rel (changed (with_value x) s i vs ovs) (rl k (prepare None f ++ [q]) (with_value x, ob, s)) (field_set kd t (opt_index fs i) pres v x)).
  { intros q m Hq -> Hm. unfold prepare. destruct (f_optional f) eqn:Eo; cbn [app field_set]; rewrite <- Hm.
    - change [SetPresence (upper (f_name f)); q] with ([SetPresence (upper (f_name f))] ++ [q]). rewrite run_list_app, run_list_one. cbn [run]. rewrite (presence_index_of _ _ _ Hs _ _ Hf Eo). cbn [bind].
      replace (ob_presence ob) with pres by (symmetry; apply Hh). destruct (presence_set pres (opt_index fs i)) as [pres'| |]; cbn [bind rel]; auto.
      rewrite run_list_one, Hq by reflexivity. unfold change. rewrite (variable_type _ _ _ Hs _ _ _ _ _ Hf Hd Erec).
      destruct (hold_read _ _ _ _ _ _ _ (hold_presence _ _ _ _ _ pres' Hh) Hf Erec) as (v0 & Ev & _ & ->). rewrite Hv in Ev. injection Ev as <-. cbn [bind oty_of].
      destruct (m (OElem t) v) as [v'| |]; cbn [bind rel]; auto. repeat split; auto; apply (hold_write _ _ _ Hs _ _ _ _ _ _ v' (hold_presence _ _ _ _ _ pres' Hh) Hf Erec).
    - rewrite run_list_one, Hq by reflexivity. unfold change. rewrite (variable_type _ _ _ Hs _ _ _ _ _ Hf Hd Erec).
      destruct (hold_read _ _ _ _ _ _ _ Hh Hf Erec) as (v0 & Ev & _ & ->). rewrite Hv in Ev. injection Ev as <-. cbn [bind oty_of].
      destruct (m (OElem t) v) as [v'| |]; cbn [bind rel]; auto. repeat split; auto; apply (hold_write _ _ _ Hs _ _ _ _ _ _ v' Hh Hf Erec). }
  unfold set_code. unfold recursive in Erec. destruct (f_class f) as [sc|n|n|ref|ref|n cl|] eqn:Ecl; try discriminate; try (destruct Hfit as [Hk Ht]).
  - cbn [fits_class] in Ht. subst t. apply (Hgen _ (fun ty v => var_assign ty v x)); auto. intros fr0 ob0 s0 <-. reflexivity.
  - destruct Ht as (n' & ->). apply (Hgen _ (fun ty v => var_set ty v x)); auto. intros fr0 ob0 s0 <-. reflexivity.
  - destruct Ht as (n' & ->). apply (Hgen _ (fun ty v => var_set ty v x)); auto. intros fr0 ob0 s0 <-. reflexivity.
  - cbn [fits_class] in Ht. subst t. apply (Hgen _ (fun ty v => var_assign ty v x)); auto. intros fr0 ob0 s0 <-. reflexivity.
  - destruct Ht as (fs' & os' & ->). apply (Hgen _ (fun ty v => var_assign ty v x)); auto. intros fr0 ob0 s0 <-. reflexivity.
  - destruct Hk as (n' & ->). unfold prepare. rewrite Ht. cbn [app field_set]. rewrite run_list_one. cbn [run]. unfold change.
    assert (Er : recursive f = false) by (unfold recursive; rewrite Ecl; reflexivity). rewrite (variable_type _ _ _ Hs _ _ _ _ _ Hf Hd Er).
    destruct (hold_read _ _ _ _ _ _ _ Hh Hf Er) as (v0 & Ev & _ & ->). rewrite Hv in Ev. injection Ev as <-. cbn [bind oty_of var_assign with_value fr_value].
    destruct (rep_assign (assign t) v x) as [v'| |]; cbn [bind rel]; auto. repeat split; auto; apply (hold_write _ _ _ Hs _ _ _ _ _ _ v' Hh Hf Er).
Qed.
Lemma clear_value_run k i f num kd t v fr ob pres vs ovs s : nth_error fields i = Some f -> nth_error fs i = Some (num, kd, t) -> holds_value d ob (VM pres vs ovs) -> nth_error vs i = Some v ->
  rel (changed fr s i vs ovs) (rl k (clear_code None f) (fr, ob, s)) (field_clear kd (clear t) (opt_index fs i) pres v).
Proof.
  intros Hf Hd Hh Hv. destruct (Forall2_nth _ _ _ _ _ (s_fields _ _ _ Hs) Hf) as (y & Ey & Hfit). rewrite Hd in Ey. injection Ey as <-. destruct Hfit as [Hnum Hfit].
  destruct (recursive f) eqn:Erec.
  { unfold recursive in Erec. unfold clear_code. destruct (f_class f); try discriminate. destruct Hfit as [-> _]. cbn [run_list field_clear rel changed fst snd]. rewrite (upd_same _ _ _ Hv). auto. }
  replace (clear_code None f) with ((if f_optional f then [ClearPresence (upper (f_name f))] else []) ++ [ClearVar (place None f)])
    by (unfold clear_code; unfold recursive in Erec; destruct (f_class f); try discriminate; reflexivity).
  assert (Hk : kd = (if f_optional f then KOpt else KPlain) \/ (exists n, kd = KRep n) /\ f_optional f = false)
    by (unfold recursive in Erec; destruct (f_class f); try discriminate; tauto).
  destruct Hk as [->|[[n ->] Ho]].
  - destruct (f_optional f) eqn:Eo; cbn [app field_clear].
    + apply (field_change_pres k i f num KOpt t v fr ob pres vs ovs s _ _ var_clear presence_clear Hf Hd Erec Hh Hv); auto.
    + apply (field_change k i f num KPlain t v fr ob pres vs ovs s _ var_clear Hf Hd Erec Hh Hv); auto.
  - rewrite Ho. cbn [app field_clear]. apply (field_change k i f num (KRep n) t v fr ob pres vs ovs s _ var_clear Hf Hd Erec Hh Hv); auto.
Qed.

Definition changed_end (s : S) (i : nat) (vs : list value) (ovs : list (Z * value)) (x : frame * object * S) (y : list Z * value) : Prop :=
  let '(_, ob', s') := x in s' = s /\ holds_value d ob' (VM (fst y) (upd i (snd y) vs) ovs).
Lemma set_fn f : In (1%nat, pre "set_" (f_name f), Body (set_code None f)) (field_functions None f).
Proof. unfold field_functions. apply in_or_app. right. right. left. reflexivity. Qed.
Lemma clear_fn o f : In (0%nat, pre "clear_" (f_name f), Body (clear_code o f)) (field_functions o f).
Proof. unfold field_functions. apply in_or_app. right. left. reflexivity. Qed.
Lemma get_fn o f : In (0%nat, pre "get_" (f_name f), match f_class f with FieldErrorRecursive => GetZero | _ => Get (place o f) end) (field_functions o f).
Proof. unfold field_functions. apply in_or_app. right. right. right. left. reflexivity. Qed.

Lemma set_field_call k i f num kd t v x ob pres vs ovs s : nth_error fields i = Some f -> nth_error fs i = Some (num, kd, t) -> holds_value d ob (VM pres vs ovs) -> nth_error vs i = Some v ->
  rel (changed_end s i vs ovs) (call (Datatypes.S k) 1 (pre "set_" (f_name f)) (with_value x) ob s) (field_set kd t (opt_index fs i) pres v x).
Proof.
  intros Hf Hd Hh Hv. rewrite (invoke_body _ _ _ Hs _ _ _ _ _ (set_code None f)) by (eapply field_function; [eapply nth_error_In; exact Hf|apply set_fn]).
  pose proof (set_value_run k i f num kd t v x ob pres vs ovs s Hf Hd Hh Hv) as H.
  destruct (rl k (set_code None f) (with_value x, ob, s)) as [[br [[fr' ob'] s']]| |], (field_set kd t (opt_index fs i) pres v x) as [[p' v']| |]; cbn [bind rel changed changed_end] in *; tauto.
Qed.
Lemma clear_field_call k i f num kd t v fr ob pres vs ovs s : nth_error fields i = Some f -> nth_error fs i = Some (num, kd, t) -> holds_value d ob (VM pres vs ovs) -> nth_error vs i = Some v ->
  rel (changed_end s i vs ovs) (call (Datatypes.S k) 0 (pre "clear_" (f_name f)) fr ob s) (field_clear kd (clear t) (opt_index fs i) pres v).
Proof.
  intros Hf Hd Hh Hv. rewrite (invoke_body _ _ _ Hs _ _ _ _ _ (clear_code None f)) by (eapply field_function; [eapply nth_error_In; exact Hf|apply clear_fn]).
  pose proof (clear_value_run k i f num kd t v fr ob pres vs ovs s Hf Hd Hh Hv) as H.
  destruct (rl k (clear_code None f) (fr, ob, s)) as [[br [[fr' ob'] s']]| |], (field_clear kd (clear t) (opt_index fs i) pres v) as [[p' v']| |]; cbn [bind rel changed changed_end] in *; tauto.
Qed.

(** ** A statement for every field, one after the other *)

Fixpoint each (g : nat -> list Z -> value -> res (list Z * value)) (n : nat) (pres : list Z) (vl : list value) : res (list Z * list value) :=
  match vl with
  | [] => Done (pres, [])
  | v :: vl' => let* (p, v') := g n pres v in let* (p', vs') := each g (Datatypes.S n) p vl' in Done (p', v' :: vs')
  end.
Lemma upd_mid {A} (pf : list A) v v' vl : upd (length pf) v' (pf ++ v :: vl) = (pf ++ [v']) ++ vl.
Proof. induction pf as [|a pf IH]; [reflexivity|]. cbn [length app upd]. f_equal. exact IH. Qed.
Lemma nth_mid {A} (pf : list A) v vl : nth_error (pf ++ v :: vl) (length pf) = Some v.
Proof. induction pf as [|a pf IH]; [reflexivity|]. exact IH. Qed.
Lemma each_run k ovs fr s (code : field -> list stmt) g :
  (forall i f ob pres vs v, nth_error fields i = Some f -> nth_error vs i = Some v -> holds_value d ob (VM pres vs ovs) ->
     rel (changed fr s i vs ovs) (rl k (code f) (fr, ob, s)) (g i pres v)) ->
  forall l n pf vl ob pres, skipn n fields = l -> n = length pf -> holds_value d ob (VM pres (pf ++ vl) ovs) ->
  rel (fun '(br, (fr', ob', s')) '(p', vs') => br = false /\ fr' = fr /\ s' = s /\ holds_value d ob' (VM p' (pf ++ vs') ovs))
    (rl k (concat (map code l)) (fr, ob, s)) (each g n pres vl).
Proof.
  intros Hg. induction l as [|f l IH]; intros n pf vl ob pres Hn Hlen Hh.
  - assert (Hl : length fields = length (pf ++ vl)) by (pose proof (proj1 (proj2 Hh)) as H'; clear - H'; induction H'; cbn; congruence).
    apply (f_equal (@length _)) in Hn. rewrite skipn_length in Hn. cbn in Hn. rewrite app_length in Hl. destruct vl as [|v vl]; [|cbn in Hl; lia].
    cbn [map concat run_list each rel]. auto.
  - destruct (skipn_head _ _ _ _ Hn) as [Hf Hn']. destruct (Forall2_nth _ _ _ _ _ (proj1 (proj2 Hh)) Hf) as (v0 & Hv0 & _).
    destruct vl as [|v vl]; [rewrite app_nil_r in Hv0; apply nth_error_lt in Hv0; lia|]. subst n. rewrite nth_mid in Hv0. injection Hv0 as <-.
    cbn [map concat each]. rewrite run_list_app. eapply rel_bind; [apply (Hg _ _ _ _ _ v Hf (nth_mid pf v vl) Hh)|].
    intros [br [[fr' ob'] s']] [p' v'] (-> & -> & -> & Hh'). cbn [fst snd] in Hh'. rewrite upd_mid in Hh'.
    specialize (IH (Datatypes.S (length pf)) (pf ++ [v']) vl ob' p' Hn'). rewrite app_length in IH. cbn [length] in IH. specialize (IH ltac:(lia) Hh').
    destruct (rl k (concat (map code l)) (fr, ob', s)) as [[br2 [[fr2 ob2] s2]]| |], (each g (Datatypes.S (length pf)) p' vl) as [[p2 vs2]| |]; cbn [rel bind] in *; try tauto.
    rewrite <- app_assoc in IH. exact IH.
Qed.
Fixpoint each_oneof (g : nat -> Z * value -> res (Z * value)) (n : nat) (vl : list (Z * value)) : res (list (Z * value)) :=
  match vl with
  | [] => Done []
  | v :: vl' => let* v' := g n v in let* vs' := each_oneof g (Datatypes.S n) vl' in Done (v' :: vs')
  end.
Lemma each_oneof_run k fr s (code : text * list field -> list stmt) g :
  (forall j o ob w, nth_error oneofs j = Some o -> oneof_held ob o w ->
     rel (fun '(br, (fr', ob', s')) w' => br = false /\ fr' = fr /\ s' = s /\ same_but (oneof_cells o) ob ob' /\ oneof_held ob' o w') (rl k (code o) (fr, ob, s)) (g j w)) ->
  forall l n pf vl ob pres vs, skipn n oneofs = l -> n = length pf -> holds_value d ob (VM pres vs (pf ++ vl)) ->
  rel (fun '(br, (fr', ob', s')) ovs' => br = false /\ fr' = fr /\ s' = s /\ holds_value d ob' (VM pres vs (pf ++ ovs')))
    (rl k (concat (map code l)) (fr, ob, s)) (each_oneof g n vl).
Proof.
  intros Hg. induction l as [|o l IH]; intros n pf vl ob pres vs Hn Hlen Hh.
  - assert (Hl : length oneofs = length (pf ++ vl)) by (pose proof (proj2 (proj2 Hh)) as H'; clear - H'; induction H'; cbn; congruence).
    apply (f_equal (@length _)) in Hn. rewrite skipn_length in Hn. cbn in Hn. rewrite app_length in Hl. destruct vl as [|v vl]; [|cbn in Hl; lia].
    cbn [map concat run_list each_oneof rel]. auto.
  - destruct (skipn_head _ _ _ _ Hn) as [Ho Hn']. destruct (Forall2_nth _ _ _ _ _ (proj2 (proj2 Hh)) Ho) as (w0 & Hw0 & Hhw).
    destruct vl as [|w vl]; [rewrite app_nil_r in Hw0; apply nth_error_lt in Hw0; lia|]. subst n. rewrite nth_mid in Hw0. injection Hw0 as <-.
    cbn [map concat each_oneof]. rewrite run_list_app. eapply rel_bind; [apply (Hg _ _ _ _ Ho Hhw)|].
    intros [br [[fr' ob'] s']] w' (-> & -> & -> & Hsb & Hw'). pose proof (hold_oneof _ _ _ Hs _ _ _ _ _ _ _ _ Hh Ho Hsb Hw') as Hh'. rewrite upd_mid in Hh'.
    specialize (IH (Datatypes.S (length pf)) (pf ++ [w']) vl ob' pres vs Hn'). rewrite app_length in IH. cbn [length] in IH. specialize (IH ltac:(lia) Hh').
    destruct (rl k (concat (map code l)) (fr, ob', s)) as [[br2 [[fr2 ob2] s2]]| |], (each_oneof g (Datatypes.S (length pf)) vl) as [ovs2| |]; cbn [rel bind] in *; try tauto.
    rewrite <- app_assoc in IH. exact IH.
Qed.

(** ** clear() *)

Definition g_clear (i : nat) (pres : list Z) (v : value) : res (list Z * value) :=
  match nth_error fs i with Some (_, kd, t) => field_clear kd (clear t) (opt_index fs i) pres v | None => UB end.
Lemma fields_clear_each : forall ds n vl pres, skipn n fs = ds -> length ds = length vl ->
  fields_clear (map (fun '(num, k, t) => (num, k, t, clear t)) ds) (opt_index fs n) pres vl = each g_clear n pres vl.
Proof.
  induction ds as [|[[num kd] t] ds IH]; intros n [|v vl] pres Hn Hl; try discriminate; [reflexivity|]. destruct (skipn_head _ _ _ _ Hn) as [Hd Hn'].
  cbn [map fields_clear each]. unfold g_clear at 1. rewrite Hd. destruct (field_clear kd (clear t) (opt_index fs n) pres v) as [[p v']| |]; cbn [bind]; auto.
  rewrite <- (opt_index_next _ _ _ _ _ Hd), IH; auto.
Qed.
Definition g_clear_oneof (j : nat) (w : Z * value) : res (Z * value) := match nth_error os j with Some ms => Done (oneof_clear (members ms) w) | None => UB end.
Lemma find_member_same {X Y} (x : ety -> X) (y : ety -> Y) (ms : odesc) z :
  option_map fst (find_member (map (fun '(num, t) => (num, t, x t)) ms) z) = option_map fst (find_member (map (fun '(num, t) => (num, t, y t)) ms) z).
Proof. induction ms as [|[num t] ms IH]; [reflexivity|]. cbn [map find_member]. destruct (num =? z); [reflexivity|exact IH]. Qed.
Lemma oneof_clear_same {X Y} (x : ety -> X) (y : ety -> Y) (ms : odesc) w :
  oneof_clear (map (fun '(num, t) => (num, t, x t)) ms) w = oneof_clear (map (fun '(num, t) => (num, t, y t)) ms) w.
Proof.
  unfold oneof_clear. pose proof (find_member_same x y ms (fst w)) as H. destruct (find_member (map (fun '(num, t) => (num, t, x t)) ms) (fst w)) as [[t ?]|],
    (find_member (map (fun '(num, t) => (num, t, y t)) ms) (fst w)) as [[t' ?]|]; cbn [option_map fst] in H; try discriminate; [injection H as ->|]; reflexivity.
Qed.
Lemma oneof_init_same {X Y} (x : ety -> X) (y : ety -> Y) (ms : odesc) id w :
  oneof_init (map (fun '(num, t) => (num, t, x t)) ms) id w = oneof_init (map (fun '(num, t) => (num, t, y t)) ms) id w.
Proof.
  unfold oneof_init. rewrite (oneof_clear_same x y). pose proof (find_member_same x y ms id) as H. destruct (find_member (map (fun '(num, t) => (num, t, x t)) ms) id) as [[t ?]|],
    (find_member (map (fun '(num, t) => (num, t, y t)) ms) id) as [[t' ?]|]; cbn [option_map fst] in H; try discriminate; [injection H as ->|]; reflexivity.
Qed.
Lemma oneofs_clear_each {X} (x : ety -> X) : forall ds n vl, skipn n os = ds -> length ds = length vl ->
  oneofs_clear (map (map (fun '(num, t) => (num, t, x t))) ds) vl = each_oneof g_clear_oneof n vl.
Proof.
  induction ds as [|ms ds IH]; intros n [|w vl] Hn Hl; try discriminate; [reflexivity|]. destruct (skipn_head _ _ _ _ Hn) as [Hd Hn'].
  cbn [map oneofs_clear each_oneof]. unfold g_clear_oneof at 1. rewrite Hd. cbn [bind]. rewrite (IH (Datatypes.S n)); auto. rewrite (oneof_clear_same x (fun _ => tt)). reflexivity.
Qed.

Lemma clear_oneof_held k j o fr ob s w ms : nth_error oneofs j = Some o -> nth_error os j = Some ms -> oneof_held ob o w ->
  exists fr' ob', call (Datatypes.S k) 0 (pre "clear_" (fst o)) fr ob s = Done (fr', ob', s) /\ same_but (oneof_cells o) ob ob' /\ oneof_held ob' o (oneof_clear (members ms) w)
    /\ exists a y, oneof_is ob' o 0 a y.
Proof.
  intros Ho Hms Hh. destruct (held_is _ _ _ Hh) as (a & y & Hi & _). destruct (clear_oneof_run _ _ _ Hs b fuel k j o fr ob s _ _ _ Ho Hi) as (fr' & ob' & a' & y' & E & Hsb & Hi').
  exists fr', ob'. split; [exact E|]. split; [exact Hsb|]. split; [|eauto]. unfold oneof_clear. destruct (find_member (members ms) (fst w)) as [[t ?]|]; eapply none_held; eassumption.
Qed.

Lemma clear_run k fr ob v s : holds_value d ob v ->
  rel (fun '(br, (fr', ob', s')) v' => br = false /\ fr' = fr /\ s' = s /\ holds_value d ob' v') (rl (Datatypes.S k) (clear_body fields oneofs) (fr, ob, s)) (clear (EMsg fs os) v).
Proof.
  intros Hh. destruct v as [| | | |pres vs ovs]; try contradiction. cbn [clear]. unfold clear_body.
  assert (Hlf : length fs = length vs).
  { pose proof (s_fields _ _ _ Hs) as H. pose proof (proj1 (proj2 Hh)) as H'. transitivity (length fields); [clear - H|clear - H']; [induction H|induction H']; cbn; congruence. }
  assert (Hlo : length os = length ovs).
  { pose proof (s_oneofs _ _ _ Hs) as H. pose proof (proj2 (proj2 Hh)) as H'. transitivity (length oneofs); [clear - H|clear - H']; [induction H|induction H']; cbn; congruence. }
  rewrite run_list_app. replace (map (fun f => Call (pre "clear_" (f_name f)) NoArgs) fields) with (concat (map (fun f => [Call (pre "clear_" (f_name f)) NoArgs]) fields))
    by (induction fields as [|f l IH]; [reflexivity|cbn [map concat app]; f_equal; exact IH]).
  replace (map (fun o => Call (pre "clear_" (fst o)) NoArgs) oneofs) with (concat (map (fun o : text * list field => [Call (pre "clear_" (fst o)) NoArgs]) oneofs))
    by (induction oneofs as [|o l IH]; [reflexivity|cbn [map concat app]; f_equal; exact IH]).
  pose proof (fields_clear_each fs 0 vs pres eq_refl Hlf) as E. replace (opt_index fs 0) with 0 in E by (destruct fs as [|[[? ?] ?] ?]; reflexivity). rewrite E.
  rewrite (oneofs_clear_each clear os 0 ovs eq_refl Hlo).
  eapply rel_bind.
  - apply (each_run (Datatypes.S k) ovs fr s (fun f => [Call (pre "clear_" (f_name f)) NoArgs]) g_clear) with (pf := []); [|reflexivity|reflexivity|exact Hh].
    intros i f ob0 pres0 vs0 v Hf Hv Hh0. rewrite run_list_one. cbn [run bind].
    destruct (Forall2_nth _ _ _ _ _ (s_fields _ _ _ Hs) Hf) as ([[num kd] t] & Hd & _). unfold g_clear. rewrite Hd.
    pose proof (clear_field_call k i f num kd t v no_frame ob0 pres0 vs0 ovs s Hf Hd Hh0 Hv) as H.
    destruct (call (Datatypes.S k) 0 (pre "clear_" (f_name f)) no_frame ob0 s) as [[[fr' ob'] s']| |], (field_clear kd (clear t) (opt_index fs i) pres0 v) as [[p' v']| |]; cbn [bind rel changed changed_end] in *; tauto.
  - intros [br [[fr' ob'] s']] [p' vs'] (-> & -> & -> & Hh'). cbn [app] in Hh'.
    pose proof (each_oneof_run (Datatypes.S k) fr s (fun o => [Call (pre "clear_" (fst o)) NoArgs]) g_clear_oneof) as H.
    lapply H; clear H; [intros H|].
    2:{ intros j o ob0 w Ho Hw. rewrite run_list_one. cbn [run bind]. destruct (fits_at _ _ _ Hs _ _ Ho) as (ms & Hms & _). unfold g_clear_oneof. rewrite Hms.
        destruct (clear_oneof_held k j o no_frame ob0 s w ms Ho Hms Hw) as (fr1 & ob1 & -> & Hsb & Hh1 & _). cbn [bind rel]. auto. }
    specialize (H oneofs 0%nat [] ovs ob' p' vs' eq_refl eq_refl Hh').
    destruct (rl (Datatypes.S k) (concat (map (fun o : text * list field => [Call (pre "clear_" (fst o)) NoArgs]) oneofs)) (fr, ob', s)) as [[br2 [[fr2 ob2] s2]]| |],
      (each_oneof g_clear_oneof 0 ovs) as [ovs2| |]; cbn [rel bind app] in *; tauto.
Qed.

(** ** operator= *)

Lemma set_member_call k j o i f ms t w x ob s : nth_error oneofs j = Some o -> nth_error os j = Some ms -> nth_error (snd o) i = Some f -> nth_error ms i = Some (f_number f, t) -> oneof_held ob o w ->
  rel (fun '(_, ob', s') w' => s' = s /\ same_but (oneof_cells o) ob ob' /\ oneof_held ob' o w')
    (call (Datatypes.S (Datatypes.S (Datatypes.S k))) 1 (pre "set_" (f_name f)) (with_value x) ob s) (member_set ms (f_number f) t w x).
Proof.
  intros Ho Hms Hf Hm Hh. assert (Hin : In f (snd o)) by (eapply nth_error_In; exact Hf).
  rewrite (invoke_body _ _ _ Hs _ _ _ _ _ (set_code (Some (fst o)) f)).
  2:{ eapply member_function; [exact Ho|exact Hin|]. unfold field_functions. apply in_or_app. right. right. left. reflexivity. }
  destruct (fits_at _ _ _ Hs _ _ Ho) as (ms' & Ems & Hfit). rewrite Hms in Ems. injection Ems as <-.
  destruct (Forall2_nth _ _ _ _ _ Hfit Hf) as (y & Ey & (_ & Hopt & Hcl)). rewrite Hm in Ey. injection Ey as <-. cbn [snd] in Hcl.
  destruct (select_run _ _ _ Hs b fuel k j o (with_value x) ob s w i f ms t Ho Hms Hf Hm Hh) as (ob1 & a1 & y1 & Er & Hsb1 & Hi1 & Hv1 & Hw1).
  assert (Hgen : forall q m, (forall fr ob s, fr_value fr = x -> run c b fuel (call (Datatypes.S (Datatypes.S k))) q (fr, ob, s) = change c (place (Some (fst o)) f) m fr ob s) ->
     ignores_scalar m -> (forall v, m (OElem t) v = elem_set t (assign t) v x) ->
     rel (fun '(_, ob', s') w' => s' = s /\ same_but (oneof_cells o) ob ob' /\ oneof_held ob' o w')
       (let* (_, st) := rl (Datatypes.S (Datatypes.S k)) (select (fst o) f ++ [q]) (with_value x, ob, s) in Done st) (member_set ms (f_number f) t w x)).
  { intros q m Hq Hig Hmm. rewrite run_list_app, Er. cbn [bind]. rewrite run_list_one, Hq by reflexivity.
    pose proof (member_type _ _ _ Hs _ _ _ _ _ _ _ Ho Hms Hf Hm) as Hty. unfold change. rewrite Hty, (read_member _ _ _ _ _ _ Hi1). cbn [bind]. unfold member_set.
    assert (E : m (OElem t) (in_union a1 y1 (variable_name (f_name f))) = elem_set t (assign t) (snd (selected ms (f_number f) w)) x)
      by (rewrite <- Hmm; destruct Hv1 as [->|Ht]; [reflexivity|subst t; apply Hig]).
    rewrite E. destruct (elem_set t (assign t) (snd (selected ms (f_number f) w)) x) as [v'| |]; cbn [bind rel]; auto.
    destruct (set_member _ _ _ Hs _ _ _ _ _ _ f v' Ho Hi1) as [Hsb2 Hi2]. split; [reflexivity|]. split; [eapply same_but_trans; eassumption|]. rewrite Hw1.
    eapply member_held; [exact Hs|exact Ho|exact Hf|reflexivity|exact Hi2]. }
  unfold set_code, prepare. destruct (f_class f) as [sc|n|n|ref|ref|n cl|]; try contradiction.
  - cbn [fits_class] in Hcl. subst t. apply (Hgen _ (fun ty v => var_assign ty v x)); [intros fr0 ob0 s0 <-; reflexivity|intros v v'; reflexivity|reflexivity].
  - destruct Hcl as (n' & ->). apply (Hgen _ (fun ty v => var_set ty v x)); [intros fr0 ob0 s0 <-; reflexivity|intros v v'; reflexivity|reflexivity].
  - destruct Hcl as (n' & ->). apply (Hgen _ (fun ty v => var_set ty v x)); [intros fr0 ob0 s0 <-; reflexivity|intros v v'; reflexivity|reflexivity].
  - cbn [fits_class] in Hcl. subst t. apply (Hgen _ (fun ty v => var_assign ty v x)); [intros fr0 ob0 s0 <-; reflexivity|intros v v'; reflexivity|reflexivity].
  - destruct Hcl as (fs' & os' & ->). apply (Hgen _ (fun ty v => var_assign ty v x)); [intros fr0 ob0 s0 <-; reflexivity|intros v v'; reflexivity|reflexivity].
Qed.

Definition g_assign (ps : list Z) (src : list value) (i : nat) (pd : list Z) (v : value) : res (list Z * value) :=
  match nth_error fs i, nth_error src i with
  | Some (_, kd, t), Some x => field_assign kd t (clear t) (assign t) (opt_index fs i) pd ps v x
  | _, _ => UB
  end.
Lemma fields_assign_each ps src : forall ds n vl sl pres, skipn n fs = ds -> skipn n src = sl -> length ds = length vl -> length ds = length sl ->
  fields_assign (map (fun '(num, k, t) => (num, k, t, assign t)) ds) (opt_index fs n) pres ps vl sl = each (g_assign ps src) n pres vl.
Proof.
  induction ds as [|[[num kd] t] ds IH]; intros n [|v vl] [|x sl] pres Hn Hn2 Hl Hl2; try discriminate; [reflexivity|].
  destruct (skipn_head _ _ _ _ Hn) as [Hd Hn']. destruct (skipn_head _ _ _ _ Hn2) as [Hx Hn2'].
  cbn [map fields_assign each]. unfold g_assign at 1. rewrite Hd, Hx. destruct (field_assign kd t (clear t) (assign t) (opt_index fs n) pres ps v x) as [[p v']| |]; cbn [bind]; auto.
  rewrite <- (opt_index_next _ _ _ _ _ Hd), IH; auto.
Qed.
Definition g_assign_oneof (src : list (Z * value)) (j : nat) (w : Z * value) : res (Z * value) :=
  match nth_error os j, nth_error src j with Some ms, Some x => oneof_assign (map (fun '(num, t) => (num, t, assign t)) ms) w x | _, _ => UB end.
Lemma oneofs_assign_each src : forall ds n vl sl, skipn n os = ds -> skipn n src = sl -> length ds = length vl -> length ds = length sl ->
  oneofs_assign (map (map (fun '(num, t) => (num, t, assign t))) ds) vl sl = each_oneof (g_assign_oneof src) n vl.
Proof.
  induction ds as [|ms ds IH]; intros n [|w vl] [|x sl] Hn Hn2 Hl Hl2; try discriminate; [reflexivity|].
  destruct (skipn_head _ _ _ _ Hn) as [Hd Hn']. destruct (skipn_head _ _ _ _ Hn2) as [Hx Hn2'].
  cbn [map oneofs_assign each_oneof]. unfold g_assign_oneof at 1. rewrite Hd, Hx. destruct (oneof_assign _ w x) as [w'| |]; cbn [bind]; auto. rewrite (IH (Datatypes.S n) vl sl); auto.
Qed.

Lemma get_field_of i f ob pres vs ovs v : nth_error fields i = Some f -> holds_value d ob (VM pres vs ovs) -> nth_error vs i = Some v ->
  get_of c ob (pre "get_" (f_name f)) = Done (if recursive f then VS 0 else v).
Proof.
  intros Hf Hh Hv. unfold get_of. rewrite (function_found _ _ _ Hs _ _ _ (field_function d f _ (nth_error_In _ _ Hf) (get_fn None f))).
  destruct (recursive f) eqn:Er; unfold recursive in Er; destruct (f_class f) eqn:Ecl; try discriminate; try reflexivity;
    (destruct (hold_read _ _ _ _ _ _ _ Hh Hf ltac:(unfold recursive; rewrite Ecl; reflexivity)) as (v0 & Ev & _ & ->); congruence).
Qed.
Lemma assign_field_run k i f num kd t v x fr ob ps svs sovs pres vs ovs s : nth_error fields i = Some f -> nth_error fs i = Some (num, kd, t) -> holds_value d ob (VM pres vs ovs) ->
  nth_error vs i = Some v -> holds_value d (fr_rhs fr) (VM ps svs sovs) -> nth_error svs i = Some x ->
  rel (changed fr s i vs ovs) (rl (Datatypes.S k) (assign_field f) (fr, ob, s)) (field_assign kd t (clear t) (assign t) (opt_index fs i) pres ps v x).
Proof.
  intros Hf Hd Hh Hv Hr Hx. destruct (Forall2_nth _ _ _ _ _ (s_fields _ _ _ Hs) Hf) as (y & Ey & Hfit). rewrite Hd in Ey. injection Ey as <-. destruct Hfit as [Hnum Hfit].
  assert (Hset : rel (changed fr s i vs ovs) (rl (Datatypes.S k) [Call (pre "set_" (f_name f)) (AGet (pre "get_" (f_name f)))] (fr, ob, s))
     (field_set kd t (opt_index fs i) pres v (if recursive f then VS 0 else x))).
  { rewrite run_list_one. cbn [run]. rewrite (get_field_of _ _ _ _ _ _ _ Hf Hr Hx). cbn [bind].
    pose proof (set_field_call k i f num kd t v (if recursive f then VS 0 else x) ob pres vs ovs s Hf Hd Hh Hv) as H.
    destruct (call (Datatypes.S k) 1 (pre "set_" (f_name f)) _ ob s) as [[[fr' ob'] s']| |], (field_set kd t (opt_index fs i) pres v _) as [[p' v']| |]; cbn [bind rel changed changed_end] in *; tauto. }
  unfold assign_field. destruct (f_optional f) eqn:Eo.
  - assert (kd = KOpt /\ recursive f = false) as [-> Er] by (unfold recursive; destruct (f_class f); destruct Hfit as [H1 H2]; try discriminate; auto).
    rewrite Er in Hset. rewrite run_list_one, run_if. unfold true_now. cbn [holds]. rewrite (has_field_call _ _ _ Hs _ _ _ Hf Eo).
    replace (ob_presence (fr_rhs fr)) with ps by (symmetry; apply Hr). cbn [field_assign]. destruct (presence_has ps (opt_index fs i)) as [[|]| |]; cbn [bind rel]; auto.
    rewrite run_list_one. cbn [run bind]. pose proof (clear_field_call k i f num KOpt t v no_frame ob pres vs ovs s Hf Hd Hh Hv) as H.
    destruct (call (Datatypes.S k) 0 (pre "clear_" (f_name f)) no_frame ob s) as [[[fr' ob'] s']| |], (field_clear KOpt (clear t) (opt_index fs i) pres v) as [[p' v']| |]; cbn [bind rel changed changed_end] in *; tauto.
  - assert (Hk : kd = KPlain /\ recursive f = false \/ (exists n, kd = KRep n) /\ recursive f = false \/ kd = KRecursive)
      by (unfold recursive; destruct (f_class f); destruct Hfit as [H1 H2]; auto).
    destruct Hk as [[-> Er]|[[[n ->] Er]| ->]]; cbn [field_assign field_set] in *; try rewrite Er in Hset; exact Hset.
Qed.
Lemma assign_oneof_run k j o fr ob s w ms x : nth_error oneofs j = Some o -> nth_error os j = Some ms -> oneof_held ob o w -> oneof_held (fr_rhs fr) o x ->
  rel (fun '(br, (fr', ob', s')) w' => br = false /\ fr' = fr /\ s' = s /\ same_but (oneof_cells o) ob ob' /\ oneof_held ob' o w')
    (rl (Datatypes.S (Datatypes.S (Datatypes.S k))) (assign_oneof o) (fr, ob, s)) (oneof_assign (map (fun '(num, t) => (num, t, assign t)) ms) w x).
Proof.
  intros Ho Hms Hw Hx. unfold assign_oneof. destruct (held_is _ _ _ Hw) as (a & y & Hi & Hv). destruct (held_is _ _ _ Hx) as (ax & yx & Hix & Hvx).
  match goal with |- context [rl _ [?q1; ?q2]] => change [q1; q2] with ([q1] ++ [q2]) end. rewrite run_list_app, run_list_one, run_if. unfold true_now. cbn [holds].
  assert (Hrhs : forall ob0, number_of c fr ob0 (NRhs (pre "get_which_" (fst o))) = Done (fst x)).
  { intros ob0. cbn [number_of]. rewrite (function_found _ _ _ Hs _ _ _ (which_function d _ _ Ho)). unfold read_number. rewrite (proj1 Hix). reflexivity. }
  rewrite Hrhs, (number_which _ _ _ _ _ _ _ _ _ Hi). cbn [bind].
  set (d1 := if fst x =? fst w then w else oneof_clear (members ms) w).
  assert (H1 : exists ob1, rl (Datatypes.S (Datatypes.S (Datatypes.S k))) (if negb (fst x =? fst w) then [Call (pre "clear_" (fst o)) NoArgs] else []) (fr, ob, s) = Done (false, (fr, ob1, s))
     /\ same_but (oneof_cells o) ob ob1 /\ oneof_held ob1 o d1).
  { unfold d1. destruct (fst x =? fst w); cbn [negb].
    - exists ob. split; [reflexivity|]. split; [apply same_but_refl|exact Hw].
    - rewrite run_list_one. cbn [run bind]. destruct (clear_oneof_held (Datatypes.S (Datatypes.S k)) j o no_frame ob s w ms Ho Hms Hw) as (fr1 & ob1 & -> & Hsb & Hh1 & _). cbn [bind]. eauto. }
  destruct H1 as (ob1 & Er & Hsb1 & Hh1). rewrite Er. cbn [bind]. rewrite run_list_one.
  set (code := fun f => [Call (pre "set_" (f_name f)) (AGet (pre "get_" (f_name f)))]).
  change (concat (map _ (snd o))) with (concat (map (fun f => Case (id_name f) :: code f ++ [Break]) (snd o))).
  rewrite (run_members _ _ _ Hs _ _ _ _ code (snd o) fr ob1 s (fst x) (members_incl _ _ _ Ho) (Hrhs ob1)) by reflexivity.
  destruct (fits_at _ _ _ Hs _ _ Ho) as (ms' & Ems & Hfit). rewrite Hms in Ems. injection Ems as <-.
  unfold oneof_assign. rewrite (oneof_clear_same assign (fun _ => tt)). fold (members ms). fold d1.
  destruct (find_fits _ _ Hfit assign (fst x)) as [(i & f & t & -> & Hf & Hm & En & Hcl & Hopt & ->)|(-> & -> & _)].
  - unfold code. rewrite run_list_one. cbn [run]. assert (Hin : In f (snd o)) by (eapply nth_error_In; exact Hf).
    assert (Eg : get_of c (fr_rhs fr) (pre "get_" (f_name f)) = Done (snd x)).
    { unfold get_of. rewrite (function_found _ _ _ Hs _ _ _ (member_function d _ _ _ _ Ho Hin (get_fn (Some (fst o)) f))).
      destruct (f_class f); try contradiction; rewrite (read_member _ _ _ _ _ _ Hix), (Hvx f Hin En); reflexivity. }
    rewrite Eg. cbn [bind]. rewrite <- En in Hm. pose proof (set_member_call k j o i f ms t d1 (snd x) ob1 s Ho Hms Hf Hm Hh1) as H.
    unfold member_set, selected in H. rewrite En in H. rewrite (oneof_init_same assign (fun _ => tt)). fold (members ms).
    destruct (call (Datatypes.S (Datatypes.S (Datatypes.S k))) 1 (pre "set_" (f_name f)) (with_value (snd x)) ob1 s) as [[[fr2 ob2] s2]| |],
      (let* v' := elem_set t (assign t) (snd (if fst x =? fst d1 then d1 else oneof_init (members ms) (fst x) d1)) (snd x) in Done (fst (if fst x =? fst d1 then d1 else oneof_init (members ms) (fst x) d1), v')) as [w'| |];
      cbn [rel bind] in *; try contradiction; auto. destruct H as (-> & Hsb2 & Hh2). repeat (split; [reflexivity|]). split; [eapply same_but_trans; eassumption|exact Hh2].
  - cbn [run_list bind rel]. auto.
Qed.

Lemma assign_run k fr ob v x s : holds_value d ob v -> holds_value d (fr_rhs fr) x ->
  rel (fun '(br, (fr', ob', s')) v' => br = false /\ fr' = fr /\ s' = s /\ holds_value d ob' v')
    (rl (Datatypes.S (Datatypes.S (Datatypes.S k))) (assign_body fields oneofs) (fr, ob, s)) (assign (EMsg fs os) v x).
Proof.
  intros Hh Hx. destruct v as [| | | |pres vs ovs]; try contradiction. destruct x as [| | | |ps svs sovs]; try contradiction. cbn [assign]. unfold assign_body.
  assert (Hlf : forall ob p v w, holds_value d ob (VM p v w) -> length fs = length v /\ length os = length w).
  { intros ob0 p0 v0 w0 Hh0. pose proof (s_fields _ _ _ Hs) as H. pose proof (proj1 (proj2 Hh0)) as H'. pose proof (s_oneofs _ _ _ Hs) as H2. pose proof (proj2 (proj2 Hh0)) as H2'.
    split; [transitivity (length fields); [clear - H|clear - H']; [induction H|induction H']; cbn; congruence|transitivity (length oneofs); [clear - H2|clear - H2']; [induction H2|induction H2']; cbn; congruence]. }
  destruct (Hlf _ _ _ _ Hh) as [L1 L2]. destruct (Hlf _ _ _ _ Hx) as [L3 L4].
  pose proof (fields_assign_each ps svs fs 0 vs svs pres eq_refl eq_refl L1 L3) as E. replace (opt_index fs 0) with 0 in E by (destruct fs as [|[[? ?] ?] ?]; reflexivity). rewrite E.
  rewrite (oneofs_assign_each sovs os 0 ovs sovs eq_refl eq_refl L2 L4). rewrite run_list_app.
  eapply rel_bind.
  - apply (each_run _ ovs fr s assign_field (g_assign ps svs)) with (pf := []); [|reflexivity|reflexivity|exact Hh].
    intros i f ob0 pres0 vs0 v Hf Hv Hh0. destruct (Forall2_nth _ _ _ _ _ (s_fields _ _ _ Hs) Hf) as ([[num kd] t] & Hd & _).
    destruct (Forall2_nth _ _ _ _ _ (proj1 (proj2 Hx)) Hf) as (xv & Hxv & _). unfold g_assign. rewrite Hd, Hxv. eapply assign_field_run; eassumption.
  - intros [br [[fr' ob'] s']] [p' vs'] (-> & -> & -> & Hh'). cbn [app] in Hh'.
    pose proof (each_oneof_run (Datatypes.S (Datatypes.S (Datatypes.S k))) fr s assign_oneof (g_assign_oneof sovs)) as H.
    lapply H; clear H; [intros H|].
    2:{ intros j o ob0 w Ho Hw. destruct (fits_at _ _ _ Hs _ _ Ho) as (ms & Hms & _). destruct (Forall2_nth _ _ _ _ _ (proj2 (proj2 Hx)) Ho) as (xv & Hxv & Hxh).
        unfold g_assign_oneof. rewrite Hms, Hxv. eapply assign_oneof_run; eassumption. }
    specialize (H oneofs 0%nat [] ovs ob' p' vs' eq_refl eq_refl Hh').
    destruct (rl (Datatypes.S (Datatypes.S (Datatypes.S k))) (concat (map assign_oneof oneofs)) (fr, ob', s)) as [[br2 [[fr2 ob2] s2]]| |],
      (each_oneof (g_assign_oneof sovs) 0 ovs) as [ovs2| |]; cbn [rel bind app] in *; tauto.
Qed.
End Class.
