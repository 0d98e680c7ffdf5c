(** * GenBodyDes: the statements of deserialize() do what [deserialize] of Message.v says. *)
From Coq Require Import String.
From Verif Require Import Base Buffers Wire Schema Fields Message Api Spec BitLemmas Struct Printf Generator GenMembers GenBody SpecBody GenOrder GenBodyRun GenBodySound
  GenBodyOneof Tables ReadAny ApiProofs DecodeProofs GenBodySer.
From Coq Require Import List ZifyBool ZifyNat Lia.

Lemma tag_some {S} (R : rops S) s s' : DeserializeTag R s = Done (NoErrors, None, s') -> False.
Proof.
  unfold DeserializeTag. destruct (DeserializeVarint R 32 s) as [[[e [x|]] s1]| |] eqn:E; cbn [bind]; try discriminate; destruct e; try discriminate.
  - destruct (_ <=? _); discriminate.
  - intros _. eapply DeserializeVarint_some; exact E.
Qed.

Section Class.
Context (d : mdef) (fs : list fdesc) (os : list odesc) (Hs : sound d fs os).
Notation c := (class_of d fs os).
Notation fields := (fields_of d).
Notation oneofs := (oneofs_of d).

Lemma find_field_fits fuel id l1 l2 : Forall2 fits_field l1 l2 -> forall pos oi,
  (exists i f k t, find (by_number id) l1 = Some f /\ nth_error l1 i = Some f /\ nth_error l2 i = Some (id, k, t)
     /\ find_field (dtab fuel l2) pos oi id = Some ((pos + i)%nat, oi + optix l2 i, (id, k, t, deserialize fuel t)))
  \/ (find (by_number id) l1 = None /\ find_field (dtab fuel l2) pos oi id = None).
Proof.
  induction 1 as [|f [[num k] t] l1 l2 Hf _ IH]; intros pos oi; [right; split; reflexivity|]. destruct Hf as [Hn _]. cbn [find dtab map find_field]. unfold by_number at 1 3.
  destruct (Z.eqb_spec id (f_number f)) as [E|E].
  - left. exists 0%nat, f, k, t. subst num id. rewrite Z.eqb_refl. cbn [nth_error optix]. rewrite Nat.add_0_r, Z.add_0_r. auto.
  - destruct (Z.eqb_spec num id) as [E'|_]; [congruence|]. destruct (IH (Datatypes.S pos) (next_opt k oi)) as [(i & g & k' & t' & H1 & H2 & H3 & H4)|(H1 & H2)]; [left|right; auto].
    exists (Datatypes.S i), g, k', t'. split; [exact H1|]. split; [exact H2|]. split; [exact H3|]. fold (dtab fuel l2). rewrite H4. rewrite next_opt_succ. cbn [optix]. rewrite succ_opt_add.
    replace (Datatypes.S pos + i)%nat with (pos + Datatypes.S i)%nat by lia. do 3 f_equal; lia.
Qed.
Lemma find_oneof_fits fuel id (l1 : list (text * list field)) (l2 : list odesc) : Forall2 fits_oneof l1 l2 -> forall pos,
  (exists j o ms i f t, find (fun o => existsb (by_number id) (snd o)) l1 = Some o /\ nth_error l1 j = Some o /\ nth_error l2 j = Some ms
     /\ nth_error (snd o) i = Some f /\ nth_error ms i = Some (f_number f, t) /\ f_number f = id
     /\ find_oneof (dotab fuel l2) pos id = Some ((pos + j)%nat, map (fun '(num, t) => (num, t, deserialize fuel t)) ms))
  \/ (find (fun o => existsb (by_number id) (snd o)) l1 = None /\ find_oneof (dotab fuel l2) pos id = None).
Proof.
  induction 1 as [|o ms l1 l2 Ho _ IH]; intros pos; [right; split; reflexivity|]. cbn [find dotab map find_oneof].
  destruct (find_fits _ _ Ho (deserialize fuel) id) as [(i & f & t & E & Hf & Hm & En & _ & _ & Efm)|(E & Efm & Hno)].
  - left. exists 0%nat, o, ms, i, f, t. replace (existsb (by_number id) (snd o)) with true.
    2:{ symmetry. apply existsb_exists. exists f. split; [eapply nth_error_In; exact Hf|]. unfold by_number. rewrite En. apply Z.eqb_refl. }
    rewrite Efm, Nat.add_0_r. rewrite <- En in Hm at 1. repeat split; auto.
  - replace (existsb (by_number id) (snd o)) with false.
    2:{ symmetry. apply not_true_is_false. intros H. apply existsb_exists in H. destruct H as (f & Hf & H). unfold by_number in H. apply Z.eqb_eq in H. apply (Hno f Hf). auto. }
    rewrite Efm. destruct (IH (Datatypes.S pos)) as [(j & o' & ms' & i & f & t & H1 & H2 & H3 & H4 & H5 & H6 & H7)|(H1 & H2)]; [left|right; auto].
    exists (Datatypes.S j), o', ms', i, f, t. repeat (split; [assumption|]). fold (dotab fuel l2). rewrite H7. do 2 f_equal. lia.
Qed.

Section Deserialize.
Context {S : Type} (R : rops S) (fuel : nat).
Notation b := (Reading R).
Notation rl k := (run_list c b fuel (invoke c b fuel k)).

Definition field_block (f : field) : block := ([id_name f], deserialize_field None f).
Definition oneof_block (o : text * list field) : block := (map id_name (snd o), [SetReturn (RCall (pre "deserialize_" (fst o)))]).
Lemma chosen_app z l1 l2 : chosen_block c z (l1 ++ l2) = match chosen_block c z l1 with Some x => Some x | None => chosen_block c z l2 end.
Proof. unfold chosen_block. induction l1 as [|x l1 IH]; [reflexivity|]. cbn [app find]. destruct (existsb (label c z) (fst x)); [reflexivity|exact IH]. Qed.
Lemma chosen_oneofs z l : (forall o, In o l -> In o oneofs) ->
  chosen_block c z (map oneof_block l) = option_map oneof_block (find (fun o => existsb (by_number z) (snd o)) l).
Proof.
  unfold chosen_block. induction l as [|o l IH]; intros Hl; [reflexivity|]. cbn [map find oneof_block fst].
  replace (existsb (label c z) (map id_name (snd o))) with (existsb (by_number z) (snd o)).
  - destruct (existsb (by_number z) (snd o)); [reflexivity|]. apply IH. intros o' Ho'. apply Hl. right. exact Ho'.
  - assert (Hm : incl (snd o) (fields ++ concat (map snd oneofs))).
    { intros f Hf. apply in_or_app. right. apply in_concat. exists (snd o). split; [apply in_map; apply Hl; left; reflexivity|exact Hf]. }
    clear - Hm Hs. induction (snd o) as [|f l' IH]; [reflexivity|]. cbn [map existsb]. unfold label at 1. rewrite (look_id _ _ _ Hs f) by (apply Hm; left; reflexivity).
    rewrite <- IH by (intros g Hg; apply Hm; right; exact Hg). reflexivity.
Qed.
Lemma switch_blocks k fr ob s : run c b fuel (invoke c b fuel k) (deserialize_switch fields oneofs) (fr, ob, s) =
  let* (_, st) := rl k (match find (by_number (fr_id_tag fr)) fields with
                        | Some f => deserialize_field None f
                        | None => match find (fun o => existsb (by_number (fr_id_tag fr)) (snd o)) oneofs with
                                  | Some o => [SetReturn (RCall (pre "deserialize_" (fst o)))]
                                  | None => if fr_id_tag fr =? 0 then [SetReturn (RConst InvalidFieldId)] else [SetReturn RSkip]
                                  end
                        end) (fr, ob, s) in Done (false, st).
Proof.
  pose proof (run_blocks c b fuel (invoke c b fuel k) NIdTag (map field_block fields ++ map oneof_block oneofs ++ [([chars "NOT_SET"], [SetReturn (RConst InvalidFieldId)])])
    [SetReturn RSkip] fr ob s (fr_id_tag fr) eq_refl) as H.
  rewrite !map_app, !concat_app, !map_map in H. unfold deserialize_switch. unfold block_code, field_block, oneof_block in H. cbn [fst snd map app concat] in H.
  rewrite <- !app_assoc in H. cbn [app] in H. rewrite (map_ext (fun x => map Case (map id_name (snd x)) ++ [SetReturn (RCall (pre "deserialize_" (fst x))); Break])
    (fun o => map (fun f => Case (id_name f)) (snd o) ++ [SetReturn (RCall (pre "deserialize_" (fst o))); Break])) in H by (intros o; rewrite map_map; reflexivity).
  rewrite H; clear H.
  - rewrite !chosen_app, (chosen_fields _ _ _ Hs) by (intros f Hf; apply in_or_app; left; exact Hf).
    destruct (find (by_number (fr_id_tag fr)) fields) as [f|]; [reflexivity|]. cbn [option_map]. fold (map oneof_block oneofs).
    change (map (fun o : text * list field => (map id_name (snd o), [SetReturn (RCall (pre "deserialize_" (fst o)))])) oneofs) with (map oneof_block oneofs).
    rewrite chosen_oneofs by auto. destruct (find (fun o => existsb (by_number (fr_id_tag fr)) (snd o)) oneofs) as [o|]; [reflexivity|]. cbn [option_map].
    unfold chosen_block. cbn [find fst existsb]. unfold label. pose proof (not_set_value _ _ _ Hs) as En. unfold enum_value in En.
    destruct (look (chars "NOT_SET") (c_numbers c)) as [z|]; [|discriminate]. injection En as ->. destruct (fr_id_tag fr =? 0); reflexivity.
  - apply Forall_app. split; [apply Forall_forall; intros x Hx; apply in_map_iff in Hx; destruct Hx as (f & <- & _); cbn [snd]; unfold deserialize_field; destruct (f_class f), (f_optional f); reflexivity|].
    apply Forall_app. split; [apply Forall_forall; intros x Hx; apply in_map_iff in Hx; destruct Hx as (o & <- & _); reflexivity|]. repeat constructor.
  - reflexivity.
Qed.

Definition read_value (tg : err) (x : bool * (frame * object * S)) (y : err * value * S) : Prop :=
  let '(br, (fr', ob', s')) := x in let '(e, v, s'') := y in br = false /\ fr_return fr' = e /\ s' = s'' /\ holds_value d ob' v /\ fr_tag fr' = tg.

Lemma upd_same {A} (l : list A) i x : nth_error l i = Some x -> upd i x l = l.
Proof. revert i. induction l as [|a l IH]; intros [|i] E; try discriminate; cbn [upd]; [injection E as ->; reflexivity|f_equal; apply IH; exact E]. Qed.

Lemma field_run k i f num kd t fr ob pres vs ovs s : nth_error fields i = Some f -> nth_error fs i = Some (num, kd, t) -> holds_value d ob (VM pres vs ovs) -> fr_return fr = NoErrors ->
  rel (read_value (fr_tag fr)) (rl k (deserialize_field None f) (fr, ob, s))
    (let* x := aget vs (Z.of_nat i) in
     let* (e, pres', x', s') := field_deserialize fuel (num, kd, t, deserialize fuel t) (opt_index fs i) (fr_wire fr) pres x R s in
     let* vs' := aset vs (Z.of_nat i) x' in Done (e, VM pres' vs' ovs, s')).
Proof.
  intros Hf Hd Hh Hr. destruct (Forall2_nth _ _ _ _ _ (s_fields _ _ _ Hs) Hf) as (x & Ex & Hfit). rewrite Hd in Ex. injection Ex as <-. destruct Hfit as [Hnum Hfit].
  destruct (Forall2_nth _ _ _ _ _ (proj1 (proj2 Hh)) Hf) as (v & Hv & _). rewrite (aget_nat _ _ _ Hv). cbn [bind]. pose proof (nth_error_lt _ _ _ Hv) as Hlen.
  assert (Hp : ob_presence ob = pres) by apply Hh.
  destruct (recursive f) eqn:Erec.
  { unfold recursive in Erec. unfold deserialize_field. destruct (f_class f); try discriminate. destruct Hfit as [-> _]. cbn [field_deserialize bind run_list]. rewrite aset_nat by exact Hlen. cbn [bind rel read_value].
    rewrite (upd_same _ _ _ Hv). auto. }
  assert (Hck : forall ob0 pres0, holds_value d ob0 (VM pres0 vs ovs) ->
    rel (read_value (fr_tag fr)) (rl k [SetReturn (RCheckType (place None f))] (fr, ob0, s))
      (let* (e, pres', x', s') := (let* (e, v', s') := var_check_type fuel (oty_of kd t) (fr_wire fr) S R v s in Done (e, pres0, v', s')) in
       let* vs' := aset vs (Z.of_nat i) x' in Done (e, VM pres' vs' ovs, s'))).
  { intros ob0 pres0 Hh0. rewrite run_list_one, run_return. cbn [result_of]. rewrite (variable_type _ _ _ Hs _ _ _ _ _ Hf Hd Erec).
    destruct (hold_read _ _ _ _ _ _ _ Hh0 Hf Erec) as (v' & Ev & _ & ->). rewrite Hv in Ev. injection Ev as <-. cbn [bind].
    destruct (var_check_type fuel (oty_of kd t) (fr_wire fr) S R v s) as [[[e v'] s']| |]; cbn [bind rel]; auto. rewrite aset_nat by exact Hlen. cbn [bind rel read_value].
    repeat split; auto; apply (hold_write _ _ _ Hs _ _ _ _ _ _ v' Hh0 Hf Erec). }
  assert (Hshape : forall cl, f_class f = cl -> cl <> FieldErrorRecursive -> kd = (if f_optional f then KOpt else KPlain) \/ (exists n, kd = KRep n) /\ f_optional f = false).
  { intros cl Ecl Hne. rewrite Ecl in Hfit. destruct cl; try (left; apply Hfit); [right; exact Hfit|congruence]. }
  specialize (Hshape _ eq_refl). assert (Hne : f_class f <> FieldErrorRecursive) by (unfold recursive in Erec; intros E; rewrite E in Erec; discriminate). specialize (Hshape Hne).
  assert (Ecode : deserialize_field None f = (if f_optional f then [SetPresence (upper (f_name f))] else []) ++ [SetReturn (RCheckType (place None f))]).
  { unfold deserialize_field. destruct (f_class f); try reflexivity. congruence. }
  rewrite Ecode. clear Ecode Hfit. destruct Hshape as [->|[[n ->] Eo]].
  - destruct (f_optional f) eqn:Eo; cbn [app].
    + change [SetPresence (upper (f_name f)); SetReturn (RCheckType (place None f))] with ([SetPresence (upper (f_name f))] ++ [SetReturn (RCheckType (place None f))]). rewrite run_list_app, run_list_one. cbn [run]. rewrite (presence_index_of _ _ _ Hs _ _ Hf Eo), Hp. cbn [bind field_deserialize].
      destruct (presence_set pres (opt_index fs i)) as [pres'| |]; cbn [bind rel]; auto. apply (Hck (with_presence ob pres') pres'). eapply hold_presence; exact Hh.
    + apply (Hck ob pres Hh).
  - rewrite Eo. cbn [app]. apply (Hck ob pres Hh).
Qed.

Lemma switch_run fr ob v s k : holds_value d ob v -> fr_return fr = NoErrors ->
  rel (read_value (fr_tag fr)) (run c b fuel (invoke c b fuel (Datatypes.S (Datatypes.S (Datatypes.S k)))) (deserialize_switch fields oneofs) (fr, ob, s))
    (msg_dispatch fuel (dtab fuel fs) (dotab fuel os) (fr_id_tag fr) (fr_wire fr) R v s).
Proof.
  intros Hh Hr. destruct v as [| | | |pres vs ovs]; try contradiction. rewrite switch_blocks. cbn [msg_dispatch].
  destruct (find_field_fits fuel (fr_id_tag fr) _ _ (s_fields _ _ _ Hs) 0%nat 0) as [(i & f & kd & t & -> & Hf & Hd & ->)|(-> & ->)].
  - cbn [Nat.add]. rewrite Z.add_0_l, <- opt_index_optix. pose proof (field_run (Datatypes.S (Datatypes.S (Datatypes.S k))) i f _ kd t fr ob pres vs ovs s Hf Hd Hh Hr) as H.
    destruct (rl _ (deserialize_field None f) (fr, ob, s)) as [[br [[fr' ob'] s']]| |]; cbn [bind] in *; destruct (let* x := aget vs (Z.of_nat i) in _) as [[[e v'] s'']| |]; cbn [rel read_value] in *; tauto.
  - destruct (find_oneof_fits fuel (fr_id_tag fr) _ _ (s_oneofs _ _ _ Hs) 0%nat) as [(j & o & ms & i & f & t & -> & Ho & Hms & Hf & Hm & En & ->)|(-> & ->)].
    + cbn [Nat.add]. destruct (Forall2_nth _ _ _ _ _ (proj2 (proj2 Hh)) Ho) as (w & Hw & Hhw). rewrite (aget_nat _ _ _ Hw). cbn [bind]. rewrite run_list_one, run_return. cbn [result_of].
      pose proof (deserialize_oneof_run _ _ _ Hs R fuel k j o (with_field_id (fr_id_tag fr) (fr_wire fr)) ob s w ms i f t Ho Hms Hf Hm Hhw (eq_sym En) eq_refl) as H.
      cbn [fr_wire with_field_id] in H. rewrite En in H.
      destruct (invoke c b fuel (Datatypes.S (Datatypes.S (Datatypes.S k))) 3 (pre "deserialize_" (fst o)) (with_field_id (fr_id_tag fr) (fr_wire fr)) ob s) as [[[fr' ob'] s']| |],
        (oneof_deserialize (map (fun '(num, t0) => (num, t0, deserialize fuel t0)) ms) (fr_id_tag fr) (fr_wire fr) w R s) as [[[e w'] s'']| |]; cbn [rel] in H; try contradiction; cbn [bind rel]; auto.
      destruct H as (He & <- & Hsb & Hh'). rewrite aset_nat by (eapply nth_error_lt; exact Hw). cbn [bind rel read_value set_return fr_return fr_tag].
      split; [reflexivity|]. split; [exact He|]. split; [reflexivity|]. split; [|reflexivity]. eapply (hold_oneof _ _ _ Hs); eassumption.
    + destruct (fr_id_tag fr =? 0).
      * rewrite run_list_one, run_return. cbn [result_of bind rel read_value set_return fr_return fr_tag]. auto.
      * rewrite run_list_one, run_return. cbn [result_of]. destruct (skip_unknown_field (fr_wire fr) R s) as [[e s']| |]; cbn [bind rel read_value set_return fr_return fr_tag]; auto.
Qed.

Definition more : cond := CAnd ok (CEqErr (EConst NoErrors) ETag).
Definition loop_body : list stmt := [SetIdTag; deserialize_switch fields oneofs; If ok [ReadTag] []].
Definition last_if : stmt := If (CAnd ok (CAnd (CNeErr (EConst NoErrors) ETag) (CNeErr (EConst EndOfBuffer) ETag))) [SetReturn RTag] [].
Definition after_tag (k n : nat) (st : frame * object * S) : res (bool * (frame * object * S)) :=
  let* (_, st') := turns c b fuel (invoke c b fuel k) more loop_body n st in run c b fuel (invoke c b fuel k) last_if st'.
Lemma more_value fr ob : true_now c fr ob more = Done (is_ok (fr_return fr) && is_ok (fr_tag fr)).
Proof. unfold true_now, more, ok. cbn [holds error_of]. destruct (fr_return fr), (fr_tag fr); reflexivity. Qed.
Lemma ok_value fr ob : true_now c fr ob ok = Done (is_ok (fr_return fr)).
Proof. unfold true_now, ok. cbn [holds error_of]. destruct (fr_return fr); reflexivity. Qed.
Lemma run_id_tag k fr ob s : run c b fuel (invoke c b fuel k) SetIdTag (fr, ob, s) = Done (false, (set_id_tag fr (fr_number fr), ob, s)).
Proof. reflexivity. Qed.
Lemma turns_stop k n fr ob s : is_ok (fr_return fr) && is_ok (fr_tag fr) = false -> turns c b fuel (invoke c b fuel k) more loop_body n (fr, ob, s) = Done (false, (fr, ob, s)).
Proof. intros H. destruct n; cbn [turns]; rewrite more_value, H; reflexivity. Qed.
Lemma turns_false k n st br st' : turns c b fuel (invoke c b fuel k) more loop_body n st = Done (br, st') -> br = false.
Proof.
  revert st. induction n as [|n IH]; intros [[fr ob] s] Et; cbn [turns] in Et; destruct (true_now c fr ob more) as [[|]| |]; cbn [bind] in Et; try discriminate; try congruence.
  destruct (run_list c b fuel (invoke c b fuel k) loop_body (fr, ob, s)) as [[[|] st1]| |]; cbn [bind] in Et; try discriminate; [congruence|eapply IH; exact Et].
Qed.
Lemma last_value fr ob : true_now c fr ob (CAnd ok (CAnd (CNeErr (EConst NoErrors) ETag) (CNeErr (EConst EndOfBuffer) ETag)))
  = Done (is_ok (fr_return fr) && negb (is_ok (fr_tag fr)) && match fr_tag fr with EndOfBuffer => false | _ => true end).
Proof. unfold true_now, ok. cbn [holds error_of]. destruct (fr_return fr), (fr_tag fr); reflexivity. Qed.

Definition read_end (x : bool * (frame * object * S)) (y : err * value * S) : Prop :=
  let '(_, (fr', ob', s')) := x in let '(e, v, s'') := y in fr_return fr' = e /\ s' = s'' /\ holds_value d ob' v.
Lemma loop_run k n : forall fr ob v s, holds_value d ob v -> fr_return fr = NoErrors -> msg_loop fuel n (dtab fuel fs) (dotab fuel os) R v s <> Fuel ->
  rel read_end (let* (_, st) := run c b fuel (invoke c b fuel (Datatypes.S (Datatypes.S (Datatypes.S k)))) ReadTag (fr, ob, s) in after_tag (Datatypes.S (Datatypes.S (Datatypes.S k))) n st)
    (msg_loop fuel n (dtab fuel fs) (dotab fuel os) R v s).
Proof.
  induction n as [|n IH]; intros fr ob v s Hh Hr Hnf; [exfalso; apply Hnf; reflexivity|]. cbn [run]. cbn [msg_loop] in *.
  destruct (DeserializeTag R s) as [[[te ot] s1]| |] eqn:Et; cbn [bind rel] in *; auto. unfold after_tag.
  destruct (is_ok_dec te) as [->|[Hne Hno]].
  - destruct ot as [[w id]|]; [|exfalso; exact (tag_some _ _ _ Et)].
    cbn [turns]. rewrite more_value. cbn [set_tag fr_return fr_tag]. rewrite Hr. cbn [is_ok andb bind].
    unfold loop_body at 1. cbn [run_list]. rewrite run_id_tag. cbn [bind].
    set (fr1 := set_id_tag (set_tag fr NoErrors w id) (fr_number (set_tag fr NoErrors w id))).
    pose proof (switch_run fr1 ob v s1 k Hh Hr) as H. cbn [bind]. change (fr_id_tag fr1) with id in H. change (fr_wire fr1) with w in H.
    destruct (run c b fuel (invoke c b fuel (Datatypes.S (Datatypes.S (Datatypes.S k)))) (deserialize_switch fields oneofs) (fr1, ob, s1)) as [[br [[fr2 ob2] s2]]| |],
      (msg_dispatch fuel (dtab fuel fs) (dotab fuel os) id w R v s1) as [[[e v'] s2']| |]; cbn [rel read_value] in H; try contradiction; cbn [bind rel] in *; auto.
    destruct H as (-> & He & <- & Hh2 & Htag). rewrite run_if, (ok_value fr2 ob2), He. cbn [bind].
    destruct (is_ok e) eqn:Eok.
    + rewrite run_list_one. assert (He2 : fr_return fr2 = NoErrors) by (destruct e; try discriminate; exact He). specialize (IH fr2 ob2 v' s2 Hh2 He2 Hnf). unfold after_tag in IH.
      destruct (run c b fuel (invoke c b fuel (Datatypes.S (Datatypes.S (Datatypes.S k)))) ReadTag (fr2, ob2, s2)) as [[br3 st3]| |] eqn:E3; cbn [bind] in *; try exact IH.
      assert (br3 = false) as ->; [|exact IH]. cbn [run] in E3. destruct (DeserializeTag R s2) as [[[? ?] ?]| |]; cbn [bind] in E3; try discriminate. injection E3 as <- _. reflexivity.
    + cbn [run_list bind]. rewrite turns_stop by (rewrite He, Eok; reflexivity). cbn [bind]. unfold last_if. rewrite run_if, last_value, He, Eok. cbn [andb bind run_list rel read_end]. auto.
  - set (fr1 := match ot with Some (w, n0) => set_tag fr te w n0 | None => set_tag fr te (fr_wire fr) (fr_number fr) end).
    assert (Ht1 : fr_tag fr1 = te) by (unfold fr1; destruct ot as [[? ?]|]; reflexivity). assert (Hr1 : fr_return fr1 = NoErrors) by (unfold fr1; destruct ot as [[? ?]|]; exact Hr).
    rewrite turns_stop by (rewrite Ht1, Hno, andb_false_r; reflexivity). cbn [bind]. unfold last_if. rewrite run_if, last_value, Hr1, Ht1, Hno. cbn [is_ok negb andb bind].
    destruct te; try congruence; cbn [run_list]; rewrite ?run_return; cbn [result_of bind rel read_end set_return fr_return]; auto.
Qed.

Lemma code_deserialize_same ob v s : holds_value d ob v -> deserialize fuel (EMsg fs os) S R v s <> Fuel ->
  same_end d (code_deserialize fuel d fs os R ob s) (deserialize fuel (EMsg fs os) S R v s).
Proof.
  intros Hh Hnf. change (deserialize fuel (EMsg fs os) S R v s) with (msg_loop fuel fuel (dtab fuel fs) (dotab fuel os) R v s) in *.
  unfold code_deserialize, execute, deserialize_body. pose proof (loop_run 1 fuel no_frame ob v s Hh eq_refl Hnf) as H. unfold after_tag in H. cbn [run_list].
  destruct (run c b fuel (invoke c b fuel 4) ReadTag (no_frame, ob, s)) as [[br st]| |] eqn:Er; cbn [bind] in *.
  - assert (br = false) as -> by (cbn [run] in Er; destruct (DeserializeTag R s) as [[[? ?] ?]| |]; cbn [bind] in Er; try discriminate; injection Er as <- _; reflexivity).
    rewrite run_while. fold more loop_body last_if. destruct (turns c b fuel (invoke c b fuel 4) more loop_body fuel st) as [[br' st']| |] eqn:Et; cbn [bind] in *.
    + rewrite (turns_false _ _ _ _ _ Et) in *.
      destruct (run c b fuel (invoke c b fuel 4) last_if st') as [[[|] [[fr ob'] s']]| |]; cbn [bind] in *; destruct (msg_loop fuel fuel _ _ R v s) as [[[e v'] s'']| |]; cbn [rel read_end same_end] in *; tauto.
    + destruct (msg_loop fuel fuel _ _ R v s) as [[[e v'] s'']| |]; cbn [rel same_end] in *; tauto.
    + destruct (msg_loop fuel fuel _ _ R v s) as [[[e v'] s'']| |]; cbn [rel same_end] in *; tauto.
  - destruct (msg_loop fuel fuel _ _ R v s) as [[[e v'] s'']| |]; cbn [rel same_end] in *; tauto.
  - destruct (msg_loop fuel fuel _ _ R v s) as [[[e v'] s'']| |]; cbn [rel same_end] in *; tauto.
Qed.
End Deserialize.
End Class.
