(** * GenBodyPrint: the statements of to_string() do what [elem_to_string] of ToString.v says. *)
From Coq Require Import String.
From Verif Require Import Base Buffers Wire Schema Fields Message Api Spec BitLemmas Struct Printf ToString Generator GenMembers GenBody SpecBody GenOrder GenBodyRun GenBodySound
  GenBodyOneof Tables ReadAny ApiProofs GenBodySer GenBodyObject.
From Coq Require Import List ZifyBool ZifyNat Lia.

Section Class.
Context (d : mdef) (fs : list fdesc) (os : list odesc) (Hs : sound d fs os).
Notation c := (class_of d fs os).
Notation fields := (fields_of d).
Notation oneofs := (oneofs_of d).
Context (fmt : scalar -> Z -> list Z) (nm : list Z -> list Z) (path : list Z).
Context (Hnm : forall f, In f (fields ++ concat (map snd oneofs)) -> nm (path ++ [f_number f]) = f_name f).
Let p x ty v indent n first s := let* num := number_of_name d x in var_to_string fmt nm (path ++ [num]) ty v s indent n first.
Notation rl k := (run_list c (Printing p) 0 (invoke c (Printing p) 0 k)).

Lemma number_field f : In f fields -> recursive f = false -> number_of_name d (place None f) = Done (f_number f).
Proof.
  intros Hf Hr. unfold number_of_name. cbn [place]. rewrite (look_In _ (f_number f)); [reflexivity| |].
  - rewrite map_map. cbn [fst]. pose proof (s_cells _ _ _ Hs) as H. unfold cell_names in H. apply NoDup_app_remove_r in H. exact H.
  - change (variable_name (f_name f), f_number f) with ((fun f => (variable_name (f_name f), f_number f)) f). apply in_map. apply filter_In. rewrite Hr. auto.
Qed.
Lemma NoDup_which l : NoDup (concat (map (fun o : text * list field => [which_name (fst o); variable_name (fst o)]) l)) -> NoDup (map (fun o => variable_name (fst o)) l).
Proof.
  induction l as [|o l IH]; intros H; [constructor|]. cbn [map concat app] in *. inversion H as [|? ? _ H']; subst. inversion H' as [|? ? Hx Hl]; subst.
  constructor; [|apply IH; exact Hl]. intros Hi. apply Hx. apply in_map_iff in Hi. destruct Hi as (o' & E & Ho'). rewrite <- E. apply in_concat. eexists.
  split; [apply in_map; exact Ho'|right; left; reflexivity].
Qed.
Lemma number_member j o f : nth_error oneofs j = Some o -> In f (snd o) -> number_of_name d (place (Some (fst o)) f) = Done (f_number f).
Proof.
  intros Ho Hf. unfold number_of_name. cbn [place]. assert (Hin : In o oneofs) by (eapply nth_error_In; exact Ho). rewrite (look_In _ (snd o)).
  - cbn [get bind]. rewrite (look_In _ (f_number f)); [reflexivity| |].
    + rewrite map_map. cbn [fst]. pose proof (s_unions _ _ _ Hs) as H. rewrite Forall_forall in H. apply H. exact Hin.
    + change (variable_name (f_name f), f_number f) with ((fun f => (variable_name (f_name f), f_number f)) f). apply in_map. exact Hf.
  - rewrite map_map. cbn [fst]. pose proof (s_cells _ _ _ Hs) as H. unfold cell_names in H. apply NoDup_app_remove_l in H. apply NoDup_which. exact H.
  - change (variable_name (fst o), snd o) with ((fun o : text * list field => (variable_name (fst o), snd o)) o). apply in_map. exact Hin.
Qed.

Definition printed (ob : object) (fr : frame) (x : bool * (frame * object * sstate)) (y : sstate) : Prop := x = (false, (fr, ob, y)).
Lemma run_print k x kname deeper first fr ob s : run c (Printing p) 0 (invoke c (Printing p) 0 k) (Print x kname deeper first) (fr, ob, s) =
  let* ty := type_of c x in let* v := read ob x in let* t := get (look kname (c_constants c)) in
  let* s' := p x ty v (u32 (fr_indent fr + deeper)) t (match first with Some y => y | None => fr_first fr end) s in Done (false, (fr, ob, s')).
Proof. reflexivity. Qed.

Definition ftab : list fdesc -> list (Z * fkind * tostring) := map (fun '(num, k, t) => (num, k, elem_to_string fmt nm t)).
Definition otab : list odesc -> list (list (Z * tostring)) := map (map (fun '(num, t) => (num, elem_to_string fmt nm t))).

Lemma fields_print k ob pres vs ovs : holds_value d ob (VM pres vs ovs) -> forall l ds vl n first fr s, skipn n fields = l -> skipn n fs = ds -> skipn n vs = vl ->
  rel (printed ob fr) (rl k (print_fields first l) (fr, ob, s)) (fields_to_string nm path (u32 (fr_indent fr + 2)) (ftab ds) first vl s).
Proof.
  intros Hh. induction l as [|f l IH]; intros ds vl n first fr s Hn Hn1 Hn2.
  - assert (length fields = length fs) by (pose proof (s_fields _ _ _ Hs) as H; clear - H; induction H; cbn; congruence).
    assert (length fields = length vs) by (pose proof (proj1 (proj2 Hh)) as H'; clear - H'; induction H'; cbn; congruence).
    assert (Hle : (length fields <= n)%nat) by (apply (f_equal (@length _)) in Hn; rewrite skipn_length in Hn; cbn in Hn; lia).
    rewrite skipn_all2 in Hn1, Hn2 by lia. subst ds vl. cbn [print_fields run_list ftab map fields_to_string rel]. reflexivity.
  - destruct (skipn_head _ _ _ _ Hn) as [Hf Hn'].
    destruct (Forall2_nth _ _ _ _ _ (s_fields _ _ _ Hs) Hf) as ([[num kd] t] & Hd & Hnum & Hfit). destruct (Forall2_nth _ _ _ _ _ (proj1 (proj2 Hh)) Hf) as (v & Hv & _).
    destruct ds as [|x ds]; [apply nth_error_lt in Hd; apply (f_equal (@length _)) in Hn1; rewrite skipn_length in Hn1; cbn in Hn1; lia|].
    destruct vl as [|v' vl]; [apply nth_error_lt in Hv; apply (f_equal (@length _)) in Hn2; rewrite skipn_length in Hn2; cbn in Hn2; lia|].
    destruct (skipn_head _ _ _ _ Hn1) as [Hd' Hn1']. destruct (skipn_head _ _ _ _ Hn2) as [Hv' Hn2']. rewrite Hd in Hd'. injection Hd' as <-. rewrite Hv in Hv'. injection Hv' as <-.
    assert (Hin : In f (fields ++ concat (map snd oneofs))) by (apply in_or_app; left; eapply nth_error_In; exact Hf).
    assert (Hhead : rel (printed ob fr) (rl k (match f_class f with FieldErrorRecursive => [] | _ => [Print (place None f) (name_constant (f_name f)) 2 (Some first)] end) (fr, ob, s))
      (match kd with
       | KPlain | KOpt => elem_to_string fmt nm t (path ++ [num]) v s (u32 (fr_indent fr + 2)) (Some (nm (path ++ [num]))) first
       | KRep _ => rep_to_string (elem_to_string fmt nm t (path ++ [num])) v s (u32 (fr_indent fr + 2)) (Some (nm (path ++ [num]))) first
       | KRecursive => Done s
       end)).
    { destruct (recursive f) eqn:Erec; [unfold recursive in Erec; destruct (f_class f); try discriminate; destruct Hfit as [-> _]; cbn [run_list rel]; reflexivity|].
      destruct (hold_read _ _ _ _ _ _ _ Hh Hf Erec) as (v' & Ev & _ & Erd). rewrite Hv in Ev. injection Ev as <-.
      replace (match f_class f with FieldErrorRecursive => [] | _ => [Print (place None f) (name_constant (f_name f)) 2 (Some first)] end)
        with [Print (place None f) (name_constant (f_name f)) 2 (Some first)] by (unfold recursive in Erec; destruct (f_class f); try discriminate; reflexivity).
      rewrite run_list_one, run_print, (variable_type _ _ _ Hs _ _ _ _ _ Hf Hd Erec), Erd, (constant_found _ _ _ Hs _ Hin). cbn [bind get]. unfold p.
      rewrite (number_field f) by (try exact Erec; eapply nth_error_In; exact Hf). cbn [bind]. rewrite <- (Hnm f Hin), Hnum.
      assert (Hk : kd <> KRecursive) by (intros ->; unfold recursive in Erec; destruct (f_class f); try discriminate; destruct Hfit as [E _]; [..|destruct E; discriminate]; destruct (f_optional f); discriminate).
      destruct kd; try contradiction; cbn [oty_of var_to_string];
        match goal with |- rel _ (bind ?x _) ?y => change x with y; destruct y as [s'| |]; cbn [bind rel]; auto; apply eq_refl end. }
    cbn [print_fields ftab map fields_to_string]. rewrite run_list_app. eapply rel_bind; [exact Hhead|]. intros x s' Hx. unfold printed in Hx. subst x. cbn [bind]. apply (IH ds vl (Datatypes.S n)); auto.
Qed.

Lemma print_function j o : nth_error oneofs j = Some o -> In (3%nat, pre "to_string_" (fst o), Body (print_oneof_body o)) (functions fields oneofs).
Proof. intros Ho. apply (oneof_function _ _ _ _ Ho). right. apply in_or_app. right. right. right. right. left. reflexivity. Qed.
Lemma find_printer_member {X} (x : ety -> X) (ms : odesc) z :
  find_printer (map (fun '(num, t) => (num, x t)) ms) z = option_map snd (find_member (map (fun '(num, t) => (num, t, x t)) ms) z).
Proof. induction ms as [|[num t] ms IH]; [reflexivity|]. cbn [map find_printer find_member]. destruct (num =? z); [reflexivity|exact IH]. Qed.
Lemma run_call_print k f deeper first fr ob s : run c (Printing p) 0 (invoke c (Printing p) 0 k) (CallPrint f deeper first) (fr, ob, s) =
  let* (_, ob', s') := invoke c (Printing p) 0 k 3 f (with_indent (u32 (fr_indent fr + deeper)) first) ob s in Done (false, (fr, ob', s')).
Proof. reflexivity. Qed.
Lemma oneof_print k j o ms w first fr ob s : nth_error oneofs j = Some o -> nth_error os j = Some ms -> oneof_held ob o w ->
  rel (printed ob fr) (run c (Printing p) 0 (invoke c (Printing p) 0 (Datatypes.S k)) (CallPrint (pre "to_string_" (fst o)) 2 first) (fr, ob, s))
    (match find_printer (map (fun '(num, t) => (num, elem_to_string fmt nm t)) ms) (fst w) with
     | Some ts => ts (path ++ [fst w]) (snd w) s (u32 (fr_indent fr + 2)) (Some (nm (path ++ [fst w]))) first
     | None => Done s
     end).
Proof.
  intros Ho Hms Hh. rewrite run_call_print, (invoke_body _ _ _ Hs _ _ _ _ _ _ _ _ _ (print_function _ _ Ho)). unfold print_oneof_body. rewrite run_list_one.
  destruct (held_is _ _ _ Hh) as (a & y & Hi & Hv).
  pose proof (run_members _ _ _ Hs (Printing p) 0 (NVar (which_name (fst o))) k (fun f => [Print (place (Some (fst o)) f) (name_constant (f_name f)) 0 None]) (snd o)
    (with_indent (u32 (fr_indent fr + 2)) first) ob s (fst w) (members_incl _ _ _ Ho) (number_which _ _ _ _ _ _ _ _ _ Hi) (fun _ _ => eq_refl)) as H.
  cbn [app] in H |- *. rewrite H. clear H.
  destruct (fits_at _ _ _ Hs _ _ Ho) as (ms' & Ems & Hfit). rewrite Hms in Ems. injection Ems as <-. rewrite find_printer_member.
  destruct (find_fits _ _ Hfit (elem_to_string fmt nm) (fst w)) as [(i & f & t & -> & Hf & Hm & En & Hcl & Hopt & ->)|(-> & -> & _)]; [|cbn [run_list bind rel option_map]; reflexivity].
  assert (Hin : In f (snd o)) by (eapply nth_error_In; exact Hf). cbn [option_map snd].
  rewrite run_list_one, run_print, (member_type _ _ _ Hs _ _ _ _ _ _ _ Ho Hms Hf Hm), (read_member _ _ _ _ _ _ Hi), (constant_found _ _ _ Hs f) by (eapply oneof_In; eassumption).
  cbn [bind get]. unfold p. rewrite (number_member j o f Ho Hin). cbn [bind var_to_string with_indent fr_indent fr_first].
  rewrite (Hv f Hin En), <- (Hnm f), En by (eapply oneof_In; eassumption).
  replace (u32 (u32 (fr_indent fr + 2) + 0)) with (u32 (fr_indent fr + 2)) by (rewrite Z.add_0_r; unfold u32; rewrite Z.mod_mod by discriminate; reflexivity).
  match goal with |- rel _ (bind (bind (bind (bind ?x _) _) _) _) ?y => change x with y; destruct y as [s'| |]; cbn [bind rel]; auto; apply eq_refl end.
Qed.
Lemma oneofs_print k ob ovs : Forall2 (oneof_held ob) oneofs ovs -> forall l ds vl n first fr s, skipn n oneofs = l -> skipn n os = ds -> skipn n ovs = vl ->
  rel (printed ob fr) (rl (Datatypes.S k) (print_oneofs first l) (fr, ob, s)) (oneofs_to_string nm path (u32 (fr_indent fr + 2)) (otab ds) first vl s).
Proof.
  intros Hh. induction l as [|o l IH]; intros ds vl n first fr s Hn Hn1 Hn2.
  - assert (length oneofs = length os) by (pose proof (s_oneofs _ _ _ Hs) as H; clear - H; induction H; cbn; congruence).
    assert (length oneofs = length ovs) by (clear - Hh; induction Hh; cbn; congruence).
    assert (Hle : (length oneofs <= n)%nat) by (apply (f_equal (@length _)) in Hn; rewrite skipn_length in Hn; cbn in Hn; lia).
    rewrite skipn_all2 in Hn1, Hn2 by lia. subst ds vl. cbn [print_oneofs run_list otab map oneofs_to_string rel]. reflexivity.
  - destruct (skipn_head _ _ _ _ Hn) as [Ho Hn'].
    destruct (Forall2_nth _ _ _ _ _ (s_oneofs _ _ _ Hs) Ho) as (ms & Hms & _). destruct (Forall2_nth _ _ _ _ _ Hh Ho) as (w & Hw & Hhw).
    destruct ds as [|x ds]; [apply nth_error_lt in Hms; apply (f_equal (@length _)) in Hn1; rewrite skipn_length in Hn1; cbn in Hn1; lia|].
    destruct vl as [|v' vl]; [apply nth_error_lt in Hw; apply (f_equal (@length _)) in Hn2; rewrite skipn_length in Hn2; cbn in Hn2; lia|].
    destruct (skipn_head _ _ _ _ Hn1) as [Hd' Hn1']. destruct (skipn_head _ _ _ _ Hn2) as [Hv' Hn2']. rewrite Hms in Hd'. injection Hd' as <-. rewrite Hw in Hv'. injection Hv' as <-.
    cbn [print_oneofs otab map oneofs_to_string run_list]. destruct w as [which v]. eapply rel_bind; [apply (oneof_print k n o ms (which, v) first fr ob s Ho Hms Hhw)|].
    intros x s' Hx. unfold printed in Hx. subst x. cbn [bind]. apply (IH ds vl (Datatypes.S n)); auto.
Qed.

Lemma code_to_string_eq ob v st indent name first : holds_value d ob v ->
  code_to_string fmt nm path d fs os ob st indent name first = elem_to_string fmt nm (EMsg fs os) path v st indent name first.
Proof.
  intros Hh. destruct v as [| | | |pres vs ovs]; try contradiction. unfold code_to_string. fold p. cbn [elem_to_string]. unfold msg_to_string.
  destruct (put_comma first st) as [st1| |]; cbn [bind]; try reflexivity. destruct (ToString.put (msg_start_text indent name) st1) as [[n st2]| |]; cbn [bind]; try reflexivity.
  unfold execute, print_body. rewrite run_list_app. fold ftab. fold otab.
  pose proof (fields_print 4 ob pres vs ovs Hh fields fs vs 0 true (with_indent indent first) st2 eq_refl eq_refl eq_refl) as H. cbn [fr_indent with_indent] in H.
  fold (with_indent indent first) in H.
  destruct (rl 4 (print_fields true fields) (with_indent indent first, ob, st2)) as [x| |], (fields_to_string nm path (u32 (indent + 2)) (ftab fs) true vs st2) as [st3| |];
    cbn [rel printed] in H; try contradiction; cbn [bind]; try reflexivity. rewrite H. cbn [bind].
  replace (match ftab fs with [] => true | _ => false end) with (match fields with [] => true | _ => false end)
    by (pose proof (s_fields _ _ _ Hs) as Hf; inversion Hf as [|? [[? ?] ?] ? ? ? ?]; reflexivity).
  pose proof (oneofs_print 3 ob ovs (proj2 (proj2 Hh)) oneofs os ovs 0 (match fields with [] => true | _ => false end) (with_indent indent first) st3 eq_refl eq_refl eq_refl) as H'.
  cbn [fr_indent with_indent] in H'. fold (with_indent indent first) in H'.
  match type of H' with rel _ ?a ?b => destruct a as [y| |], b as [st4| |] end; cbn [rel printed] in H'; try contradiction; cbn [bind]; try reflexivity. rewrite H'. reflexivity.
Qed.
End Class.

Lemma class_to_string request lengths d fs os : class_for request lengths d fs os ->
  forall fmt nm path, (forall f, In f (fields_of d ++ concat (map snd (oneofs_of d))) -> nm (path ++ [f_number f]) = f_name f) ->
  forall ob v st indent name first, holds_value d ob v ->
  code_to_string fmt nm path d fs os ob st indent name first = elem_to_string fmt nm (EMsg fs os) path v st indent name first.
Proof. intros Hc fmt nm path Hnm ob v st indent name first Hh. apply code_to_string_eq; [eapply class_sound; exact Hc|exact Hnm|exact Hh]. Qed.
