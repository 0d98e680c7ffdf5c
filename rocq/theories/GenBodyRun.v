(** * GenBodyRun: running the statements of a generated class: lists, switches, names. *)
From Coq Require Import String.
From Verif Require Import Base Buffers Wire Schema Fields Message Api Printf Generator GenMembers GenBody SpecBody GenOrder.
From Coq Require Import List ZifyBool ZifyNat Lia.

(** ** Names *)

Lemma text_eqb_neq a b : a <> b -> text_eqb a b = false.
Proof. intros H. destruct (text_eqb a b) eqn:E; [apply text_eqb_eq in E; contradiction|reflexivity]. Qed.
Lemma look_In {A} n (a : A) l : NoDup (map fst l) -> In (n, a) l -> look n l = Some a.
Proof.
  induction l as [|[m b] l IH]; intros Hn Hi; [destruct Hi|]. cbn [map fst] in Hn. inversion Hn as [|? ? Hx Hl]; subst. cbn [look].
  destruct Hi as [E|Hi]; [injection E as -> ->; rewrite text_eqb_refl; reflexivity|].
  rewrite text_eqb_neq; [apply IH; assumption|]. intros ->. apply Hx. change n with (fst (n, a)). apply in_map. exact Hi.
Qed.
Lemma look_put {A} n (a b : A) l : look n l = Some b -> look n (put n a l) = Some a.
Proof.
  induction l as [|[m c] l IH]; cbn [look put]; [discriminate|]. destruct (text_eqb m n) eqn:E; intros H; cbn [look]; rewrite E; [reflexivity|apply IH; exact H].
Qed.
Lemma look_put_other {A} n m (a : A) l : n <> m -> look n (put m a l) = look n l.
Proof.
  intros H. induction l as [|[k c] l IH]; [reflexivity|]. cbn [look put]. destruct (text_eqb k m) eqn:E; cbn [look]; [|rewrite IH; reflexivity].
  apply text_eqb_eq in E. subst. rewrite text_eqb_neq by congruence. reflexivity.
Qed.
Lemma look_function_In e l : NoDup (map fst l) -> In e l -> look_function (fst (fst e)) (snd (fst e)) l = Some (snd e).
Proof.
  induction l as [|[[k m] f] l IH]; intros Hn Hi; [destruct Hi|]. cbn [map fst] in Hn. inversion Hn as [|? ? Hx Hl]; subst. cbn [look_function].
  destruct Hi as [<-|Hi]; [cbn [fst snd]; rewrite Nat.eqb_refl, text_eqb_refl; reflexivity|].
  destruct (Nat.eqb k (fst (fst e)) && text_eqb m (snd (fst e))) eqn:E; [|apply IH; assumption].
  apply andb_true_iff in E. destruct E as [E1 E2]. apply Nat.eqb_eq in E1. apply text_eqb_eq in E2. subst. exfalso. apply Hx.
  destruct e as [[k n] g]. apply in_map with (f := fst) in Hi. exact Hi.
Qed.

(** ** Lists of statements *)

Section Run.
Context (c : code) {S : Type} (b : buffer S) (fuel : nat).
Context (call : nat -> text -> frame -> object -> S -> res (frame * object * S)).
Notation run := (run c b fuel call).
Notation run_list := (run_list c b fuel call).

Fixpoint turns (k : cond) (body : list stmt) (n : nat) (st : frame * object * S) {struct n} : res (bool * (frame * object * S)) :=
  let '(fr, ob, s) := st in
  let* x := true_now c fr ob k in
  if x : bool then
    match n with
    | O => Fuel
    | Datatypes.S n' => let* (broke, st') := run_list body st in if broke : bool then Done (false, st') else turns k body n' st'
    end
  else Done (false, st).
Fixpoint run_from (target : stmt -> bool) (running : bool) (l : list stmt) (st : frame * object * S) : res (frame * object * S) :=
  match l with
  | [] => Done st
  | q' :: l' =>
      if running : bool then let* (broke, st') := run q' st in if broke : bool then Done st' else run_from target true l' st'
      else run_from target (target q') l' st
  end.

Lemma run_if k yes no fr ob s : run (If k yes no) (fr, ob, s) = let* x := true_now c fr ob k in run_list (if x then yes else no) (fr, ob, s).
Proof. cbn [GenBody.run]. destruct (true_now c fr ob k) as [x| |]; reflexivity. Qed.
Lemma run_return r fr ob s : run (SetReturn r) (fr, ob, s) =
  let* (e, ob', s') := result_of c b fuel call r fr ob s in Done (false, (set_return fr e, ob', s')).
Proof. reflexivity. Qed.
Lemma run_while k body st : run (While k body) st = turns k body fuel st.
Proof.
  destruct st as [[fr ob] s]. cbn [GenBody.run].
  match goal with |- ?f fuel _ = ?g fuel _ => enough (H : forall n x, f n x = g n x) by apply H end. clear fr ob s.
  induction n as [|n IH]; intros [[fr ob] s]; cbn [turns]; destruct (true_now c fr ob k) as [[|]| |]; try reflexivity. cbn [bind].
  change ((fix run_list (l : list stmt) (st : state) {struct l} := match l with
    | [] => Done (false, st) | q' :: l' => let* (broke, st') := run q' st in if broke : bool then Done (true, st') else run_list l' st' end) body (fr, ob, s))
    with (run_list body (fr, ob, s)).
  destruct (run_list body (fr, ob, s)) as [[[|] [[fr' ob'] s']]| |]; try reflexivity. cbn [bind]. apply IH.
Qed.
Lemma run_switch n body fr ob s : run (Switch n body) (fr, ob, s) =
  let* z := number_of c fr ob n in
  let* st' := run_from (if existsb (is_case c z) body then is_case c z else is_default) false body (fr, ob, s) in Done (false, st').
Proof.
  cbn [GenBody.run]. destruct (number_of c fr ob n) as [z| |]; cbn [bind]; try reflexivity.
  generalize (if existsb (is_case c z) body then is_case c z else is_default). intros target.
  match goal with |- bind (?f false body _) _ = bind (?g false body _) _ => enough (H : forall l x y, f x l y = g x l y) by (rewrite H; reflexivity) end.
  clear. induction l as [|q l IH]; intros x y; cbn [run_from]; [reflexivity|]. destruct x; [|apply IH].
  destruct (run q y) as [[[|] y']| |]; cbn [bind]; try reflexivity. apply IH.
Qed.

Lemma run_list_app l1 l2 st : run_list (l1 ++ l2) st = let* (broke, st') := run_list l1 st in if broke : bool then Done (true, st') else run_list l2 st'.
Proof.
  revert st. induction l1 as [|q l1 IH]; intros st; [reflexivity|]. cbn [app GenBody.run_list]. destruct (run q st) as [[[|] st']| |]; try reflexivity. apply IH.
Qed.
Lemma run_list_one q st : run_list [q] st = run q st.
Proof. cbn [GenBody.run_list]. destruct (run q st) as [[[|] st']| |]; reflexivity. Qed.

(** ** Switches *)

Lemma run_from_stop target l rest st : run_from target true (l ++ Break :: rest) st = let* (_, st') := run_list l st in Done st'.
Proof.
  revert st. induction l as [|q l IH]; intros st.
  - cbn [app run_from GenBody.run_list]. destruct st as [[fr ob] s]. reflexivity.
  - cbn [app run_from GenBody.run_list]. destruct (run q st) as [[[|] st']| |]; try reflexivity. apply IH.
Qed.
Lemma run_from_skip target l rest st : existsb target l = false -> run_from target false (l ++ rest) st = run_from target false rest st.
Proof.
  induction l as [|q l IH]; intros H; [reflexivity|]. cbn [existsb] in H. apply orb_false_iff in H. destruct H as [H1 H2]. cbn [app run_from]. rewrite H1. apply IH. exact H2.
Qed.
Lemma run_cases es l st : run_list (map Case es ++ l) st = run_list l st.
Proof. induction es as [|e es IH]; [reflexivity|]. cbn [map app GenBody.run_list]. destruct st as [[fr ob] s]. exact IH. Qed.

(** A switch is made of blocks: some labels, statements, break; the last one is the default. *)
Definition block : Type := list text * list stmt.
Definition block_code (x : block) : list stmt := map Case (fst x) ++ snd x ++ [Break].
Definition no_label (q : stmt) : bool := match q with Case _ | Default => false | _ => true end.
Definition label (z : Z) (e : text) : bool := match look e (c_numbers c) with Some y => z =? y | None => false end.
Definition chosen_block (z : Z) (bs : list block) : option block := find (fun x => existsb (label z) (fst x)) bs.

Lemma is_case_labels z es : existsb (is_case c z) (map Case es) = existsb (label z) es.
Proof. induction es as [|e es IH]; [reflexivity|]. cbn [map existsb]. rewrite IH. reflexivity. Qed.
Lemma is_case_none z l : forallb no_label l = true -> existsb (is_case c z) l = false.
Proof. induction l as [|q l IH]; [reflexivity|]. cbn [forallb existsb]. intros H. apply andb_true_iff in H. destruct H as [H1 H2]. rewrite (IH H2). destruct q; try discriminate; reflexivity. Qed.
Lemma is_default_none l : forallb no_label l = true -> existsb is_default l = false.
Proof. induction l as [|q l IH]; [reflexivity|]. cbn [forallb existsb]. intros H. apply andb_true_iff in H. destruct H as [H1 H2]. rewrite (IH H2). destruct q; try discriminate; reflexivity. Qed.
Lemma existsb_app_eq {A} (f : A -> bool) l1 l2 : existsb f (l1 ++ l2) = existsb f l1 || existsb f l2.
Proof. induction l1 as [|x l1 IH]; [reflexivity|]. cbn [app existsb]. rewrite IH, orb_assoc. reflexivity. Qed.
Lemma is_case_block z x : forallb no_label (snd x) = true -> existsb (is_case c z) (block_code x) = existsb (label z) (fst x).
Proof.
  intros H. unfold block_code. rewrite !existsb_app_eq, is_case_labels, (is_case_none z _ H). cbn [existsb is_case orb]. rewrite orb_false_r. reflexivity.
Qed.
Lemma is_default_labels es : existsb is_default (map Case es) = false.
Proof. induction es as [|e es IH]; [reflexivity|exact IH]. Qed.
Lemma is_default_blocks bs : Forall (fun x => forallb no_label (snd x) = true) bs -> existsb is_default (concat (map block_code bs)) = false.
Proof.
  induction 1 as [|x bs Hx _ IH]; [reflexivity|]. cbn [map concat]. rewrite existsb_app_eq, IH, orb_false_r. unfold block_code.
  rewrite !existsb_app_eq, is_default_labels, (is_default_none _ Hx). reflexivity.
Qed.

(** Going to one of several labels and running to the break. *)
Lemma run_from_block z x rest st : forallb no_label (snd x) = true -> existsb (label z) (fst x) = true ->
  run_from (is_case c z) false (block_code x ++ rest) st = let* (_, st') := run_list (snd x) st in Done st'.
Proof.
  intros Hl He. unfold block_code. destruct x as [es l]. cbn [fst snd] in *. induction es as [|e es IH]; [discriminate|].
  cbn [map app existsb run_from] in *. change (is_case c z (Case e)) with (label z e). destruct (label z e) eqn:E.
  - rewrite <- !app_assoc. cbn [app]. rewrite app_assoc, run_from_stop, run_cases. reflexivity.
  - apply IH. exact He.
Qed.

Lemma run_blocks n bs last fr ob s z : number_of c fr ob n = Done z ->
  Forall (fun x => forallb no_label (snd x) = true) bs -> forallb no_label last = true ->
  run (Switch n (concat (map block_code bs) ++ Default :: last ++ [Break])) (fr, ob, s) =
  let* (_, st') := run_list (match chosen_block z bs with Some x => snd x | None => last end) (fr, ob, s) in Done (false, st').
Proof.
  intros Hz Hb Hl. rewrite run_switch, Hz. cbn [bind].
  assert (Hex : existsb (is_case c z) (concat (map block_code bs) ++ Default :: last ++ [Break])
                = match chosen_block z bs with Some _ => true | None => false end).
  { rewrite existsb_app_eq. cbn [existsb is_case]. rewrite existsb_app_eq, (is_case_none z _ Hl). cbn [existsb is_case orb]. rewrite orb_false_r.
    clear Hz. induction Hb as [|x bs Hx _ IH]; [reflexivity|]. cbn [map concat]. rewrite existsb_app_eq, (is_case_block z _ Hx), IH. unfold chosen_block. cbn [find].
    destruct (existsb (label z) (fst x)); reflexivity. }
  rewrite Hex. unfold chosen_block. destruct (find (fun x => existsb (label z) (fst x)) bs) as [x|] eqn:Ef.
  - assert (E : run_from (is_case c z) false (concat (map block_code bs) ++ Default :: last ++ [Break]) (fr, ob, s) = let* (_, st') := run_list (snd x) (fr, ob, s) in Done st').
    { clear Hex Hz. induction Hb as [|y bs Hy _ IH]; [discriminate|]. cbn [find] in Ef. cbn [map concat]. rewrite <- app_assoc.
      destruct (existsb (label z) (fst y)) eqn:Ey; [injection Ef as <-; apply run_from_block; assumption|].
      rewrite run_from_skip; [apply IH; exact Ef|]. rewrite (is_case_block z _ Hy). exact Ey. }
    rewrite E. destruct (run_list (snd x) (fr, ob, s)) as [[br st']| |]; reflexivity.
  - rewrite run_from_skip by (apply is_default_blocks; exact Hb). cbn [run_from is_default]. rewrite run_from_stop.
    destruct (run_list last (fr, ob, s)) as [[br st']| |]; reflexivity.
Qed.
End Run.
