(** * GenTopo: when the messages of a file can be sorted. *)
From Coq Require Import String.
From Verif Require Import Base Schema Printf Generator SpecGenerator GenOrder.
From Coq Require Import List Permutation ZifyBool ZifyNat Lia.

(** ** Sequences of numbers, ordered like words *)

Fixpoint lex (a b : list nat) : bool :=
  match a, b with
  | [], [] => false
  | [], _ :: _ => true
  | _ :: _, [] => false
  | x :: a', y :: b' => Nat.ltb x y || (Nat.eqb x y && lex a' b')
  end.
Lemma lex_irrefl a : lex a a = false.
Proof. induction a as [|x a IH]; cbn [lex app]; [reflexivity|]. rewrite IH, Nat.ltb_irrefl, andb_false_r. reflexivity. Qed.
Lemma lex_trans a b c : lex a b = true -> lex b c = true -> lex a c = true.
Proof.
  revert b c. induction a as [|x a IH]; intros [|y b] [|z c]; cbn [lex app]; try discriminate; try reflexivity.
  intros H1 H2. specialize (IH b c). destruct (lex a b), (lex b c); lia.
Qed.
Lemma lex_app p a b : lex (p ++ a) (p ++ b) = lex a b.
Proof. induction p as [|x p IH]; cbn [lex app]; [reflexivity|]. rewrite IH, Nat.ltb_irrefl, Nat.eqb_refl. reflexivity. Qed.

(** ** toposort *)

Section Topo.
  Variable key : text -> list nat.

  Lemma minimal (l : list text) : l <> [] -> exists m, In m l /\ forall x, In x l -> lex (key x) (key m) = false.
  Proof.
    induction l as [|a l IH]; [contradiction|]. intros _. destruct l as [|b l].
    - exists a. split; [left; reflexivity|]. intros x [<-|[]]. apply lex_irrefl.
    - destruct IH as (m & Hm & Hmin); [discriminate|]. destruct (lex (key a) (key m)) eqn:E.
      + exists a. split; [left; reflexivity|]. intros x [<-|Hx]; [apply lex_irrefl|]. destruct (lex (key x) (key a)) eqn:Ex; [|reflexivity].
        pose proof (lex_trans _ _ _ Ex E) as H. rewrite (Hmin x Hx) in H. discriminate.
      + exists m. split; [right; exact Hm|]. intros x [<-|Hx]; [exact E|apply Hmin; exact Hx].
  Qed.

  Lemma toposort_loop_total fuel : forall data, (length data < fuel)%nat ->
    (forall k ds d, In (k, ds) data -> In d ds -> In d (map fst data) /\ lex (key d) (key k) = true) ->
    exists order, toposort_loop fuel data = Some order.
  Proof.
    induction fuel as [|fuel IH]; intros data Hlen Hd; [lia|]. cbn [toposort_loop].
    set (ordered := map fst (filter _ data)). destruct ordered as [|o os] eqn:Eo.
    - destruct data as [|e data]; [eexists; reflexivity|exfalso].
      destruct (minimal (map fst (e :: data))) as (m & Hm & Hmin); [discriminate|].
      apply in_map_iff in Hm. destruct Hm as ([k ds] & <- & Hk). cbn [fst] in Hmin.
      assert (Hds : ds = []).
      { destruct ds as [|d ds]; [reflexivity|]. destruct (Hd k (d :: ds) d Hk) as [H1 H2]; [left; reflexivity|].
        rewrite (Hmin d H1) in H2. discriminate. }
      subst ds. apply (in_nil (a := k)). rewrite <- Eo. unfold ordered. apply in_map_iff. exists (k, []). split; [reflexivity|].
      apply filter_In. split; [exact Hk|reflexivity].
    - rewrite <- Eo. set (data' := map _ (filter _ data)).
      destruct (IH data') as [order ->]; [| |eexists; reflexivity].
      + unfold data'. rewrite map_length.
        assert (H : (length (filter (fun '(k, _) => negb (mem k ordered)) data) < length data)%nat); [|lia].
        assert (Hin : exists ds, In (o, ds) data).
        { assert (Hi : In o ordered) by (rewrite Eo; left; reflexivity). unfold ordered in Hi. apply in_map_iff in Hi.
          destruct Hi as ([k ds] & <- & Hi). apply filter_In in Hi. exists ds. apply Hi. }
        destruct Hin as [ds Hin]. assert (Ho : mem o ordered = true) by (apply mem_In; rewrite Eo; left; reflexivity).
        generalize dependent ordered. clear - Hin. intros ordered _ _ Ho. induction data as [|[k ds'] data IHd]; [destruct Hin|].
        cbn [filter]. assert (L : (length (filter (fun '(k, _) => negb (mem k ordered)) data) <= length data)%nat).
        { clear. induction data as [|[k ds] data IH]; [apply le_n|]. cbn. destruct (negb _); cbn; lia. }
        destruct Hin as [E|Hin].
        * injection E as -> ->. rewrite Ho. cbn. lia.
        * specialize (IHd Hin). destruct (negb (mem k ordered)); cbn; lia.
      + intros k ds d Hk Hi. unfold data' in Hk. apply in_map_iff in Hk. destruct Hk as ([k0 ds0] & E & Hk). injection E as -> <-.
        apply filter_In in Hi. destruct Hi as [Hi Hno]. apply filter_In in Hk. destruct Hk as [Hk _].
        destruct (Hd k ds0 d Hk Hi) as [H1 H2]. split; [|exact H2]. unfold data'. rewrite map_map. apply in_map_iff in H1.
        destruct H1 as ([d0 dsd] & <- & H1). apply in_map_iff. exists (d0, dsd). split; [reflexivity|]. apply filter_In. split; [exact H1|exact Hno].
  Qed.

  Lemma toposort_flatten_total data :
    (forall k ds d, In (k, ds) data -> In d ds -> d <> k -> lex (key d) (key k) = true) -> exists order, toposort_flatten data = Some order.
  Proof.
    intros H. unfold toposort_flatten. set (data1 := map _ data). set (extra := nodup text_dec _).
    apply toposort_loop_total; [lia|]. intros k ds d Hk Hi. apply in_app_or in Hk. destruct Hk as [Hk|Hk].
    - split.
      + rewrite map_app. apply in_or_app. destruct (mem d (map fst data1)) eqn:E; [left; apply mem_In; exact E|right].
        rewrite map_map. cbn [fst]. rewrite map_id. apply nodup_In. apply filter_In. split; [|rewrite E; reflexivity].
        apply in_concat. exists ds. split; [apply (in_map snd _ _ Hk)|exact Hi].
      + unfold data1 in Hk. apply in_map_iff in Hk. destruct Hk as ([k0 ds0] & E & Hk). injection E as -> <-.
        apply filter_In in Hi. destruct Hi as [Hi Hne]. apply (H k ds0 d Hk Hi). intros ->. rewrite text_eqb_refl in Hne. discriminate.
    - apply in_map_iff in Hk. destruct Hk as (e & E & _). injection E as <- <-. destruct Hi.
  Qed.
End Topo.
