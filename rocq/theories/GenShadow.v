(** * GenShadow: what a shadowed name stands for. *)
From Coq Require Import String.
From Verif Require Import Base Schema Printf Generator SpecGenerator GenOrder GenSort GenReg GenRender GenTypes GenNames GenProps.
From Coq Require Import List ZifyNat Lia.

Lemma greatest (P : nat -> Prop) (dec : forall n, {P n} + {~ P n}) N : forall k, (k <= N)%nat -> P k ->
  exists n, (k <= n <= N)%nat /\ P n /\ forall j, (n < j <= N)%nat -> ~ P j.
Proof.
  induction N as [|N IH]; intros k Hk HP.
  - exists k. split; [lia|]. split; [exact HP|]. intros j Hj. lia.
  - destruct (dec (S N)) as [H|H].
    + exists (S N). split; [lia|]. split; [exact H|]. intros j Hj. lia.
    + assert (k <> S N) by (intros ->; contradiction). destruct (IH k) as (n & Hn & HPn & Hj); [lia|exact HP|].
      exists n. split; [lia|]. split; [exact HPn|]. intros j Hlt. destruct (Nat.eq_dec j (S N)) as [->|]; [exact H|]. apply Hj. lia.
Qed.

Lemma prefix_dec (q p : path) : {prefix q p} + {~ prefix q p}.
Proof.
  destruct (path_dec (firstn (length q) p) q) as [E|N].
  - left. exists (skipn (length q) p). rewrite <- E at 1. symmetry. apply firstn_skipn.
  - right. intros H. apply N. symmetry. now apply prefix_firstn.
Qed.
Lemma declared_name_dec request p : {declared_name request p} + {~ declared_name request p}.
Proof.
  unfold declared_name. destruct (in_dec path_dec p (concat (map file_type_names request))) as [H|H]; [left; auto|].
  destruct (list_eq_dec text_dec p []) as [->|N]; [right; intuition|].
  destruct (Exists_dec (fun f => prefix p (p_package f)) request (fun f => prefix_dec p (p_package f))) as [E|E].
  - left. right. split; [exact N|]. apply Exists_exists in E. exact E.
  - right. intros [H'|(_ & E')]; [contradiction|]. apply E. apply Exists_exists. exact E'.
Qed.

Lemma shadowed_stands t request hs s T : Forall2 (written t) request hs -> T <> [] -> shadowed request s T ->
  exists other, stands_for hs s (reduced_scope T s) other /\ other <> T.
Proof.
  intros Hw Hne (c' & a' & rest' & d1 & d2 & E1' & E2' & H' & Hd1 & Hdec).
  destruct (reduced_split T s Hne) as (c & a & rest & d & E1 & E2 & H & Er & L). rewrite Er.
  assert (c' = c) by (eapply split_unique; [exact E1'|exact E2'|exact H'|exact E1|exact E2|exact H]). subst c'.
  rewrite E1 in E1'. apply app_inv_head in E1'. injection E1' as <- <-.
  destruct (greatest (fun n => declared_name request (firstn n s ++ [a])) (fun n => declared_name_dec _ _) (length s) (length (c ++ d1)))
    as (n & Hn & HPn & Hno).
  - rewrite E2', !app_length. lia.
  - rewrite E2', app_assoc, firstn_app, Nat.sub_diag, firstn_all. cbn [firstn]. rewrite app_nil_r, <- app_assoc. exact Hdec.
  - exists (firstn n s ++ a :: rest). split.
    + exists n, a, rest. split; [lia|]. split; [reflexivity|]. split; [reflexivity|]. split; [now apply (entity_declared _ _ _ Hw)|].
      intros k Hk He. apply (Hno k); [lia|]. now apply (entity_declared _ _ _ Hw).
    + intros E. rewrite E1 in E. apply (f_equal (@length text)) in E. rewrite !app_length, firstn_length_le in E by lia. rewrite app_length in Hn.
      destruct d1; [contradiction|]. cbn [length] in Hn. lia.
Qed.

Lemma generated_shadowed limit request hs s m g T :
  legal request -> imports_first request -> generate limit request = Some hs ->
  message request s m -> In g (m_fields m) -> refers g T -> T <> s -> shadowed request s T ->
  exists c name other, generated hs s c
    /\ (exists t, In (pf_name g, t) (c_members c) /\ match t with
         | TyEnum n | TyMsg n _ | TyRep (TyEnum n) _ | TyRep (TyMsg n _) _ => n = name | _ => False end)
    /\ stands_for hs s name other /\ other <> T.
Proof.
  intros Hl Hi Hgen Hm Hg Hr HT Hsh. destruct (generate_written _ _ _ Hgen) as (mss & st & Hs & (Hru & Hma) & Hw).
  assert (Hns : ~ refers g s) by (intros H; destruct Hr as [Hr|Hr], H as [H|H]; congruence).
  destruct (message_generated _ _ _ _ _ Hw Hm) as (c & Hgc & Hc).
  pose proof (field_in _ _ _ _ Hl Hm Hg) as Hf. pose proof (factory_plain _ _ Hns) as Ec.
  destruct (class_member _ s m c (factory s g) Hc Hf) as (ty & Hty & Hin).
  { rewrite Ec. unfold single_factory. destruct (pf_repeated g), (pf_type g); discriminate. }
  pose proof (import_name _ _ _ _ _ Hi Hm Hg Hr) as HinT.
  destruct (shadowed_stands _ _ _ _ _ Hw (type_name_nonempty _ _ HinT) Hsh) as (other & Hst & Hne).
  exists c, (reduced_scope T s), other. split; [exact Hgc|]. split; [|split; assumption].
  exists ty. split; [exact Hin|]. rewrite Ec in Hty. unfold single_factory in Hty.
  destruct Hr as [Hr|Hr]; rewrite Hr in Hty; destruct (pf_repeated g); cbn [class_type] in Hty.
  + destruct (class_params _ _ _); [|discriminate]. injection Hty as <-. reflexivity.
  + destruct (class_params _ _ _); [|discriminate]. injection Hty as <-. reflexivity.
  + destruct (enum_scopes_ok _ _ _); [|discriminate]. injection Hty as <-. reflexivity.
  + destruct (enum_scopes_ok _ _ _); [|discriminate]. injection Hty as <-. reflexivity.
Qed.
