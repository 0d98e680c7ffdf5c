(** Helpers for the examples of C84: all the numbers that a byte string mentions. *)
From Verif Require Import Base Schema Spec BitLemmas SpecMentions.
From Coq Require Import ZifyBool ZifyNat ZifyN.
Ltac Zify.zify_post_hook ::= Z.div_mod_to_equations.

Fixpoint first_varint (l : list Z) : Z :=
  match l with
  | [] => 0
  | b :: l' => if b <? 128 then b else b - 128 + 128 * first_varint l'
  end.

Fixpoint numbers (l : list Z) : list Z :=
  match l with
  | [] => []
  | b :: l' => first_varint l mod 2 ^ 32 / 8 :: numbers l'
  end.

Lemma first_varint_wf init last rest : Forall (fun b => 128 <= b < 256) init -> 0 <= last < 128 ->
  first_varint (init ++ last :: rest) = varint_value (init ++ [last]).
Proof.
  intros H Hl. induction H as [|b init Hb H IH]; cbn [app first_varint varint_value].
  - destruct (Z.ltb_spec last 128); lia.
  - destruct (Z.ltb_spec b 128); [lia|]. rewrite IH. f_equal. lia.
Qed.

Lemma mentions_numbers bs num : mentions bs num -> In num (numbers bs).
Proof.
  intros (pre & tg & post & w & -> & (init & last & -> & _ & Hi & Hl) & E).
  assert (Hc : 0 <= wt_code w <= 5) by (destruct w; cbn; lia).
  assert (Hn : num = varint_value (init ++ [last]) mod 2 ^ 32 / 8) by (rewrite E; lia).
  induction pre as [|b pre IH]; [|right; exact IH]. cbn [app]. rewrite <- app_assoc. cbn [app].
  rewrite Hn, <- (first_varint_wf init last post Hi Hl). destruct init; left; reflexivity.
Qed.

Ltac unmentioned := let H := fresh in intros H; apply mentions_numbers in H; vm_compute in H; repeat (destruct H as [H|H]; [discriminate H|]); exact H.
