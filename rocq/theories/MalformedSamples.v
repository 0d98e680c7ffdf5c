(** * Sample of malformed input used by the examples beside the theorems. *)
From Verif Require Import Base Buffers Schema Message Spec Contracts BufferProofs ScalarProofs SpecRead SpecMalformed Samples DecodeSamples.

Definition di : value := default_value Inner.
Lemma inner_default_wt : wt Inner di.
Proof. cbn. unfold is_byte, is_u32. repeat split; try (vm_compute; congruence); lia. Qed.
Lemma inner_default_clean : clean Inner di.
Proof. cbn. repeat split; try (vm_compute; congruence). Qed.

(** A varint that starts with a byte below 128 is that byte. *)
Lemma one_byte b r tg bs n : b < 128 -> b :: r = tg ++ bs -> varint32 tg n -> n = b mod 2 ^ 32 /\ bs = r.
Proof.
  intros Hb E [(hi & lo & -> & _ & Hhi & Hlo) Hv]. destruct hi as [|h hi]; cbn in E.
  - injection E as <- <-. split; [|reflexivity]. rewrite <- Hv. cbn [app varint_value]. f_equal. lia.
  - exfalso. injection E as <- _. inversion Hhi; subst. lia.
Qed.

(** s = "hello", cut off after "he". *)
Definition cut_hello : list Z := [26; 5; 104; 101].
Definition hello : list Z := [26; 5; 104; 101; 108; 108; 111].

Lemma cut_hello_bytes : Forall is_byte cut_hello.
Proof. repeat constructor; unfold is_byte; lia. Qed.

Lemma hello_ok : mdec inner_fields [] (view Inner di) hello (inner_s 0 [104; 101; 108; 108; 111]).
Proof.
  refine (mdec_cons _ _ _ hello _ [] _ _ (mdec_nil _ _ _ _)).
  change (rdec inner_fields [] (SvM [SvZ 0; SvNone; SvB []] []) ([26] ++ [5; 104; 101; 108; 108; 111])
    (SvM (upd 2 (SvB [104; 101; 108; 108; 111]) [SvZ 0; SvNone; SvB []]) [])).
  eapply (rdec_plain inner_fields [] _ _ 2 3 (EBytes true 8) [26] [104; 101; 108; 108; 111] _ (SvB []) (SvB [104; 101; 108; 108; 111])); [reflexivity|reflexivity|v32| | ].
  - exists [5]. split; [v32|reflexivity].
  - constructor; [cbn; lia|]. repeat constructor; unfold is_byte; lia.
Qed.

Ltac first_byte E F := match goal with
  | H : ?tg ++ _ = cut_hello, K : varint32 ?tg _ |- _ => destruct (one_byte 26 [5; 104; 101] _ _ _ ltac:(lia) (eq_sym H) K) as [E F]; cbn in E
  end.
Lemma hello_mover : ~ mover inner_fields [] (view Inner di) cut_hello.
Proof.
  intros H. inversion H as [? ? vs ovs num tg l n p Hn H0 Htg Hl Hp|? ? ? ? i num t x tg bs Hf Hx Htg He|? ? ? ? i num t x tg bs Hf Hx Htg He
    |? ? ? ? i num max t old tg bs Hf|? ? ? ? j ms num t o tg bs Hms|? ? ? ? mid bs' Hr Hm]; subst.
  - first_byte E F. apply Hn. cbn. assert (num = 3) by lia. auto.
  - inversion He; subst. destruct i as [|[|[|[|i]]]]; discriminate.
  - inversion He; subst. destruct i as [|[|[|[|i]]]]; discriminate.
  - destruct i as [|[|[|[|i]]]]; discriminate.
  - destruct j; discriminate.
  - clear H Hm. inversion Hr as [|? ? ? ? i num k t x tg w bs ? x' rest Hf Hx Htg Hfr|? ? ? ? j ms num t o tg w bs Hms|? ? ? ? j ms num t o tg bs ? x' rest Hms
      |? ? ? ? num tg w r rest Hn H0 Htg Hs|? ? ? ? num tg w bs ? rest Hn H0 Htg Hs|? ? ? ? num tg l n p Hbd|? ? ? ? num tg w rest Hn H0 Hw Htg].
    + first_byte E F. subst bs. destruct i as [|[|[|[|i]]]]; try discriminate; injection Hf as <- <- <-; try (destruct w; cbn in E; lia).
      inversion Hfr; subst; match goal with K : eread _ _ _ _ _ _ _ _ |- _ => rename K into He end. inversion He as [| |? ? ? ? ? _ Hfail|? ? ? l p ? Hl Hp El| | |]; subst.
      * inversion Hfail.
      * match goal with K : l ++ _ = _ |- _ => destruct (one_byte 5 [104; 101] _ _ _ ltac:(lia) (eq_sym K) Hl) as [E2 F2] end.
        cbn in E2. assert (length p <= 2)%nat by (apply (f_equal (@length Z)) in F2; rewrite app_length in F2; cbn in F2; lia). unfold zlen in E2. lia.
    + destruct j; discriminate.
    + first_byte E F. apply Hn. cbn. right; right; left. destruct w; cbn in E; lia.
    + first_byte E F. apply Hn. cbn. right; right; left. destruct w; cbn in E; lia.
    + discriminate.
    + first_byte E F. apply Hn. cbn. right; right; left. destruct w; cbn in E; lia.
Qed.
