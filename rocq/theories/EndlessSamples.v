(** * EndlessSamples: a message that comes back to a list of itself. *)
From Coq Require Import String.
From Verif Require Import Base Schema Printf Generator SpecGenerator SpecParams GenSamples.
From Coq Require Import List Lia.

(** message A { message B { repeated A as = 1; } B b = 1; } *)
Local Open Scope string_scope.
Definition endless_request := file [msg "A" [msg "B" [] [fld "as" (PMessage (pa ["A"])) true 0]] [fld "b" (PMessage (pa ["A"; "B"])) false 0]].
Local Close Scope string_scope.

Lemma endless_long n : exists way kind, open_length endless_request (pa ["A"]%string) way kind /\ (n <= length way)%nat.
Proof.
  assert (HA : exists m, message endless_request (pa ["A"]%string) m /\ In (fld "b" (PMessage (pa ["A"; "B"]%string)) false 0) (m_fields m)).
  { eexists. split; [apply messages_spec; vm_compute; left; reflexivity|left; reflexivity]. }
  assert (HB : exists m, message endless_request (pa ["A"; "B"]%string) m /\ In (fld "as" (PMessage (pa ["A"]%string)) true 0) (m_fields m)).
  { eexists. split; [apply messages_spec; vm_compute; right; left; reflexivity|left; reflexivity]. }
  destruct HA as (ma & HA & Hga). destruct HB as (mb & HB & Hgb).
  assert (Hdown : forall way kind, open_length endless_request (pa ["A"; "B"]%string) way kind -> open_length endless_request (pa ["A"]%string) ((p_name ma, chars "b") :: way) kind).
  { intros way kind Ho. apply (ol_inside endless_request _ ma _ (pa ["A"; "B"]%string) way kind HA Hga); try reflexivity; try discriminate; [|exact Ho].
    intros [r E]. discriminate. }
  assert (Hup : forall way kind, open_length endless_request (pa ["A"]%string) way kind -> open_length endless_request (pa ["A"; "B"]%string) ((p_name mb, chars "as") :: way) kind).
  { intros way kind Ho. apply (ol_inside endless_request _ mb _ (pa ["A"]%string) way kind HB Hgb); try reflexivity; try discriminate. exact Ho. }
  induction n as [|n IH].
  - eexists _, _. split; [apply Hdown, (ol_list endless_request _ mb _ HB Hgb); try reflexivity; intros [H|H]; discriminate|lia].
  - destruct IH as (way & kind & Ho & Hn). eexists _, _. split; [apply Hdown, Hup; exact Ho|cbn [length]; lia].
Qed.
