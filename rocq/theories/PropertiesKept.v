(** * Property C83: references returned by mutable_, get_ and [] that are kept while other calls are made.

    [through ty p (run_op fuel o) v] (Kept.v): on the object [v] of class [ty], the call [o] through a reference to the
    part at place [p] that was obtained earlier. [run_op fuel (nest p o) ty v]: the same call through the accessors.
    [shown], [spares], [switched]: SpecKept.v. *)
From Verif Require Import Base Buffers Wire Schema Fields Message Api Spec SpecApi Alias SpecAlias Kept SpecKept KeptProofs KeptSamples.

(** C83: false for oneofs. A reference can no longer be used if and only if on the way to it a oneof has another
    active member now: then any use of it, whatever [g] does, is an access to an object that has been destroyed. *)
Theorem C83_switched_refuted : forall ty ops fuel v p tty,
  oty_ok ty -> Forall (op_ok ty) ops -> run_ops fuel ops ty (construct ty) = Done v -> type_at ty p = Some tty ->
  (switched ty p v <-> forall g, through ty p g v = UB).
Proof. exact switched_reach. Qed.
Print Assumptions C83_switched_refuted.

(** auto& r = page.mutable_c(); page.mutable_d() or page.clear_c(); r.set_n(5) *)
Example C83_switched_refuted_applies : oty_ok (OElem Page) /\ type_at (OElem Page) at_c = Some (OElem Part)
  /\ Forall (fun ops => Forall (op_ok (OElem Page)) ops
       /\ exists v, run_ops 0 ops (OElem Page) (construct (OElem Page)) = Done v /\ switched (OElem Page) at_c v
          /\ through (OElem Page) at_c (run_op 0 (set_n 5)) v = UB) [switch; drop].
Proof. split; [exact page_ok|]. split; [reflexivity|exact page_switched]. Qed.

(** C83: false when the getters say that there is nothing: an optional field without has_, an index behind the end.
    Every call through the reference succeeds as it would elsewhere, but no getter shows a difference. What was
    written appears when the accessor is called the next time. *)
Theorem C83_hidden_refuted : forall ty ops fuel v p tty o,
  oty_ok ty -> Forall (op_ok ty) ops -> run_ops fuel ops ty (construct ty) = Done v ->
  type_at ty p = Some tty -> op_ok tty o -> shown ty (oview ty v) p = None -> ~ switched ty p v ->
  exists y, read_at ty p v = Done y /\
  match run_op fuel o tty y with
  | Done (e, y') => exists v' v'', through ty p (run_op fuel o) v = Done (e, v') /\ owt ty v' /\ oview ty v' = oview ty v
      /\ acall tty (oview tty y) o e (oview tty y')
      /\ run_op fuel (nest p OpTouch) ty v' = Done (NoErrors, v'') /\ shown ty (oview ty v'') p = Some (oview tty y')
  | UB => False
  | Fuel => decodes o
  end.
Proof. exact hidden_reach. Qed.
Print Assumptions C83_hidden_refuted.

(** auto& r = page.mutable_head() or page.mutable_parts(1); page.clear_head(); page.clear_parts(); r.set_n(5) *)
Example C83_hidden_refuted_applies : oty_ok (OElem Page) /\ Forall (op_ok (OElem Page)) forget /\ op_ok (OElem Part) (set_n 5)
  /\ exists v, run_ops 0 forget (OElem Page) (construct (OElem Page)) = Done v
  /\ Forall (fun p => shown (OElem Page) (oview (OElem Page) v) p = None /\ ~ switched (OElem Page) p v
       /\ exists v' v'', through (OElem Page) p (run_op 0 (set_n 5)) v = Done (NoErrors, v') /\ oview (OElem Page) v' = oview (OElem Page) v
          /\ run_op 0 (nest p OpTouch) (OElem Page) v' = Done (NoErrors, v'') /\ shown (OElem Page) (oview (OElem Page) v'') p = Some (SvM [SvZ 5] []))
       [at_head; at_second].
Proof. split; [exact page_ok|]. split; [exact forget_ok|]. split; [apply set_n_ok; lia|exact page_hidden]. Qed.

(** As long as the getters show something at the place, the reference refers to it, and every call through it does
    what the call through the accessors does. Missing: the two cases above. *)
Theorem C83_shown_partial : forall ty ops fuel v p tty o,
  oty_ok ty -> Forall (op_ok ty) ops -> run_ops fuel ops ty (construct ty) = Done v ->
  type_at ty p = Some tty -> op_ok ty (nest p OpTouch) -> op_ok tty o -> shown ty (oview ty v) p <> None ->
  (exists y, read_at ty p v = Done y /\ shown ty (oview ty v) p = Some (oview tty y))
  /\ through ty p (run_op fuel o) v = run_op fuel (nest p o) ty v
  /\ match through ty p (run_op fuel o) v with
     | Done (e, v') => owt ty v' /\ acall ty (oview ty v) (nest p o) e (oview ty v')
     | UB => False
     | Fuel => decodes o
     end.
Proof. exact shown_reach. Qed.
Print Assumptions C83_shown_partial.

(** A reference that is obtained at some time stays so through all calls that do not clear, assign, replace or decode
    the part or anything around it, and do not select another member of a oneof around it. Calls on the part itself,
    on its neighbours, growing the list it is in and so on do no harm. *)
Theorem C83_kept_partial : forall ty ops0 ops fuel v p tty o,
  oty_ok ty -> type_at ty p = Some tty -> op_ok ty (nest p OpTouch) ->
  Forall (op_ok ty) ops0 -> Forall (op_ok ty) ops -> Forall (spares ty p) ops ->
  run_ops fuel (ops0 ++ nest p OpTouch :: ops) ty (construct ty) = Done v -> op_ok tty o ->
  (exists y, read_at ty p v = Done y /\ shown ty (oview ty v) p = Some (oview tty y))
  /\ through ty p (run_op fuel o) v = run_op fuel (nest p o) ty v
  /\ match through ty p (run_op fuel o) v with
     | Done (e, v') => owt ty v' /\ acall ty (oview ty v) (nest p o) e (oview ty v')
     | UB => False
     | Fuel => decodes o
     end.
Proof. exact kept_reach. Qed.
Print Assumptions C83_kept_partial.

(** auto& r = page.mutable_head(), page.mutable_parts(1) or page.mutable_c(); page.add_parts(); page.set_c(); and so
    on; r.set_n(5) *)
Example C83_kept_applies : oty_ok (OElem Page) /\ Forall (op_ok (OElem Page)) first /\ Forall (op_ok (OElem Page)) others /\ op_ok (OElem Part) (set_n 5)
  /\ Forall (fun p => type_at (OElem Page) p = Some (OElem Part) /\ op_ok (OElem Page) (nest p OpTouch)) [at_head; at_second; at_c]
  /\ Forall (fun p => Forall (spares (OElem Page) p) others
       /\ exists v v', run_ops 0 (first ++ nest p OpTouch :: others) (OElem Page) (construct (OElem Page)) = Done v
          /\ through (OElem Page) p (run_op 0 (set_n 5)) v = Done (NoErrors, v')
          /\ shown (OElem Page) (oview (OElem Page) v') p = Some (SvM [SvZ 5] [])) [at_head; at_second; at_c].
Proof.
  split; [exact page_ok|]. split; [exact first_ok|]. split; [exact others_ok|]. split; [apply set_n_ok; lia|]. split; [exact page_refs|exact page_kept].
Qed.
