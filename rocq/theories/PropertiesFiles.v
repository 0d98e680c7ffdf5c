(** * Property C63: including generated headers.

    [header_files request]: the headers the generator writes for the files [request] that protoc passes.
    [compile depth hs ns]: the headers whose definitions a compiler reads, in that order, when a source file includes the
    headers [ns] and includes can be nested [depth] deep; None: an error. [needed]: these files and all they import,
    directly or not. [user_files]: without the library's file of options and descriptor.proto, which have no code. *)
From Coq Require Import String.
From Verif Require Import Base Schema Printf Generator GenMembers GenFiles SpecFiles GenFilesProps GenFilesSamples.
From Coq Require Import List ZArith.

(** Every definition that is needed is read, once, after those it needs, and nothing else. Missing: names with other
    characters, names that differ in case or "/" and "_" only, imports with a namesake in the folder of the file, and
    files whose names contain those of the options and descriptor.proto (the refuted theorems below). *)
Theorem C63_includes_partial : forall request,
  ordered_request request ->
  (forall f, In f request -> s_name f = options_file \/ s_name f = descriptor_file \/ plain_name (s_name f)) ->
  (forall f, In f (user_files request) -> ~ In descriptor_file (s_imports f)) ->
  distinct_guards (user_files request) -> no_namesake (user_files request) ->
  forall depth ns, (length request <= depth)%nat -> incl ns (names (user_files request)) ->
  exists read, compile depth (header_files request) (map header_name ns) = Some (map header_name read)
    /\ NoDup read /\ imports_before (user_files request) read /\ forall n, In n read <-> needed (user_files request) ns n.
Proof. exact compile_request. Qed.
Print Assumptions C63_includes_partial.

Example C63_includes_applies :
  ordered_request sample_request
  /\ (forall f, In f sample_request -> s_name f = options_file \/ s_name f = descriptor_file \/ plain_name (s_name f))
  /\ (forall f, In f (user_files sample_request) -> ~ In descriptor_file (s_imports f))
  /\ distinct_guards (user_files sample_request) /\ no_namesake (user_files sample_request)
  /\ incl [chars "app.proto"] (names (user_files sample_request))
  /\ compile 7 (header_files sample_request) [header_name (chars "app.proto")]
     = Some [chars "base/types.h"; chars "base/units.h"; chars "base/msg.h"; chars "app.h"].
Proof.
  destruct (usualb_ok sample_request) as (A & B & C); [vm_compute; reflexivity|]. split; [exact A|]. split; [exact B|]. split; [exact C|].
  split; [apply guardsb_ok; vm_compute; reflexivity|]. split; [apply namesakeb_ok; vm_compute; reflexivity|].
  split; [intros x [<-|[]]; vm_compute; tauto|vm_compute; reflexivity].
Qed.

(** Of two files whose names differ in case, or in "/" and "_", only, one is always left out without an error. *)
Theorem C63_guards_refuted : forall depth request ns read a b,
  compile depth (header_files request) ns = Some read ->
  well_named a -> well_named b -> a <> b -> same_but_case a b ->
  ~ (In (header_name a) read /\ In (header_name b) read).
Proof. exact case_guard. Qed.
Print Assumptions C63_guards_refuted.

Example C63_guards_applies :
  let request := [src "motor/state.proto" []; src "motor_state.proto" []; src "app.proto" ["motor/state.proto"; "motor_state.proto"]]%string in
  compile 3 (header_files request) [header_name (chars "app.proto")] = Some [chars "motor/state.h"; chars "app.h"]
  /\ well_named (chars "motor/state.proto") /\ well_named (chars "motor_state.proto")
  /\ same_but_case (chars "motor/state.proto") (chars "motor_state.proto")
  /\ needed request [chars "app.proto"] (chars "motor_state.proto").
Proof.
  cbv zeta. split; [vm_compute; reflexivity|]. split; [apply well_namedb_ok; vm_compute; reflexivity|]. split; [apply well_namedb_ok; vm_compute; reflexivity|].
  split; [vm_compute; reflexivity|]. eapply needed_import with (f := src "app.proto" ["motor/state.proto"; "motor_state.proto"]%string);
    [right; right; left; reflexivity|apply needed_self; left; reflexivity|right; left; reflexivity].
Qed.

(** Nor are two files p-x.proto and p-y.proto ever both read. *)
Theorem C63_dashes_refuted : forall depth request ns read p x y,
  compile depth (header_files request) ns = Some read ->
  well_named (p ++ chars ".proto") -> x <> y -> (forall c, In c (x ++ y) -> c <> 46 /\ c <> 47) ->
  ~ (In (header_name (p ++ chars "-" ++ x ++ chars ".proto")) read /\ In (header_name (p ++ chars "-" ++ y ++ chars ".proto")) read).
Proof. exact dash_names. Qed.
Print Assumptions C63_dashes_refuted.

Example C63_dashes_applies :
  let request := [src "can/bus-rx.proto" []; src "can/bus-tx.proto" []; src "app.proto" ["can/bus-rx.proto"; "can/bus-tx.proto"]]%string in
  compile 3 (header_files request) [header_name (chars "app.proto")] = Some [chars "can/bus-rx.h"; chars "app.h"]
  /\ well_named (chars "can/bus" ++ chars ".proto").
Proof. cbv zeta. split; [vm_compute; reflexivity|apply well_namedb_ok; vm_compute; reflexivity]. Qed.

(** A header whose name starts with a digit cannot be included. *)
Theorem C63_digit_refuted : forall depth request c r, digit c = true ->
  compile depth (header_files request) [header_name (c :: r)] = None.
Proof. exact digit_error. Qed.
Print Assumptions C63_digit_refuted.

Example C63_digit_applies : digit 51 = true /\ chars "3d/shape.proto" = 51 :: chars "d/shape.proto"
  /\ map h_name (header_files [src "3d/shape.proto" []]) = [chars "3d/shape.h"].
Proof. repeat split. Qed.

(** The definitions of a file whose name contains "embedded_proto_options.proto" are never read. *)
Theorem C63_options_refuted : forall depth request ns read f,
  Forall well_named (names request) -> NoDup (names request) -> In f request ->
  in_text options_file (s_name f) -> ~ in_text descriptor_file (s_name f) ->
  compile depth (header_files request) ns = Some read -> ~ In (header_name (s_name f)) read.
Proof. exact options_missing. Qed.
Print Assumptions C63_options_refuted.

Example C63_options_applies :
  let request := [src "my_embedded_proto_options.proto" []; src "app.proto" ["my_embedded_proto_options.proto"]]%string in
  Forall well_named (names request) /\ NoDup (names request) /\ in_text options_file (chars "my_embedded_proto_options.proto")
  /\ ~ in_text descriptor_file (chars "my_embedded_proto_options.proto")
  /\ compile 2 (header_files request) [header_name (chars "app.proto")] = Some [chars "app.h"]
  /\ needed request [chars "app.proto"] (chars "my_embedded_proto_options.proto").
Proof.
  cbv zeta. split; [apply well_namedb_all; vm_compute; reflexivity|]. split; [apply distinctb_ok; vm_compute; reflexivity|]. split; [apply contains_spec; vm_compute; reflexivity|].
  split; [apply contains_not; vm_compute; reflexivity|]. split; [vm_compute; reflexivity|].
  eapply needed_import with (f := src "app.proto" ["my_embedded_proto_options.proto"]%string); [right; left; reflexivity|apply needed_self; left; reflexivity|left; reflexivity].
Qed.

(** A header whose file imports a file with a name that contains "google/protobuf/descriptor.proto" cannot be included,
    when no file imports that one itself. *)
Theorem C63_descriptor_refuted : forall depth request f n,
  ordered_request request -> Forall well_named (names request) -> no_namesake request -> In f request ->
  ~ in_text options_file (s_name f) -> ~ in_text descriptor_file (s_name f) ->
  In n (s_imports f) -> In n (names request) -> ~ in_text options_file n -> in_text descriptor_file n ->
  (forall g, In g request -> ~ In descriptor_file (s_imports g)) ->
  compile depth (header_files request) [header_name (s_name f)] = None.
Proof. exact descriptor_missing. Qed.
Print Assumptions C63_descriptor_refuted.

Example C63_descriptor_applies :
  let n := "copy_of_google/protobuf/descriptor.proto"%string in
  let request := [src n []; src "app.proto" [n]] in
  ordered_request request /\ Forall well_named (names request) /\ no_namesake request /\ in_text descriptor_file (chars n)
  /\ ~ in_text options_file (chars n) /\ (forall g, In g request -> ~ In descriptor_file (s_imports g))
  /\ map h_name (header_files request) = [chars "app.h"].
Proof.
  cbv zeta. split; [apply orderedb_ok; vm_compute; reflexivity|]. split; [apply well_namedb_all; vm_compute; reflexivity|].
  split; [apply namesakeb_ok; vm_compute; reflexivity|]. split; [apply contains_spec; vm_compute; reflexivity|]. split; [apply contains_not; vm_compute; reflexivity|].
  split; [|vm_compute; reflexivity]. intros g [<-|[<-|[]]]; [intros []|]. intros [E|[]]. apply (f_equal (fun t => hd 0 t)) in E. vm_compute in E. discriminate.
Qed.

(** An include of a file with a namesake relative to the folder of the including file finds the namesake. *)
Theorem C63_namesake_refuted : forall request f n,
  Forall well_named (names request) -> In f request -> In n (names request) ->
  folder (s_name f) <> [] -> In (folder (s_name f) ++ n) (names (definitions request)) ->
  exists h, resolve (header_files request) (header_name (s_name f)) (header_name n) = Some h
    /\ h_name h = header_name (folder (s_name f) ++ n) /\ h_name h <> header_name n.
Proof. exact namesake_resolve. Qed.
Print Assumptions C63_namesake_refuted.

Example C63_namesake_applies :
  let request := [src "hal/pin.proto" []; src "hal/hal/pin.proto" []; src "hal/board.proto" ["hal/pin.proto"]]%string in
  Forall well_named (names request) /\ folder (chars "hal/board.proto") = chars "hal/"
  /\ In (chars "hal/" ++ chars "hal/pin.proto") (names (definitions request))
  /\ compile 3 (header_files request) [header_name (chars "hal/board.proto")] = Some [chars "hal/hal/pin.h"; chars "hal/board.h"]
  /\ needed request [chars "hal/board.proto"] (chars "hal/pin.proto").
Proof.
  cbv zeta. split; [apply well_namedb_all; vm_compute; reflexivity|]. split; [vm_compute; reflexivity|]. split; [apply mem_in; vm_compute; reflexivity|].
  split; [vm_compute; reflexivity|]. eapply needed_import with (f := src "hal/board.proto" ["hal/pin.proto"]%string);
    [right; right; left; reflexivity|apply needed_self; left; reflexivity|left; reflexivity].
Qed.
