(** * Property C94: what protoc writes when it is called with the plugin.

    [protoc limit request]: the headers that protoc writes to the disk, with their names, when it passes the files
    [request] to the plugin; None: it reports an error and writes nothing. [limit]: Python's recursion limit.
    [wanted]: the files of the user, and before them descriptor.proto if one of them imports it.
    [generate]: what the theorems about generated code (C50, C57-C59, C61, C64, C68-C70, C91 and others) are about. *)
From Coq Require Import String.
From Verif Require Import Base Schema Printf Generator GenMembers GenFiles SpecGenerator SpecFiles GenPlugin SpecPlugin PluginProofs PluginSamples.
From Verif Require Import GenInstanceSamples.
From Coq Require Import List ZArith.

(** Either one header is written for each file, named after it, in the order of the files and no name twice, or nothing
    at all. Missing: names of files that contain the two special names or other characters. *)
Theorem C94_headers_partial : forall limit request,
  usual_names request -> (forall f, In f (wanted request) -> i_syntax f <> chars "proto2") ->
  match generate limit (map i_content (wanted request)) with
  | Some hs => exists out, protoc limit request = Some out /\ map snd out = hs
      /\ Forall2 header_for (map (fun f => s_name (i_file f)) (wanted request)) (map fst out) /\ NoDup (map fst out)
  | None => protoc limit request = None
  end.
Proof. exact plugin_headers. Qed.
Print Assumptions C94_headers_partial.

Example C94_headers_applies :
  usual_names screen_request /\ (forall f, In f (wanted screen_request) -> i_syntax f <> chars "proto2")
  /\ uses_optional screen_request = true
  /\ option_map (map fst) (protoc 10 screen_request) = Some [chars "base/lib.h"; chars "app.h"]
  /\ option_map (map snd) (protoc 10 screen_request) = Some screen_headers
  /\ option_map (map fst) (protoc 10 own_options) = Some [chars "google/protobuf/descriptor.h"; chars "base/lib.h"; chars "app.h"].
Proof.
  split; [exact screen_request_usual|]. split; [exact screen_request_proto3|]. split; [vm_compute; reflexivity|].
  split; [vm_compute; reflexivity|]. split; [vm_compute; reflexivity|vm_compute; reflexivity].
Qed.

(** A file that says it is proto2 is refused. *)
Theorem C94_says_proto2 : forall limit request f,
  usual_names request -> In f (wanted request) -> i_syntax f = chars "proto2" -> protoc limit request = None.
Proof. exact plugin_says_proto2. Qed.
Print Assumptions C94_says_proto2.

Example C94_says_proto2_applies :
  let old := {| i_file := i_file (input "old.proto" [] nothing); i_syntax := chars "proto2"; i_content := nothing |} in
  usual_names (old :: screen_request) /\ In old (wanted (old :: screen_request)) /\ protoc 10 (old :: screen_request) = None.
Proof.
  cbv zeta. split; [apply usual_namesb_ok; vm_compute; reflexivity|]. split; [vm_compute; left; reflexivity|vm_compute; reflexivity].
Qed.

(** But the descriptors that protoc passes do not say so: no file is refused for being proto2, and the headers are those of
    proto3 files. *)
Theorem C94_proto2_refuted : forall limit request languages,
  length languages = length request -> (forall f, In f request -> i_syntax f = chars "proto3") ->
  protoc limit (in_versions languages request) = protoc limit request.
Proof. exact plugin_versions. Qed.
Print Assumptions C94_proto2_refuted.

Example C94_proto2_applies :
  let languages := [Proto2; Proto3; Proto2; Proto2] in
  length languages = length screen_request /\ (forall f, In f screen_request -> i_syntax f = chars "proto3")
  /\ map i_syntax (in_versions languages screen_request) = [chars ""; chars "proto3"; chars ""; chars ""]
  /\ option_map (map fst) (protoc 10 (in_versions languages screen_request)) = Some [chars "base/lib.h"; chars "app.h"].
Proof.
  cbv zeta. split; [reflexivity|]. split; [|split; vm_compute; reflexivity].
  intros f H. repeat (destruct H as [<-|H]; [reflexivity|]). destruct H.
Qed.

(** Two files whose names differ in the extension only get the same header, and nothing is written. *)
Theorem C94_extension_refuted : forall limit request f g stem ext,
  In f request -> In g request -> s_name (i_file f) = stem ++ chars ".proto" -> s_name (i_file g) = stem ++ chars "." ++ ext ->
  plain_name (stem ++ chars ".proto") ->
  ~ in_text options_file (stem ++ chars "." ++ ext) -> ~ in_text descriptor_file (stem ++ chars "." ++ ext) ->
  ~ In 46 ext -> ~ In 47 ext -> ext <> chars "proto" ->
  protoc limit request = None.
Proof. exact plugin_extension. Qed.
Print Assumptions C94_extension_refuted.

Example C94_extension_applies :
  In (input "base/lib.proto" [] lib_file) two_extensions /\ In (input "base/lib.protodevel" [] nothing) two_extensions
  /\ plain_name (chars "base/lib" ++ chars ".proto")
  /\ ~ in_text options_file (chars "base/lib" ++ chars "." ++ chars "protodevel")
  /\ ~ in_text descriptor_file (chars "base/lib" ++ chars "." ++ chars "protodevel")
  /\ ~ In 46 (chars "protodevel") /\ ~ In 47 (chars "protodevel") /\ chars "protodevel" <> chars "proto"
  /\ generate 10 (map i_content two_extensions) <> None.
Proof.
  split; [left; reflexivity|]. split; [right; left; reflexivity|]. split; [apply GenFilesSamples.plain_nameb_ok; vm_compute; reflexivity|].
  split; [apply GenFilesProps.contains_not; vm_compute; reflexivity|]. split; [apply GenFilesProps.contains_not; vm_compute; reflexivity|]. split; [vm_compute; intuition discriminate|]. split; [vm_compute; intuition discriminate|].
  split; [vm_compute; discriminate|vm_compute; discriminate].
Qed.
