(** * PluginSamples: requests for the examples about the plugin. *)
From Coq Require Import String.
From Verif Require Import Base Schema Printf Generator GenMembers GenFiles SpecGenerator SpecFiles GenPlugin SpecPlugin GenFilesProps GenSamples GenInstanceSamples GenFilesSamples.
From Coq Require Import List ZArith Bool.
Local Open Scope string_scope.

Definition nothing : pfile := {| p_package := []; p_enums := []; p_msgs := [] |}.
Definition input (n : string) (imports : list string) (content : pfile) : source :=
  {| i_file := src n imports; i_syntax := chars "proto3"; i_content := content |}.
(** descriptor.proto and the options of the library, lib.proto, and app.proto, which imports lib.proto and the options. *)
Definition screen_request : list source :=
  [input "google/protobuf/descriptor.proto" [] nothing;
   input "embedded_proto_options.proto" ["google/protobuf/descriptor.proto"] nothing;
   input "base/lib.proto" [] lib_file;
   input "app.proto" ["base/lib.proto"; "embedded_proto_options.proto"] app_file].
Definition usual_namesb (l : list source) : bool :=
  distinctb (map (fun f => s_name (i_file f)) l)
  && forallb (fun f => text_eqb (s_name (i_file f)) options_name || text_eqb (s_name (i_file f)) descriptor_name || plain_nameb (s_name (i_file f))) l.
Lemma usual_namesb_ok l : usual_namesb l = true -> usual_names l.
Proof.
  intros H. apply andb_true_iff in H. destruct H as (A & B). split; [apply distinctb_ok; exact A|]. intros f Hf. rewrite forallb_forall in B. specialize (B f Hf).
  apply orb_true_iff in B. destruct B as [B|B]; [|right; right; apply plain_nameb_ok; exact B].
  unfold text_eqb in B. destruct (text_dec _ _); [left; assumption|]. destruct (text_dec _ _); [right; left; assumption|discriminate].
Qed.
Lemma screen_request_usual : usual_names screen_request. Proof. apply usual_namesb_ok. vm_compute. reflexivity. Qed.
Lemma screen_request_proto3 : forall f, In f (wanted screen_request) -> i_syntax f <> chars "proto2".
Proof. intros f H. vm_compute in H. repeat (destruct H as [<-|H]; [vm_compute; discriminate|]). destruct H. Qed.
Lemma screen_request_wanted : map i_content (wanted screen_request) = screens. Proof. vm_compute. reflexivity. Qed.
(** As above with app.proto importing descriptor.proto itself. *)
Definition own_options : list source :=
  [input "google/protobuf/descriptor.proto" [] nothing; input "base/lib.proto" [] lib_file;
   input "app.proto" ["google/protobuf/descriptor.proto"; "base/lib.proto"] app_file].
(** And with a second file base/lib.protodevel. *)
Definition two_extensions : list source :=
  [input "base/lib.proto" [] lib_file; input "base/lib.protodevel" [] nothing; input "app.proto" ["base/lib.proto"] app_file].
