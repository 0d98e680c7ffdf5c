(** * Property C92: updates of the .proto files, and new names.

    [update same old new] (SpecEvolve.v): the changes from the .proto files [old] to the .proto files [new] are those that the
    protobuf language guide allows; [same] says which messages take the place of which. [renamed]: only names and lengths
    change. [class_at]: the class that the generator writes for a message; [code_serialize], [code_deserialize] and the
    getters in [shows] (SpecBody.v) run the generated code. [carry], [fits]: SpecVersions.v, as in C65. *)
From Coq Require Import String.
From Verif Require Import Base Buffers Schema Fields Message Api Spec SpecVersions SpecApi Contracts BufferProofs Printf Generator SpecGenerator SpecInstance GenMembers SpecMembers
  GenSamples GenInstanceSamples GenBody SpecBody GenBodySamples SpecEvolve EvolveProofs EvolveSamples.
From Coq Require Import List.

(** An object of the class that was generated from the old files writes itself; a new object of the class from the new
    files reads this: its getters show what those of the first show, carried over by field number, and if a string or list
    is longer than there is room for, the error is ArrayFull. *)
Theorem C92_update : forall same old new lengths lengths' s s' d fs os d' fs' os' ob, let t := EMsg fs os in let t' := EMsg fs' os' in
  update same old new -> same s s' -> class_at old lengths s d fs os -> class_at new lengths' s' d' fs' os' ->
  (forall p, capacity_ok (lengths p)) -> (forall p, capacity_ok (lengths' p)) -> valid_object d fs os ob ->
  exists x, shows d fs os ob x /\ (zlen (enc t x) < 2 ^ 32 ->
    let y := carry t t' (norm t x) in
    forall cap b content n b', wfix_rel cap b content (Some n) -> code_serialize d fs os ob _ (wfix_ops cap) b = Done (NoErrors, b') ->
    exists bytes, wfix_content b' = wfix_content b ++ bytes /\
    forall T (R : rops T) rel, reader_ok R rel -> forall r, rel r bytes -> forall fuel, (length bytes < fuel)%nat ->
    exists e ob' r', code_deserialize fuel d' fs' os' R (new_object d' fs' os') r = Done (e, ob', r') /\ valid_object d' fs' os' ob'
      /\ (fits t' y = true -> e = NoErrors /\ shows d' fs' os' ob' y) /\ (fits t' y = false -> e = ArrayFull)).
Proof. exact update_read. Qed.
Print Assumptions C92_update.

(** Package, message and field names, files and lengths have changed, the enum kind has become uint32, zoom is no longer
    optional, id has left its oneof and become a string, fields 4 of Point and 7 of Screen are new, color is gone. *)
Example C92_update_applies : update place screens windows /\ place (pa ["app"; "Screen"]%string) (pa ["gui"; "Window"]%string)
  /\ class_at screens legal_length (pa ["app"; "Screen"]%string) Screen screen_fields screen_oneofs
  /\ class_at windows legal_length (pa ["gui"; "Window"]%string) Window window_fields window_oneofs
  /\ (forall p, capacity_ok (legal_length p)) /\ valid_object Screen screen_fields screen_oneofs screen_object
  /\ (exists hs, generate 10 windows = Some hs)
  /\ exists b r, code_serialize Screen screen_fields screen_oneofs screen_object _ (wfix_ops 60) (wfix_init 60) = Done (NoErrors, b)
     /\ code_deserialize 23 Window window_fields window_oneofs (rfix_ops 22) (new_object Window window_fields window_oneofs) (rfix_of (wfix_content b)) = Done (NoErrors, window_object, r)
     /\ code_get Window window_fields window_oneofs window_object (chars "get_scale") = Done (VS 9)
     /\ code_get Window window_fields window_oneofs window_object (chars "get_id") = Done (VB 3 [1; 2; 3; 0; 0; 0; 0; 0])
     /\ code_get Window window_fields window_oneofs window_object (chars "get_corner") = Done (VR 2 [VM [] [VS 6; VS 0] []; VM [] [VS (-5); VS 0] []])
     /\ code_which Window window_fields window_oneofs window_object (chars "get_which_head") = Done 0.
Proof.
  split; [exact windows_update|]. split; [left; reflexivity|]. split; [exact screen_class_at|]. split; [exact window_class|]. split; [exact legal_lengths|].
  split; [exact (proj1 screen_object_shows)|]. split; [eexists; vm_compute; reflexivity|]. exact window_reads.
Qed.

(** Names and lengths are not on the wire: where only they differ, objects whose getters show the same write the same bytes. *)
Theorem C92_renamed : forall same old new lengths lengths' s s' d fs os d' fs' os' ob ob' x,
  renamed same old new -> same s s' -> class_at old lengths s d fs os -> class_at new lengths' s' d' fs' os' ->
  (forall p, capacity_ok (lengths p)) -> (forall p, capacity_ok (lengths' p)) ->
  valid_object d fs os ob -> valid_object d' fs' os' ob' -> shows d fs os ob x -> shows d' fs' os' ob' x -> zlen (enc (EMsg fs os) x) < 2 ^ 32 ->
  exists bytes,
    (forall cap b content n b', wfix_rel cap b content (Some n) -> code_serialize d fs os ob _ (wfix_ops cap) b = Done (NoErrors, b') ->
       wfix_content b' = wfix_content b ++ bytes)
    /\ (forall cap b content n b', wfix_rel cap b content (Some n) -> code_serialize d' fs' os' ob' _ (wfix_ops cap) b = Done (NoErrors, b') ->
       wfix_content b' = wfix_content b ++ bytes).
Proof. exact renamed_bytes. Qed.
Print Assumptions C92_renamed.

Example C92_renamed_applies : renamed new_name screens displays /\ new_name (pa ["app"; "Screen"]%string) (pa ["ui"; "Display"]%string)
  /\ class_at screens legal_length (pa ["app"; "Screen"]%string) Screen screen_fields screen_oneofs
  /\ class_at displays legal_length (pa ["ui"; "Display"]%string) Display display_fields display_oneofs
  /\ (valid_object Screen screen_fields screen_oneofs screen_object /\ valid_object Display display_fields display_oneofs display_object
      /\ shows Screen screen_fields screen_oneofs screen_object what_both_show /\ shows Display display_fields display_oneofs display_object what_both_show)
  /\ (exists b, code_serialize Screen screen_fields screen_oneofs screen_object _ (wfix_ops 60) (wfix_init 60) = Done (NoErrors, b)
        /\ wfix_content b = [33; 9; 0; 0; 0; 0; 0; 0; 0;  42; 2; 24; 12;  42; 2; 24; 9;  26; 3; 1; 2; 3])
  /\ (exists b, code_serialize Display display_fields display_oneofs display_object _ (wfix_ops 60) (wfix_init 60) = Done (NoErrors, b)
        /\ wfix_content b = [33; 9; 0; 0; 0; 0; 0; 0; 0;  42; 2; 24; 12;  42; 2; 24; 9;  26; 3; 1; 2; 3]).
Proof.
  split; [exact displays_renamed|]. split; [left; reflexivity|]. split; [exact screen_class_at|]. split; [exact display_class|]. split; [exact both_show|].
  split; [exact screen_bytes|exact display_bytes].
Qed.
