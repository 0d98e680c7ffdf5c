(** * Properties C50, C57, C58 and C59: the classes written by the code generator.

    [request] are the files as protoc passes them, [generate limit request] the headers (None: an error
    response), [limit] Python's recursion limit. [message request s m]: the request contains message [m] with
    the full name [s]; [generated hs s c]: the headers contain class [c] under that name. See SpecGenerator.v. *)
From Coq Require Import String.
From Verif Require Import Base Schema Printf Generator SpecGenerator SpecParams SpecLonger GenProps GenDeclared GenParams GenShadow GenAccept GenAcceptAll GenSingle GenLonger GenSamples LongerSamples EndlessSamples.
From Coq Require Import List.

(** ** C50: template parameters *)

(** The parameters in the type of a member variable are parameters of the class. Missing: a repeated
    message field of a given length (C50_repeated_refuted); a single field with the type of a message around its own
    (C50_enclosing_refuted). *)
Theorem C50_declared_partial : forall limit request hs s c n t,
  legal request -> generate limit request = Some hs -> generated hs s c -> In (n, t) (c_members c) ->
  (forall name a args max, t <> TyRep (TyMsg name (a :: args)) (LConst max)) ->
  (forall m g T, message request s m -> In g (m_fields m) -> pf_name g = n -> pf_repeated g = false -> pf_type g = PMessage T ->
     templated request T -> ~ prefix T s) ->
  incl (params_used t) (c_params c).
Proof. exact generated_declared. Qed.
Print Assumptions C50_declared_partial.

Example C50_declared_applies : legal good /\ generate 10 good = Some good_headers
  /\ exists c name args l, generated good_headers (pa ["app"; "ui"; "Screen"]%string) c
     /\ In (chars "rows", TyRep (TyMsg name args) (LParam l)) (c_members c) /\ length args = 2%nat /\ length (c_params c) = 5%nat.
Proof.
  split; [exact good_legal|]. split; [exact good_generated|].
  eexists _, _, _, _. split; [apply find_class_spec; vm_compute; reflexivity|]. split; [left; reflexivity|]. split; reflexivity.
Qed.

(** For a repeated field of a given length whose message has template parameters, the type uses a
    parameter that is not declared. *)
Theorem C50_repeated_refuted : forall limit request hs s m g T,
  legal request -> generate limit request = Some hs ->
  message request s m -> In g (m_fields m) -> pf_repeated g = true -> pf_max g <> 0 -> pf_type g = PMessage T -> T <> s ->
  templated request T -> no_clash m ->
  exists c t p, generated hs s c /\ In (pf_name g, t) (c_members c) /\ In p (params_used t) /\ ~ In p (c_params c).
Proof. exact generated_repeated. Qed.
Print Assumptions C50_repeated_refuted.

Example C50_repeated_applies : exists s m g T, legal fixed_repeated
  /\ generate 10 fixed_repeated = Some (headers_of fixed_repeated) /\ message fixed_repeated s m /\ In g (m_fields m)
  /\ pf_repeated g = true /\ pf_max g <> 0 /\ pf_type g = PMessage T /\ T <> s /\ templated fixed_repeated T /\ no_clash m.
Proof.
  exists (pa ["C"]%string). eexists _, _, (pa ["D"]%string).
  split; [apply legalb_spec; vm_compute; reflexivity|]. split; [vm_compute; reflexivity|].
  split; [apply messages_spec; left; reflexivity|]. split; [left; reflexivity|]. split; [reflexivity|]. split; [discriminate|]. split; [reflexivity|].
  split; [discriminate|]. split.
  - eapply templated_length; [apply messages_spec; right; left; reflexivity|left; reflexivity|reflexivity|intros [H|H]; discriminate|left; reflexivity].
  - intros f g r [<-|[]] [<-|[]] _. reflexivity.
Qed.

(** The same for a field that is not repeated, with the type of a message around its own message. *)
Theorem C50_enclosing_refuted : forall limit request hs s m g T,
  legal request -> generate limit request = Some hs ->
  message request s m -> In g (m_fields m) -> pf_repeated g = false -> pf_type g = PMessage T -> prefix T s -> T <> s ->
  templated request T -> no_clash m ->
  exists c t p, generated hs s c /\ In (pf_name g, t) (c_members c) /\ In p (params_used t) /\ ~ In p (c_params c).
Proof. exact generated_around. Qed.
Print Assumptions C50_enclosing_refuted.

Example C50_enclosing_applies : exists s m g T, legal enclosing /\ imports_first enclosing /\ references enclosing /\ Forall clear_names enclosing
  /\ generate 10 enclosing = Some (headers_of enclosing) /\ message enclosing s m /\ In g (m_fields m)
  /\ pf_repeated g = false /\ pf_type g = PMessage T /\ prefix T s /\ T <> s /\ templated enclosing T /\ no_clash m.
Proof.
  exists (pa ["A"; "B"]%string). eexists _, _, (pa ["A"]%string).
  split; [apply legalb_spec; vm_compute; reflexivity|]. split; [apply imports_firstb_spec; vm_compute; reflexivity|].
  split; [apply referencesb_spec; vm_compute; reflexivity|]. split; [constructor; [apply clear_namesb_spec; vm_compute; reflexivity|constructor]|].
  split; [vm_compute; reflexivity|]. split; [apply messages_spec; right; left; reflexivity|]. split; [left; reflexivity|]. split; [reflexivity|].
  split; [reflexivity|]. split; [exists (pa ["B"]%string); reflexivity|]. split; [discriminate|]. split.
  - eapply templated_length; [apply messages_spec; left; reflexivity|right; left; reflexivity|reflexivity|intros [H|H]; discriminate|left; reflexivity].
  - intros f g r [<-|[]] [<-|[]] _. reflexivity.
Qed.

(** These are the only cases. *)
Theorem C50_declared_exact : forall limit request hs s c m g t,
  legal request -> generate limit request = Some hs -> generated hs s c -> message request s m -> In g (m_fields m) ->
  In (pf_name g, t) (c_members c) -> no_clash m ->
  (incl (params_used t) (c_params c) <-> forall T, pf_type g = PMessage T -> templated request T ->
     (pf_repeated g = true -> pf_max g = 0) /\ (pf_repeated g = false -> ~ prefix T s)).
Proof. exact generated_declared_iff. Qed.
Print Assumptions C50_declared_exact.

Example C50_declared_exact_applies : legal enclosing /\ generate 10 enclosing = Some (headers_of enclosing)
  /\ exists s c m g t, generated (headers_of enclosing) s c /\ message enclosing s m /\ In g (m_fields m) /\ In (pf_name g, t) (c_members c)
     /\ no_clash m /\ params_used t <> [].
Proof.
  split; [apply legalb_spec; vm_compute; reflexivity|]. split; [vm_compute; reflexivity|].
  exists (pa ["A"; "B"]%string). eexists _, _, _, _. split; [apply find_class_spec; vm_compute; reflexivity|].
  split; [apply messages_spec; right; left; reflexivity|]. split; [left; reflexivity|]. split; [left; reflexivity|].
  split; [intros f g r [<-|[]] [<-|[]] _; reflexivity|discriminate].
Qed.

(** No parameter is declared twice. Missing: fields with similar names (C50_once_refuted). *)
Theorem C50_once_partial : forall limit request hs s c,
  legal request -> generate limit request = Some hs -> generated hs s c ->
  (forall s m, message request s m -> no_clash m) -> NoDup (c_params c).
Proof. exact generated_once. Qed.
Print Assumptions C50_once_partial.

Example C50_once_applies : legal good /\ generate 10 good = Some good_headers
  /\ (forall s m, message good s m -> no_clash m).
Proof.
  split; [exact good_legal|]. split; [exact good_generated|].
  intros s m Hm f g r Hf Hg E. apply messages_spec in Hm. vm_compute in Hm.
  repeat (destruct Hm as [Hm|Hm]; [injection Hm as <- <-; cbn [m_fields In] in Hf, Hg;
    repeat (destruct Hf as [<-|Hf]); try (now destruct Hf); repeat (destruct Hg as [<-|Hg]); try (now destruct Hg);
    first [reflexivity|vm_compute in E; discriminate]|]). destruct Hm.
Qed.

(** Two different lengths with the same name: the class declares one parameter twice. *)
Theorem C50_once_refuted : forall limit request hs s c way kind way' kind',
  legal request -> generate limit request = Some hs -> generated hs s c ->
  open_length request s way kind -> open_length request s way' kind' -> parameter_name way kind = parameter_name way' kind' ->
  (way, kind) <> (way', kind') -> ~ NoDup (c_params c).
Proof. exact generated_twice. Qed.
Print Assumptions C50_once_refuted.

Example C50_once_refuted_applies : legal clashing /\ imports_first clashing /\ references clashing /\ Forall clear_names clashing /\ generate 10 clashing = Some (headers_of clashing) /\ (exists c, generated (headers_of clashing) (pa ["M"]%string) c)
  /\ exists way kind way' kind', open_length clashing (pa ["M"]%string) way kind /\ open_length clashing (pa ["M"]%string) way' kind'
     /\ parameter_name way kind = parameter_name way' kind' /\ (way, kind) <> (way', kind').
Proof.
  split; [apply legalb_spec; vm_compute; reflexivity|]. split; [apply imports_firstb_spec; vm_compute; reflexivity|].
  split; [apply referencesb_spec; vm_compute; reflexivity|]. split; [constructor; [apply clear_namesb_spec; vm_compute; reflexivity|constructor]|].
  split; [vm_compute; reflexivity|].
  split; [eexists; apply find_class_spec; vm_compute; reflexivity|]. eexists _, _, _, _.
  split; [eapply ol_list; [apply messages_spec; left; reflexivity|left; reflexivity|reflexivity|reflexivity|intros [H|H]; discriminate]|].
  split; [eapply ol_string; [apply messages_spec; left; reflexivity|right; left; reflexivity|left; reflexivity|reflexivity]|].
  split; [reflexivity|discriminate].
Qed.

(** The parameters of a class are the lengths left open in its message and in the messages of its fields,
    one parameter for every such length, named after the way to it. *)
Theorem C50_parameters : forall limit request hs s c,
  legal request -> generate limit request = Some hs -> generated hs s c ->
  exists l, NoDup l /\ (forall way kind, In (way, kind) l <-> open_length request s way kind)
    /\ c_params c = map (fun '(way, kind) => parameter_name way kind) l.
Proof. exact generated_parameters. Qed.
Print Assumptions C50_parameters.

Example C50_parameters_applies : legal good /\ generate 10 good = Some good_headers
  /\ exists c way, generated good_headers (pa ["app"; "ui"; "Label"]%string) c
     /\ open_length good (pa ["app"; "ui"; "Label"]%string) way (chars "LENGTH") /\ length way = 2%nat
     /\ In (parameter_name way (chars "LENGTH")) (c_params c) /\ length (c_params c) = 2%nat.
Proof.
  split; [exact good_legal|]. split; [exact good_generated|].
  eexists _, _. split; [apply find_class_spec; vm_compute; reflexivity|]. split.
  - eapply ol_inside; [apply messages_spec; do 4 right; left; reflexivity|left; reflexivity|discriminate|reflexivity|discriminate|intros [r E]; discriminate|].
    eapply ol_string; [apply messages_spec; left; reflexivity|left; reflexivity|left; reflexivity|reflexivity].
  - split; [reflexivity|]. split; [left; reflexivity|reflexivity].
Qed.

(** So a parameter is declared twice exactly if two different lengths have the same name. *)
Theorem C50_once_exact : forall limit request hs s c,
  legal request -> generate limit request = Some hs -> generated hs s c ->
  (NoDup (c_params c) <-> forall way kind way' kind', open_length request s way kind -> open_length request s way' kind' ->
     parameter_name way kind = parameter_name way' kind' -> way = way' /\ kind = kind').
Proof. exact generated_distinct. Qed.
Print Assumptions C50_once_exact.

(** A class is a template exactly if a length is not given, in the message or in the message of a field
    that is not repeated. *)
Theorem C50_template : forall limit request hs s c,
  legal request -> generate limit request = Some hs -> generated hs s c ->
  (c_params c <> [] <-> templated request s).
Proof. exact generated_template. Qed.
Print Assumptions C50_template.

Example C50_template_applies : exists c c', generated good_headers (pa ["lib"; "Point"]%string) c /\ c_params c = []
  /\ generated good_headers (pa ["lib"; "Name"]%string) c' /\ c_params c' = [chars "Name_text_LENGTH"].
Proof.
  eexists _, _. split; [apply find_class_spec; vm_compute; reflexivity|]. split; [reflexivity|].
  split; [apply find_class_spec; vm_compute; reflexivity|reflexivity].
Qed.

(** The type of a message field has an argument for every parameter of the class of that message, in the same
    order. *)
Theorem C50_arguments : forall limit request hs s m g T,
  legal request -> generate limit request = Some hs ->
  message request s m -> In g (m_fields m) -> pf_type g = PMessage T -> T <> s ->
  exists c cT name args l, generated hs s c /\ generated hs T cT
    /\ In (pf_name g, if pf_repeated g then TyRep (TyMsg name args) l else TyMsg name args) (c_members c)
    /\ args = map (fun p => p_name m ++ chars "_" ++ pf_name g ++ chars "_" ++ p) (c_params cT).
Proof. exact generated_arguments. Qed.
Print Assumptions C50_arguments.

Example C50_arguments_applies : legal good /\ generate 10 good = Some good_headers
  /\ exists m g, message good (pa ["app"; "ui"; "Label"]%string) m /\ In g (m_fields m) /\ pf_type g = PMessage (pa ["lib"; "Name"]%string).
Proof.
  split; [exact good_legal|]. split; [exact good_generated|]. eexists _, _.
  split; [apply messages_spec; do 4 right; left; reflexivity|]. split; [left; reflexivity|reflexivity].
Qed.

(** ** C57: order *)

(** The type of a field is complete where the member variables of the class are declared. Missing: names that
    the generator mixes up (C57_longer_name_refuted, C57_joined_name_refuted), the type of a message around the message of the
    field (C57_enclosing_refuted). *)
Theorem C57_order_partial : forall limit request hs s m g T,
  legal request -> imports_first request -> Forall clear_names request -> generate limit request = Some hs ->
  message request s m -> In g (m_fields m) -> refers g T -> ~ prefix T s -> before (script hs) (Declared T) (Uses s).
Proof. exact generated_order. Qed.
Print Assumptions C57_order_partial.

Example C57_order_applies : legal good /\ imports_first good /\ Forall clear_names good
  /\ generate 10 good = Some good_headers
  /\ exists m g, message good (pa ["app"; "ui"; "Screen"; "Row"]%string) m /\ In g (m_fields m) /\ refers g (pa ["app"; "ui"; "Label"]%string).
Proof.
  split; [exact good_legal|]. split; [exact good_imports|]. split; [exact good_clear|]. split; [exact good_generated|].
  eexists _, _. split; [apply messages_spec; do 3 right; left; reflexivity|]. split; [right; left; reflexivity|left; reflexivity].
Qed.

(** A message is never complete within itself. *)
Theorem C57_enclosing_refuted : forall limit request hs s m T,
  legal request -> generate limit request = Some hs -> message request s m -> prefix T s -> (exists mT, message request T mT) ->
  ~ before (script hs) (Declared T) (Uses s).
Proof. exact generated_enclosing. Qed.
Print Assumptions C57_enclosing_refuted.

Example C57_enclosing_applies : legal enclosing /\ imports_first enclosing /\ Forall clear_names enclosing
  /\ generate 10 enclosing = Some (headers_of enclosing)
  /\ exists m g T, message enclosing (pa ["A"; "B"]%string) m /\ In g (m_fields m) /\ refers g T /\ prefix T (pa ["A"; "B"]%string)
     /\ T <> pa ["A"; "B"]%string /\ exists mT, message enclosing T mT.
Proof.
  split; [apply legalb_spec; vm_compute; reflexivity|]. split; [apply imports_firstb_spec; vm_compute; reflexivity|].
  split; [constructor; [apply clear_namesb_spec; vm_compute; reflexivity|constructor]|]. split; [vm_compute; reflexivity|].
  eexists _, _, _. split; [apply messages_spec; right; left; reflexivity|]. split; [left; reflexivity|]. split; [left; reflexivity|].
  split; [exists (pa ["B"]%string); reflexivity|]. split; [discriminate|]. eexists. apply messages_spec. left. reflexivity.
Qed.

(** So in a request with names that are not mixed up, the type of a message field is complete exactly if it is not
    a message around the field. *)
Theorem C57_order_exact : forall limit request hs s m g T,
  legal request -> imports_first request -> Forall clear_names request -> generate limit request = Some hs ->
  message request s m -> In g (m_fields m) -> pf_type g = PMessage T ->
  (before (script hs) (Declared T) (Uses s) <-> ~ prefix T s).
Proof. exact generated_order_iff. Qed.
Print Assumptions C57_order_exact.

Example C57_order_exact_applies : legal enclosing /\ imports_first enclosing /\ Forall clear_names enclosing
  /\ generate 10 enclosing = Some (headers_of enclosing)
  /\ (exists m g, message enclosing (pa ["A"]%string) m /\ In g (m_fields m) /\ pf_type g = PMessage (pa ["A"; "B"]%string))
  /\ exists m g, message enclosing (pa ["A"; "B"]%string) m /\ In g (m_fields m) /\ pf_type g = PMessage (pa ["A"]%string).
Proof.
  split; [apply legalb_spec; vm_compute; reflexivity|]. split; [apply imports_firstb_spec; vm_compute; reflexivity|].
  split; [constructor; [apply clear_namesb_spec; vm_compute; reflexivity|constructor]|]. split; [vm_compute; reflexivity|]. split.
  - eexists _, _. split; [apply messages_spec; left; reflexivity|]. split; [left; reflexivity|reflexivity].
  - eexists _, _. split; [apply messages_spec; right; left; reflexivity|]. split; [left; reflexivity|reflexivity].
Qed.

(** For a field that is not repeated, with the type of a message that is not around it: also if the generator mixes up
    the names, in any accepted request. Missing: repeated fields and enums, see C57_longer_name_refuted. *)
Theorem C57_single_partial : forall limit request hs s m g T,
  legal request -> generate limit request = Some hs -> message request s m -> In g (m_fields m) ->
  pf_repeated g = false -> pf_type g = PMessage T -> ~ prefix T s -> before (script hs) (Declared T) (Uses s).
Proof. exact generated_single. Qed.
Print Assumptions C57_single_partial.

Example C57_single_applies : let s := pa ["app"; "Log"]%string in let T := pa ["app"; "Log"; "Page"]%string in
  legal (logs true) /\ ~ Forall clear_names (logs true) /\ (exists hs, generate 10 (logs true) = Some hs)
  /\ exists m g, message (logs true) s m /\ In g (m_fields m) /\ pf_repeated g = false /\ pf_type g = PMessage T /\ ~ prefix T s.
Proof.
  split; [apply legalb_spec; vm_compute; reflexivity|]. split; [exact logs_unclear|]. split; [eexists; vm_compute; reflexivity|].
  eexists _, _. split; [apply messages_spec; right; left; reflexivity|]. split; [left; reflexivity|]. split; [reflexivity|]. split; [reflexivity|].
  intros [r E]. discriminate.
Qed.

(** The name of one message is the beginning of the name of another one, such as Log and LogEntry. Nothing inside the first
    one is declared after the second one, so a repeated field of that type has an incomplete type. *)
Theorem C57_longer_name_refuted : forall limit request hs f M X r s m,
  legal request -> imports_first request -> In f request -> plain_names f -> In M (p_msgs f) -> In X (p_msgs f) ->
  p_name X = p_name M ++ r -> r <> [] -> starts_alike f M -> generate limit request = Some hs -> inside (p_package f) M s m ->
  ~ before (script hs) (Declared (p_package f ++ [p_name X])) (Uses s).
Proof. exact generated_longer. Qed.
Print Assumptions C57_longer_name_refuted.

Example C57_longer_name_applies : let request := logs true in
  legal request /\ imports_first request /\ references request /\ no_enclosing request
  /\ (exists hs, generate 10 request = Some hs)
  /\ exists f M X s m g, In f request /\ plain_names f /\ In M (p_msgs f) /\ In X (p_msgs f)
     /\ p_name X = p_name M ++ chars "Entry" /\ starts_alike f M /\ inside (p_package f) M s m
     /\ In g (m_fields m) /\ refers g (p_package f ++ [p_name X]).
Proof.
  split; [apply legalb_spec; vm_compute; reflexivity|]. split; [apply imports_firstb_spec; vm_compute; reflexivity|].
  split; [apply referencesb_spec; vm_compute; reflexivity|]. split; [apply no_enclosingb_spec; vm_compute; reflexivity|].
  split; [eexists; vm_compute; reflexivity|].
  eexists _, _, _, _, _, _. split; [left; reflexivity|]. split; [apply plain_namesb_spec; vm_compute; reflexivity|].
  split; [right; left; reflexivity|]. split; [left; reflexivity|]. split; [reflexivity|]. split; [apply starts_alikeb_spec; vm_compute; reflexivity|].
  split; [apply messages_in_spec; right; left; reflexivity|]. split; [left; reflexivity|left; reflexivity].
Qed.

(** Without a package: the name of a message is the name of another one and that of a message inside it, written
    together. *)
Theorem C57_joined_name_refuted : exists request hs s m g T, legal request /\ imports_first request /\ references request /\ no_enclosing request
  /\ generate 10 request = Some hs /\ message request s m /\ In g (m_fields m) /\ refers g T /\ T <> s
  /\ ~ before (script hs) (Declared T) (Uses s).
Proof.
  exists joined_name, (headers_of joined_name), (pa ["C"]%string). eexists _, _, _.
  split; [apply legalb_spec; vm_compute; reflexivity|]. split; [apply imports_firstb_spec; vm_compute; reflexivity|].
  split; [apply referencesb_spec; vm_compute; reflexivity|]. split; [apply no_enclosingb_spec; vm_compute; reflexivity|]. split; [vm_compute; reflexivity|].
  split; [apply messages_spec; left; reflexivity|]. split; [left; reflexivity|]. split; [left; reflexivity|]. split; [discriminate|].
  rewrite <- beforeb_spec. vm_compute. discriminate.
Qed.
Print Assumptions C57_joined_name_refuted.

(** ** C58: the member variables *)

(** There is one class for every message. *)
Theorem C58_classes : forall limit request hs, legal request -> generate limit request = Some hs ->
  forall s, (exists c, generated hs s c) <-> exists m, message request s m.
Proof. exact generated_exactly. Qed.
Print Assumptions C58_classes.

(** It has exactly one member variable for every field, except the recursive ones. *)
Theorem C58_members : forall limit request hs s c,
  legal request -> generate limit request = Some hs -> generated hs s c ->
  exists m, message request s m /\ NoDup (map fst (c_members c))
    /\ forall n, In n (map fst (c_members c)) <-> exists g, In g (m_fields m) /\ pf_name g = n /\ ~ refers g s.
Proof. exact generated_members. Qed.
Print Assumptions C58_members.

Example C58_members_applies : legal good /\ generate 10 good = Some good_headers
  /\ exists c, generated good_headers (pa ["app"; "ui"; "Screen"]%string) c
     /\ map fst (c_members c) = map chars ["rows"; "zoom"; "corner"; "title"; "id"]%string.
Proof.
  split; [exact good_legal|]. split; [exact good_generated|]. eexists. split; [apply find_class_spec; vm_compute; reflexivity|reflexivity].
Qed.

(** The name written for a type stands for that type exactly if no scope on the way declares the same name. *)
Theorem C58_names : forall limit request hs s m g T,
  legal request -> imports_first request -> generate limit request = Some hs ->
  message request s m -> In g (m_fields m) -> refers g T -> T <> s ->
  exists c name, generated hs s c
    /\ (exists t, In (pf_name g, t) (c_members c) /\ match t with
         | TyEnum n | TyMsg n _ | TyRep (TyEnum n) _ | TyRep (TyMsg n _) _ => n = name | _ => False end)
    /\ (stands_for hs s name T <-> ~ shadowed request s T).
Proof. exact generated_names. Qed.
Print Assumptions C58_names.

(** Such a name makes the member variable have the wrong type. *)
Theorem C58_shadowed_refuted : forall limit request hs s m g T,
  legal request -> imports_first request -> generate limit request = Some hs ->
  message request s m -> In g (m_fields m) -> refers g T -> T <> s -> shadowed request s T ->
  exists c name other, generated hs s c
    /\ (exists t, In (pf_name g, t) (c_members c) /\ match t with
         | TyEnum n | TyMsg n _ | TyRep (TyEnum n) _ | TyRep (TyMsg n _) _ => n = name | _ => False end)
    /\ stands_for hs s name other /\ other <> T.
Proof. exact generated_shadowed. Qed.
Print Assumptions C58_shadowed_refuted.

Example C58_shadowed_applies : exists m g, legal shadow /\ imports_first shadow /\ references shadow /\ Forall clear_names shadow /\ no_enclosing shadow
  /\ generate 10 shadow = Some (headers_of shadow) /\ message shadow (pa ["A"]%string) m /\ In g (m_fields m) /\ refers g (pa ["B"]%string)
  /\ pa ["B"]%string <> pa ["A"]%string /\ shadowed shadow (pa ["A"]%string) (pa ["B"]%string).
Proof.
  eexists _, _.
  split; [apply legalb_spec; vm_compute; reflexivity|]. split; [apply imports_firstb_spec; vm_compute; reflexivity|].
  split; [apply referencesb_spec; vm_compute; reflexivity|]. split; [constructor; [apply clear_namesb_spec; vm_compute; reflexivity|constructor]|].
  split; [apply no_enclosingb_spec; vm_compute; reflexivity|]. split; [vm_compute; reflexivity|].
  split; [apply messages_spec; left; reflexivity|]. split; [left; reflexivity|]. split; [left; reflexivity|]. split; [discriminate|].
  exists [], (chars "B"), [], [chars "A"], []. split; [reflexivity|]. split; [reflexivity|]. split; [left; reflexivity|]. split; [discriminate|].
  left. vm_compute. auto.
Qed.

(** A name of a message in a template has no template arguments for it: exactly if the request has such
    a message. (For enums the generator reports an error, C59_accepts_partial.) *)
Theorem C58_scopes_refuted : forall limit request hs s m g T,
  legal request -> imports_first request -> generate limit request = Some hs ->
  message request s m -> In g (m_fields m) -> pf_type g = PMessage T -> T <> s ->
  exists c name args l, generated hs s c
    /\ In (pf_name g, if pf_repeated g then TyRep (TyMsg name args) l else TyMsg name args) (c_members c)
    /\ (plain_scopes hs name T <-> ~ templated_scope request s T).
Proof. exact generated_scopes. Qed.
Print Assumptions C58_scopes_refuted.

Example C58_scopes_applies : legal in_template /\ imports_first in_template
  /\ generate 10 in_template = Some (headers_of in_template)
  /\ exists m g, message in_template (pa ["C"]%string) m /\ In g (m_fields m) /\ pf_type g = PMessage (pa ["A"; "B"]%string)
     /\ templated_scope in_template (pa ["C"]%string) (pa ["A"; "B"]%string).
Proof.
  split; [apply legalb_spec; vm_compute; reflexivity|]. split; [apply imports_firstb_spec; vm_compute; reflexivity|].
  split; [vm_compute; reflexivity|].
  eexists _, _. split; [apply messages_spec; do 2 right; left; reflexivity|]. split; [left; reflexivity|]. split; [reflexivity|].
  exists (pa ["A"]%string). split; [exists (pa ["B"]%string); reflexivity|]. split; [discriminate|].
  split; [rewrite <- prefixb_spec; vm_compute; discriminate|].
  eapply templated_length; [apply messages_spec; left; reflexivity|left; reflexivity|reflexivity|intros [H|H]; discriminate|left; reflexivity].
Qed.

(** Everything else about the type of a member variable: kind, lengths, arguments, name and order are right.
    The hypotheses leave out what is missing: names that are mixed up or shadowed, types around the message, messages in
    templates, repeated fields of given length with messages that are templates. *)
Theorem C58_types_partial : forall limit request hs s m g,
  legal request -> imports_first request -> Forall clear_names request -> generate limit request = Some hs ->
  message request s m -> In g (m_fields m) -> (forall T, refers g T -> ~ prefix T s) ->
  (forall T, refers g T -> ~ shadowed request s T) -> (forall T, pf_type g = PMessage T -> ~ templated_scope request s T) ->
  (forall T, pf_type g = PMessage T -> pf_repeated g = true -> pf_max g <> 0 -> ~ templated request T) ->
  exists c t, generated hs s c /\ In (pf_name g, t) (c_members c) /\ type_right hs s (c_params c) g t.
Proof. exact generated_right. Qed.
Print Assumptions C58_types_partial.

Example C58_types_applies : exists g, (exists m, message good (pa ["app"; "ui"; "Label"]%string) m /\ In g (m_fields m))
  /\ pf_type g = PMessage (pa ["lib"; "Name"]%string) /\ ~ shadowed good (pa ["app"; "ui"; "Label"]%string) (pa ["lib"; "Name"]%string)
  /\ ~ templated_scope good (pa ["app"; "ui"; "Label"]%string) (pa ["lib"; "Name"]%string)
  /\ ~ prefix (pa ["lib"; "Name"]%string) (pa ["app"; "ui"; "Label"]%string).
Proof.
  eexists. split; [eexists; split; [apply messages_spec; do 4 right; left; reflexivity|left; reflexivity]|]. split; [reflexivity|].
  assert (Hpre : ~ prefix (pa ["lib"; "Name"]%string) (pa ["app"; "ui"; "Label"]%string)) by (intros [r E]; discriminate).
  split; [|split; [|exact Hpre]].
  - apply not_shadowedb_spec. vm_compute. reflexivity.
  - intros (x & [r E] & HxT & Hxs & Ht). assert (Hx : x = pa ["lib"]%string).
    { destruct x as [|x1 x]; [exfalso; apply Hxs; eexists; reflexivity|]. cbn in E. injection E as <- E. destruct x as [|x2 x]; [reflexivity|].
      injection E as <- E. destruct x; [|discriminate]. exfalso. apply HxT. reflexivity. }
    subst x. assert (H : exists m, message good (pa ["lib"]%string) m) by (inversion Ht; eexists; eassumption).
    destruct H as [m Hm]. apply messages_spec in Hm. vm_compute in Hm. repeat (destruct Hm as [Hm|Hm]; [discriminate|]). destruct Hm.
Qed.

(** ** C59: what is accepted *)

(** With names that are not mixed up and no type around its own message, the generator accepts exactly the
    requests whose messages can be put in order, without types that are nested twice in the message of a
    field, and without enums in templates. Missing: C59_deep_refuted, C59_longer_name_refuted. *)
Theorem C59_accepts_partial : forall request,
  legal request -> imports_first request -> references request -> Forall clear_names request -> no_enclosing request ->
  ((exists limit hs, generate limit request = Some hs) <->
   Forall orderable request /\ Forall no_deep request
   /\ forall s m g T, message request s m -> In g (m_fields m) -> pf_type g = PEnum T -> ~ templated_scope request s T).
Proof. exact generate_accepts. Qed.
Print Assumptions C59_accepts_partial.

Example C59_accepts_applies : legal good /\ imports_first good /\ references good /\ Forall clear_names good /\ no_enclosing good
  /\ (exists hs, generate 10 good = Some hs)
  /\ legal cyclic /\ imports_first cyclic /\ references cyclic /\ Forall clear_names cyclic /\ no_enclosing cyclic
  /\ generate 10 cyclic = None.
Proof.
  split; [exact good_legal|]. split; [exact good_imports|]. split; [exact good_references|]. split; [exact good_clear|]. split; [exact good_enclosing|].
  split; [eexists; exact good_generated|]. split; [apply legalb_spec; vm_compute; reflexivity|]. split; [apply imports_firstb_spec; vm_compute; reflexivity|].
  split; [apply referencesb_spec; vm_compute; reflexivity|]. split; [constructor; [apply clear_namesb_spec; vm_compute; reflexivity|constructor]|].
  split; [apply no_enclosingb_spec; vm_compute; reflexivity|]. vm_compute. reflexivity.
Qed.

(** The same with types around their own message: the lengths to be given must be finitely many. *)
Theorem C59_enclosing_partial : forall request,
  legal request -> imports_first request -> references request -> Forall clear_names request ->
  ((exists limit hs, generate limit request = Some hs) <->
   Forall orderable request /\ Forall no_deep request /\ finite_lengths request
   /\ forall s m g T, message request s m -> In g (m_fields m) -> pf_type g = PEnum T -> ~ templated_scope request s T).
Proof. exact generate_accepts_all. Qed.
Print Assumptions C59_enclosing_partial.

Example C59_enclosing_applies : legal enclosing /\ imports_first enclosing /\ references enclosing /\ Forall clear_names enclosing
  /\ ~ no_enclosing enclosing /\ (exists hs, generate 10 enclosing = Some hs)
  /\ legal endless_request /\ imports_first endless_request /\ references endless_request /\ Forall clear_names endless_request
  /\ Forall orderable endless_request /\ Forall no_deep endless_request /\ generate 40 endless_request = None
  /\ forall n, exists way kind, open_length endless_request (pa ["A"]%string) way kind /\ (n <= length way)%nat.
Proof.
  split; [apply legalb_spec; vm_compute; reflexivity|]. split; [apply imports_firstb_spec; vm_compute; reflexivity|].
  split; [apply referencesb_spec; vm_compute; reflexivity|]. split; [constructor; [apply clear_namesb_spec; vm_compute; reflexivity|constructor]|].
  split.
  { intros H. assert (Hm : exists m, message enclosing (pa ["A"; "B"]%string) m /\ In (fld "a" (PMessage (pa ["A"]%string)) false 0) (m_fields m))
      by (eexists; split; [apply messages_spec; vm_compute; right; left; reflexivity|left; reflexivity]).
    destruct Hm as (m & Hm & Hg). specialize (H _ m _ (pa ["A"]%string) Hm Hg (or_introl eq_refl)).
    assert (E : pa ["A"]%string = pa ["A"; "B"]%string) by (apply H; exists (pa ["B"]%string); reflexivity). discriminate E. }
  split; [eexists; vm_compute; reflexivity|].
  split; [apply legalb_spec; vm_compute; reflexivity|]. split; [apply imports_firstb_spec; vm_compute; reflexivity|].
  split; [apply referencesb_spec; vm_compute; reflexivity|]. split; [constructor; [apply clear_namesb_spec; vm_compute; reflexivity|constructor]|].
  split; [constructor; [apply (orderableb_spec []); vm_compute; reflexivity|constructor]|].
  split; [constructor; [apply no_deepb_spec; vm_compute; reflexivity|constructor]|].
  split; [vm_compute; reflexivity|exact endless_long].
Qed.

(** A field whose type is nested two or more levels inside the message of the field: the request is
    rejected, although C++ would need no other order. *)
Theorem C59_deep_refuted : forall limit request f s m g T a b r,
  legal request -> imports_first request -> In f request -> file_message f s m -> In g (m_fields m) -> refers g T -> T = s ++ a :: b :: r ->
  In T (file_type_names f) -> generate limit request = None.
Proof. exact deep_rejected. Qed.
Print Assumptions C59_deep_refuted.

Example C59_deep_applies : legal two_levels /\ imports_first two_levels /\ references two_levels /\ Forall clear_names two_levels /\ no_enclosing two_levels
  /\ Forall orderable two_levels
  /\ exists f m g, In f two_levels /\ file_message f (pa ["A"]%string) m /\ In g (m_fields m) /\ refers g (pa ["A"; "B"; "C"]%string)
     /\ In (pa ["A"; "B"; "C"]%string) (file_type_names f).
Proof.
  split; [apply legalb_spec; vm_compute; reflexivity|]. split; [apply imports_firstb_spec; vm_compute; reflexivity|].
  split; [apply referencesb_spec; vm_compute; reflexivity|]. split; [constructor; [apply clear_namesb_spec; vm_compute; reflexivity|constructor]|].
  split; [apply no_enclosingb_spec; vm_compute; reflexivity|]. split; [constructor; [apply (orderableb_spec []); vm_compute; reflexivity|constructor]|].
  eexists _, _, _. split; [left; reflexivity|]. split; [apply file_messages_spec; left; reflexivity|]. split; [left; reflexivity|]. split; [left; reflexivity|].
  apply inb_spec. vm_compute. reflexivity.
Qed.

(** The name of one message is the beginning of the name of another one, and a field inside the first one, not repeated,
    has the type of the second one: rejected, although the types can be put in an order. *)
Theorem C59_longer_name_refuted : forall limit request f M X r s m g,
  legal request -> imports_first request -> In f request -> plain_names f -> In M (p_msgs f) -> In X (p_msgs f) ->
  p_name X = p_name M ++ r -> r <> [] -> starts_alike f M -> inside (p_package f) M s m -> In g (m_fields m) ->
  pf_repeated g = false -> pf_type g = PMessage (p_package f ++ [p_name X]) -> generate limit request = None.
Proof. exact longer_rejected. Qed.
Print Assumptions C59_longer_name_refuted.

Example C59_longer_name_applies : let request := logs false in
  legal request /\ imports_first request /\ references request /\ no_enclosing request /\ Forall orderable request /\ Forall no_deep request
  /\ exists f M X s m g, In f request /\ plain_names f /\ In M (p_msgs f) /\ In X (p_msgs f)
     /\ p_name X = p_name M ++ chars "Entry" /\ starts_alike f M /\ inside (p_package f) M s m
     /\ In g (m_fields m) /\ pf_repeated g = false /\ pf_type g = PMessage (p_package f ++ [p_name X]).
Proof.
  split; [apply legalb_spec; vm_compute; reflexivity|]. split; [apply imports_firstb_spec; vm_compute; reflexivity|].
  split; [apply referencesb_spec; vm_compute; reflexivity|]. split; [apply no_enclosingb_spec; vm_compute; reflexivity|].
  split; [constructor; [apply (orderableb_spec [pa ["app"; "LogEntry"]; pa ["app"; "Log"]]%string); vm_compute; reflexivity|constructor]|].
  split; [constructor; [apply no_deepb_spec; vm_compute; reflexivity|constructor]|].
  eexists _, _, _, _, _, _. split; [left; reflexivity|]. split; [apply plain_namesb_spec; vm_compute; reflexivity|].
  split; [right; left; reflexivity|]. split; [left; reflexivity|]. split; [reflexivity|]. split; [apply starts_alikeb_spec; vm_compute; reflexivity|].
  split; [apply messages_in_spec; right; left; reflexivity|]. split; [left; reflexivity|]. split; reflexivity.
Qed.

(** The result does not depend on the recursion limit once it is large enough. *)
Theorem C59_limit : forall n n' request hs, (n <= n')%nat -> generate n request = Some hs -> generate n' request = Some hs.
Proof. exact generate_limit. Qed.
Print Assumptions C59_limit.
