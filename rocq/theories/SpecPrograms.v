(** * SpecPrograms: programs with different versions of the .proto files that keep each other up to date.

    Every object belongs to a program, and every program has been compiled with the classes that the generator wrote from
    its own .proto files and lengths. *)
From Coq Require Import String.
From Verif Require Import Base Buffers Schema Api Spec SpecRetype SpecVersions SpecApi SpecHistory Contracts Printf Generator SpecGenerator SpecInstance GenMembers SpecMembers
  GenBody SpecBody SpecEvolve SpecUpdate SpecTalk.
From Coq Require Import List.

(** The class of an object: the .proto files, the lengths, the message, what the generator writes for it, and the type. *)
Record made := { c_request : list pfile; c_lengths : text -> Z; c_message : path; c_def : mdef; c_fields : list fdesc; c_oneofs : list odesc }.
Definition c_type (c : made) : ety := EMsg (c_fields c) (c_oneofs c).
Definition made_ok (c : made) : Prop :=
  class_at (c_request c) (c_lengths c) (c_message c) (c_def c) (c_fields c) (c_oneofs c) /\ forall p, capacity_ok (c_lengths c p).

(** ** Which messages can be sent *)

(** As [update] (SpecEvolve.v), but with no condition on oneofs: fields with the same number have types that go together
    and are repeated in both files or in none. Everything else may differ. *)
Definition in_step (same : path -> path -> Prop) (old new : list pfile) : Prop :=
  forall s s' m m', same s s' -> message old s m -> message new s' m' ->
  forall g g', In g (m_fields m) -> In g' (m_fields m') -> pf_number g' = pf_number g ->
    pf_repeated g' = pf_repeated g /\ kept_type same (pf_type g) (pf_type g') /\ (refers g s <-> refers g' s').
Definition understands (c c' : made) : Prop := exists same, in_step same (c_request c) (c_request c') /\ same (c_message c) (c_message c').

(** ** What happens *)

(** Objects 0, 1, 2, ...: a call on one of them, object [i] assigned to object [j], object [i] serialized and its bytes
    deserialized by object [j]. *)
Inductive event := ECall (i : nat) (u : user_call) | ECopy (i j : nat) | ESend (i j : nat).

(** The generated code at work: serialize() into an empty WriteBufferFixedSize that is large enough, deserialize() from any buffer that
    keeps its contract. *)
Definition code_sends (c : made) (ob : object) (bytes : list Z) : Prop :=
  exists cap b, 0 <= cap <= 2 ^ 31 /\ code_serialize (c_def c) (c_fields c) (c_oneofs c) ob _ (wfix_ops cap) (wfix_init cap) = Done (NoErrors, b) /\ wfix_content b = bytes.
Definition code_receives (c : made) (ob : object) (bytes : list Z) (e : err) (ob' : object) : Prop :=
  exists T (R : rops T) rel s fuel s', reader_ok R rel /\ rel s bytes /\ (length bytes < fuel)%nat
    /\ code_deserialize fuel (c_def c) (c_fields c) (c_oneofs c) R ob s = Done (e, ob', s').
(** [happens cs obs events answers obs']: the objects [obs] of the classes [cs] go through [events]; [answers] is what the
    calls of deserialize() return. *)
Inductive happens (cs : list made) : list object -> list event -> list err -> list object -> Prop :=
| happens_end obs : happens cs obs [] [] obs
| happens_call obs i c u ob fuel ob' evs ans obs' :
    nth_error cs i = Some c -> nth_error obs i = Some ob -> user_run fuel (c_def c) (c_fields c) (c_oneofs c) u ob = Done ob' ->
    happens cs (upd i ob' obs) evs ans obs' -> happens cs obs (ECall i u :: evs) ans obs'
| happens_copy obs i j c ob1 ob2 ob' evs ans obs' :
    nth_error cs j = Some c -> nth_error obs i = Some ob1 -> nth_error obs j = Some ob2 -> code_assign (c_def c) (c_fields c) (c_oneofs c) ob2 ob1 = Done ob' ->
    happens cs (upd j ob' obs) evs ans obs' -> happens cs obs (ECopy i j :: evs) ans obs'
| happens_send obs i j c1 c2 ob1 ob2 bytes e ob' evs ans obs' :
    nth_error cs i = Some c1 -> nth_error cs j = Some c2 -> nth_error obs i = Some ob1 -> nth_error obs j = Some ob2 ->
    code_sends c1 ob1 bytes -> code_receives c2 ob2 bytes e ob' ->
    happens cs (upd j ob' obs) evs ans obs' -> happens cs obs (ESend i j :: evs) (e :: ans) obs'.

(** ** What is expected *)

(** [expected cs st events answers st']: as [talk] in SpecTalk.v. Known about an object is what it shows, or nothing
    ([None]): after a message that was too long for its strings and lists, until clear() is called. A call is the one of
    Api.v that its name says ([stands_for], SpecBody.v), and has the effect given there ([effect], SpecTalk.v); a message
    has the effect of [updated] in SpecUpdate.v. *)
Inductive expected (cs : list made) : list (option sval) -> list event -> list (option err) -> list (option sval) -> Prop :=
| expected_end st : expected cs st [] [] st
| expected_call st i c u o x e y evs ans st' :
    nth_error cs i = Some c -> nth_error st i = Some (Some x) -> stands_for (c_def c) (c_fields c) (c_oneofs c) u o ->
    op_ok (OElem (c_type c)) o -> keeps_lists (OElem (c_type c)) x o -> effect (OElem (c_type c)) x o = Some (e, y) ->
    expected cs (upd i (Some y) st) evs ans st' -> expected cs st (ECall i u :: evs) ans st'
| expected_clear st i c evs ans st' :
    nth_error cs i = Some c -> (i < length st)%nat ->
    expected cs (upd i (Some (sdefault (c_type c))) st) evs ans st' -> expected cs st (ECall i UClear :: evs) ans st'
| expected_copy st i j c x y evs ans st' :
    i <> j -> nth_error cs i = Some c -> nth_error cs j = Some c -> nth_error st i = Some (Some x) -> nth_error st j = Some (Some y) -> no_shorter (c_type c) y x ->
    expected cs (upd j (Some x) st) evs ans st' -> expected cs st (ECopy i j :: evs) ans st'
| expected_send st i j c1 c2 x y w evs ans st' :
    nth_error cs i = Some c1 -> nth_error cs j = Some c2 -> understands c1 c2 -> nth_error st i = Some (Some x) -> nth_error st j = Some (Some y) ->
    zlen (enc (c_type c1) x) < 2 ^ 31 -> SpecUpdate.updated (c_type c1) (c_type c2) y (norm (c_type c1) x) = Some w ->
    expected cs (upd j (Some w) st) evs ans st' -> expected cs st (ESend i j :: evs) (Some NoErrors :: ans) st'
| expected_send_full st i j c1 c2 x y evs ans st' :
    nth_error cs i = Some c1 -> nth_error cs j = Some c2 -> understands c1 c2 -> nth_error st i = Some (Some x) -> nth_error st j = Some (Some y) ->
    zlen (enc (c_type c1) x) < 2 ^ 31 -> SpecUpdate.updated (c_type c1) (c_type c2) y (norm (c_type c1) x) = None ->
    expected cs (upd j None st) evs ans st' -> expected cs st (ESend i j :: evs) (Some ArrayFull :: ans) st'
| expected_send_unknown st i j c1 c2 x evs ans st' :
    nth_error cs i = Some c1 -> nth_error cs j = Some c2 -> understands c1 c2 -> nth_error st i = Some (Some x) -> nth_error st j = Some None ->
    zlen (enc (c_type c1) x) < 2 ^ 31 -> expected cs st evs ans st' -> expected cs st (ESend i j :: evs) (None :: ans) st'.

(** New objects, and what they show. *)
Definition fresh_objects (cs : list made) : list object := map (fun c => new_object (c_def c) (c_fields c) (c_oneofs c)) cs.
Definition fresh_contents (cs : list made) : list (option sval) := map (fun c => Some (sdefault (c_type c))) cs.
(** The getters of every object show what is known about it. *)
Definition all_show (cs : list made) (st : list (option sval)) (obs : list object) : Prop :=
  length obs = length cs /\ length st = length cs
  /\ forall i c x ob, nth_error cs i = Some c -> nth_error st i = Some (Some x) -> nth_error obs i = Some ob -> shows (c_def c) (c_fields c) (c_oneofs c) ob x.
