(** * SpecEvolve: an update of the .proto files, seen in the .proto files.

    [old] are the .proto files that the sender's headers were generated from, [new] those of the receiver. [same s s']
    says which message of [new] has taken the place of which message of [old]: its name, its package and its file may
    be others. *)
From Coq Require Import String.
From Verif Require Import Base Schema Spec SpecRetype Printf Generator SpecGenerator SpecInstance GenMembers SpecMembers GenBody SpecBody.
From Coq Require Import List.

(** ** Changes that the protobuf language guide allows *)

(** The type of a field may change where this is safe for all values; enums are scalars here. *)
Definition kept_type (same : path -> path -> Prop) (a b : ptype) : Prop :=
  match a, b with
  | PScalar sc, PScalar sc' => always_kept sc sc' = true
  | PScalar sc, PEnum _ => always_kept sc Enumeration = true
  | PEnum _, PScalar sc' => always_kept Enumeration sc' = true
  | PEnum _, PEnum _ => True
  | (PString | PBytes), (PString | PBytes) => True
  | PMessage T, PMessage T' => same T T'
  | _, _ => False
  end.
(** Both are members of one oneof. *)
Definition together (g1 g2 : pfield) : Prop := exists i, in_oneof i g1 = true /\ in_oneof i g2 = true.

(** The fields that have the same number have types that go together and are repeated in both versions or in none.
    Fields are put into a oneof only together with those that were in a oneof with them. Everything else may change. *)
Definition updated (same : path -> path -> Prop) (s : path) (m : pmsg) (s' : path) (m' : pmsg) : Prop :=
  (forall g g', In g (m_fields m) -> In g' (m_fields m') -> pf_number g' = pf_number g ->
     pf_repeated g' = pf_repeated g /\ kept_type same (pf_type g) (pf_type g') /\ (refers g s <-> refers g' s'))
  /\ (forall g1 g2 g1' g2', In g1 (m_fields m) -> In g2 (m_fields m) -> In g1' (m_fields m') -> In g2' (m_fields m') ->
        pf_number g1' = pf_number g1 -> pf_number g2' = pf_number g2 -> together g1' g2' -> g1 = g2 \/ together g1 g2).
Definition update (same : path -> path -> Prop) (old new : list pfile) : Prop :=
  forall s s' m m', same s s' -> message old s m -> message new s' m' -> updated same s m s' m'.

(** ** New names only *)

Definition renamed_type (same : path -> path -> Prop) (a b : ptype) : Prop :=
  match a, b with
  | PScalar sc, PScalar sc' => sc = sc'
  | PEnum _, PEnum _ | PString, PString | PBytes, PBytes => True
  | PMessage T, PMessage T' => same T T'
  | _, _ => False
  end.
(** Names and lengths may differ, nothing else. *)
Definition renamed_field (same : path -> path -> Prop) (s s' : path) (g g' : pfield) : Prop :=
  pf_number g' = pf_number g /\ pf_repeated g' = pf_repeated g /\ pf_optional g' = pf_optional g /\ pf_oneof g' = pf_oneof g
  /\ renamed_type same (pf_type g) (pf_type g') /\ (refers g s <-> refers g' s').
Definition renamed (same : path -> path -> Prop) (old new : list pfile) : Prop :=
  forall s s' m m', same s s' -> message old s m -> message new s' m' ->
    Forall2 (renamed_field same s s') (m_fields m) (m_fields m') /\ oneof_count m' = oneof_count m.

(** ** Classes *)

(** [d] is the class that the generator writes for message [s], and [EMsg fs os] the type that the .proto file declares
    for it, with the user's lengths. As [class_for] (SpecBody.v), which does not name [s]. *)
Definition class_at (request : list pfile) (lengths : text -> Z) (s : path) (d : mdef) (fs : list fdesc) (os : list odesc) : Prop :=
  exists params parent m, d = define parent m /\ s = (parent ++ [p_name m])%list /\ protoc_ok request /\ message request s m
    /\ clear_members params m /\ no_recursive_presence parent m /\ declared request lengths s (EMsg fs os).
