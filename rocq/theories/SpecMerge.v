(** * Merging one message into another

    Specification of C86 and C87. [merge]: what MergeFrom() of the protobuf libraries does, in terms of what the getters show. *)
From Verif Require Import Base Buffers Schema Message Spec Contracts.

(** [x]: a field of the message that is merged into, [y]: the same field of the other message.
    - A plain number, boolean, enum, string or bytes field takes over [y] unless this is the default; a message merges.
    - An optional field stays as it is if [y] is absent; else it takes over [y], also a default one. A message merges,
      into an empty one if there was none.
    - A list gets the elements of [y] behind its own.
    [m]: merging for the type of the field. *)
Definition merge_field (k : fkind) (t : ety) (m : sval -> sval -> sval) (x y : sval) : sval :=
  match k, y with
  | KPlain, SvZ z => match t with EScalar sc => if is_zero sc z then x else y | _ => x end
  | KPlain, SvB [] => x
  | KPlain, _ => m x y
  | KOpt, SvSome y' => SvSome (m (match x with SvSome x' => x' | _ => sdefault t end) y')
  | KRep _, SvR l' => match x with SvR l => SvR (l ++ map (m (sdefault t)) l') | _ => x end
  | _, _ => x
  end.
Fixpoint merge_fields (fs : list (fkind * ety * (sval -> sval -> sval))) (xs ys : list sval) : list sval :=
  match fs, xs, ys with
  | (k, t, m) :: fs', x :: xs', y :: ys' => merge_field k t m x y :: merge_fields fs' xs' ys'
  | _, _, _ => []
  end.

(** A oneof stays as it is if no member is set in the other message; else it shows that member. If it showed the same
    member before and this is a message, the two merge. *)
Definition merge_oneof (ms : list (Z * (ety * (sval -> sval -> sval)))) (x y : Z * sval) : Z * sval :=
  match lookup ms (fst y), snd y with
  | Some (t, m), SvSome y' => (fst y, SvSome (m (if fst x =? fst y then match snd x with SvSome x' => x' | _ => sdefault t end else sdefault t) y'))
  | _, _ => x
  end.
Fixpoint merge_oneofs (os : list (list (Z * (ety * (sval -> sval -> sval))))) (xs ys : list (Z * sval)) : list (Z * sval) :=
  match os, xs, ys with
  | ms :: os', x :: xs', y :: ys' => merge_oneof ms x y :: merge_oneofs os' xs' ys'
  | _, _, _ => []
  end.

(** [merge t x y]: the message [y] merged into [x]. Numbers and strings are taken over. *)
Fixpoint merge (t : ety) (x y : sval) : sval :=
  match t with
  | EMsg fs os =>
      match x, y with
      | SvM xs oxs, SvM ys oys => SvM (merge_fields (map (fun '(_, k, t) => (k, t, merge t)) fs) xs ys)
                                      (merge_oneofs (map (map (fun '(num, t) => (num, (t, merge t)))) os) oxs oys)
      | _, _ => x
      end
  | _ => y
  end.

(** ** Updates *)

(** No oneof, at any depth, has a member of a message type. *)
Fixpoint simple_oneofs (t : ety) : Prop :=
  match t with
  | EMsg fs os => all (fun '(_, _, t) => simple_oneofs t) fs /\ all (all (fun '(_, t) => match t with EMsg _ _ => False | _ => True end)) os
  | _ => True
  end.

(** serialize() of the object [v] into a new buffer succeeds and leaves [bytes] there. *)
Definition sends (t : ety) (v : value) (bytes : list Z) : Prop :=
  exists cap b, 0 <= cap <= 2 ^ 31 /\ serialize t v _ (wfix_ops cap) (wfix_init cap) = Done (NoErrors, b) /\ wfix_content b = bytes.
(** deserialize() of [bytes], from any buffer that keeps its contract, into the object [v] returns [e] and leaves [v']. *)
Definition receives (t : ety) (v : value) (bytes : list Z) (e : err) (v' : value) : Prop :=
  exists S (R : rops S) rel s fuel s', reader_ok R rel /\ rel s bytes /\ (length bytes < fuel)%nat /\ deserialize fuel t S R v s = Done (e, v', s').
