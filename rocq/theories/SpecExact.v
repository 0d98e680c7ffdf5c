(** * Specification of what the last bytes of an encoding are (C17).

    A fixed-size buffer refuses a string or bytes payload that would fill it completely (C11), but takes
    single bytes up to the last one. Whether a message fits in exactly serialized_size() bytes therefore depends
    on how its encoding ends. *)
From Verif Require Import Base Schema Spec.

(** A message is written piece by piece; the flag of the last piece that is not empty decides. *)
Definition last_piece (l : list (list Z * bool)) : bool :=
  fold_left (fun acc p => match fst p with [] => acc | _ => snd p end) l false.

(** How the records of one field end, [e] saying how one element ends. *)
Definition field_ends (k : fkind) (t : ety) (e : sval -> bool) (v : sval) : bool :=
  match k, v with
  | KPlain, _ => e v
  | KOpt, SvSome x => e x
  | KRep _, SvR l => match t with EScalar _ => false | _ => match rev l with [] => false | x :: _ => e x end end
  | _, _ => false
  end.

Fixpoint field_pieces (fs : list (Z * fkind * ety * (sval -> list Z) * (sval -> bool))) (vs : list sval)
  : list (list Z * bool) :=
  match fs, vs with
  | (num, k, t, f, e) :: fs', v :: vs' => (enc_field num k t f v, field_ends k t e v) :: field_pieces fs' vs'
  | _, _ => []
  end.

Fixpoint oneof_pieces (os : list (list (Z * (ety * (sval -> list Z) * (sval -> bool))))) (vs : list (Z * sval))
  : list (list Z * bool) :=
  match os, vs with
  | ms :: os', (id, x) :: vs' =>
      match lookup ms id, x with
      | Some (t, f, e), SvSome y => (enc_elem id t (f y), e y)
      | _, _ => ([], false)
      end :: oneof_pieces os' vs'
  | _, _ => []
  end.

(** The encoding of [v] ends with the content of a string or bytes field that is not empty. *)
Fixpoint ends_in_bytes (t : ety) (v : sval) : bool :=
  match t with
  | EScalar _ => false
  | EBytes _ _ => match v with SvB (_ :: _) => true | _ => false end
  | EMsg fs os =>
      match v with
      | SvM vs ovs =>
          last_piece (field_pieces (map (fun '(num, k, t) => (num, k, t, enc t, ends_in_bytes t)) fs) vs
            ++ oneof_pieces (map (map (fun '(num, t) => (num, (t, enc t, ends_in_bytes t)))) os) ovs)
      | _ => false
      end
  end.
