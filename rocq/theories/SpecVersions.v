(** * SpecVersions: sender and receiver with different versions of a .proto file, and with different lengths.

    Type [t] is what the sender was compiled with, [t'] what the receiver was compiled with. *)
From Verif Require Import Base Schema Spec SpecRetype.

(** [optional] may be added and removed; the lengths of repeated fields may differ. *)
Definition same_kind (k k' : fkind) : Prop :=
  match k, k' with
  | KPlain, KPlain | KPlain, KOpt | KOpt, KPlain | KOpt, KOpt | KRep _, KRep _ | KRecursive, KRecursive => True
  | _, _ => False
  end.

(** All fields of a message. A member of a oneof is sent and received like an optional field. *)
Definition declared (fs : list fdesc) (os : list odesc) : list fdesc := fs ++ flat_map (map (fun '(num, t) => (num, KOpt, t))) os.

(** Numbers that both have stand for fields of the same type, repeated for both or for neither. Everything else is
    free: fields may be added, removed and moved, into oneofs, out of them and between them, all lengths may change, string
    and bytes may be exchanged, and so may scalar types where this is safe for all values ([always_kept], SpecRetype.v).
    Only one thing is asked for oneofs: fields that are in one oneof for the receiver are in one oneof for the sender. *)
Inductive version : ety -> ety -> Prop :=
| version_scalar sc sc' : always_kept sc sc' = true -> version (EScalar sc) (EScalar sc')
| version_bytes st max st' max' : version (EBytes st max) (EBytes st' max')
| version_message fs os fs' os' :
    (forall num k t k' t', In (num, k, t) (declared fs os) -> In (num, k', t') (declared fs' os') -> same_kind k k' /\ version t t') ->
    (forall ms' n1 n2, In ms' os' -> In n1 (map fst ms') -> In n2 (map fst ms') ->
       In n1 (field_numbers fs os) -> In n2 (field_numbers fs os) ->
       n1 = n2 \/ exists ms, In ms os /\ In n1 (map fst ms) /\ In n2 (map fst ms)) ->
    version (EMsg fs os) (EMsg fs' os').

(** Zero, the empty string, the empty list, a message with nothing in it. *)
Fixpoint blank (v : sval) : bool :=
  match v with
  | SvZ z => z =? 0
  | SvB bs => match bs with [] => true | _ => false end
  | SvR l => match l with [] => true | _ => false end
  | SvNone => true
  | SvSome _ => false
  | SvM vs ovs => forallb blank vs && forallb (fun '(_, x) => match x with SvNone => true | _ => false end) ovs
  end.

(** What the sender has: all its fields with their values. *)
Notation row := (Z * fkind * ety * sval)%type.
Fixpoint field_rows (fs : list fdesc) (vs : list sval) : list row :=
  match fs, vs with
  | (n, k, t) :: fs1, v :: vs1 => (n, k, t, v) :: field_rows fs1 vs1
  | _, _ => []
  end.
Fixpoint oneof_rows (os : list odesc) (ovs : list (Z * sval)) : list row :=
  match os, ovs with
  | ms :: os1, o :: ovs1 => map (fun '(n, t) => (n, KOpt, t, if n =? fst o then snd o else SvNone)) ms ++ oneof_rows os1 ovs1
  | _, _ => []
  end.
(** The field with the number [num]. *)
Fixpoint sent (rows : list row) (num : Z) : option (fkind * ety * sval) :=
  match rows with
  | (n, k, t, v) :: rows1 => if n =? num then Some (k, t, v) else sent rows1 num
  | [] => None
  end.
(** The field that is set among those with the numbers [among]. *)
Definition given (k : fkind) (v : sval) : option sval :=
  match k, v with
  | KPlain, _ => if blank v then None else Some v
  | KOpt, SvSome x => Some x
  | _, _ => None
  end.
Fixpoint sent_member (rows : list row) (among : list Z) : option (Z * ety * sval) :=
  match rows with
  | (n, k, t, v) :: rows1 =>
      match given k v with
      | Some x => if existsb (Z.eqb n) among then Some (n, t, x) else sent_member rows1 among
      | None => sent_member rows1 among
      end
  | [] => None
  end.

(** What the receiver should see of the value [v] that the sender has: in each field the value of the field with
    that number, the default value where the sender has no such field; in each oneof the member that is set. A field
    that has presence for the receiver only (it is optional or in a oneof) is present if the sender's value is not the
    default value. *)
Definition carry_field (k k' : fkind) (c : sval -> sval) (default : sval) (v : sval) : sval :=
  match k, k', v with
  | KPlain, KPlain, _ => c v
  | KPlain, KOpt, _ => if blank v then SvNone else SvSome (c v)
  | KOpt, KPlain, SvSome x => c x
  | KOpt, KPlain, _ => default
  | KOpt, KOpt, SvSome x => SvSome (c x)
  | KRep _, KRep _, SvR l => SvR (map c l)
  | _, _, _ => SvNone
  end.
Fixpoint carry (t t' : ety) (v : sval) {struct t'} : sval :=
  match t', t, v with
  | EMsg fs' os', EMsg fs os, SvM vs ovs =>
      let rows := field_rows fs vs ++ oneof_rows os ovs in
      SvM (map (fun '(num, k', u') => match sent rows num with
                                      | Some (k, u, x) => carry_field k k' (carry u u') (sdefault u') x
                                      | None => sdefault_field k' (sdefault u')
                                      end) fs')
          (map (fun ms' => match sent_member rows (map fst ms') with
                           | Some (num, u, x) => match lookup (map (fun '(n, u') => (n, fun u => carry u u')) ms') num with
                                                 | Some c => (num, SvSome (c u x))
                                                 | None => (0, SvNone)
                                                 end
                           | None => (0, SvNone)
                           end) os')
  | EScalar sc', EScalar _, SvZ z => SvZ (cast sc' z)
  | _, _, _ => v
  end.

(** The value [v] fits into an object of type [t]: no string and no list is longer than it may be. *)
Definition fits_field (k : fkind) (f : sval -> bool) (v : sval) : bool :=
  match k, v with
  | KPlain, _ => f v
  | KOpt, SvSome x => f x
  | KRep max, SvR l => (zlen l <=? max) && forallb f l
  | _, _ => true
  end.
Fixpoint fits_fields (fs : list (fkind * (sval -> bool))) (vs : list sval) : bool :=
  match fs, vs with
  | (k, f) :: fs1, v :: vs1 => fits_field k f v && fits_fields fs1 vs1
  | _, _ => true
  end.
Definition fits_oneof (ms : list (Z * (sval -> bool))) (o : Z * sval) : bool :=
  match lookup ms (fst o), snd o with Some f, SvSome x => f x | _, _ => true end.
Fixpoint fits_oneofs (os : list (list (Z * (sval -> bool)))) (ovs : list (Z * sval)) : bool :=
  match os, ovs with
  | ms :: os1, o :: ovs1 => fits_oneof ms o && fits_oneofs os1 ovs1
  | _, _ => true
  end.
Fixpoint fits (t : ety) (v : sval) : bool :=
  match t, v with
  | EBytes _ max, SvB bs => zlen bs <=? max
  | EMsg fs os, SvM vs ovs => fits_fields (map (fun '(_, k, t) => (k, fits t)) fs) vs
                              && fits_oneofs (map (map (fun '(num, t) => (num, fits t))) os) ovs
  | _, _ => true
  end.
