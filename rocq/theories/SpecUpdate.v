(** * SpecUpdate: an object that is updated by a program with another version of the .proto file

    Specification of C89. Type [t] is what the sender was compiled with, [t'] what the receiver was compiled with. *)
From Verif Require Import Base Schema Spec SpecRetype SpecVersions.

(** Numbers that both have stand for fields of the same type (string and bytes may be exchanged, and scalar types where this
    is safe), repeated for both or for neither. Nothing is asked for oneofs. *)
Inductive compatible : ety -> ety -> Prop :=
| compatible_scalar sc sc' : always_kept sc sc' = true -> compatible (EScalar sc) (EScalar sc')
| compatible_bytes st max st' max' : compatible (EBytes st max) (EBytes st' max')
| compatible_message fs os fs' os' :
    (forall num k t k' t', In (num, k, t) (declared fs os) -> In (num, k', t') (declared fs' os') -> same_kind k k' /\ compatible t t') ->
    compatible (EMsg fs os) (EMsg fs' os').

(** The results of updates; [None]: something does not fit. *)
Fixpoint all_some {A} (l : list (option A)) : option (list A) :=
  match l with
  | [] => Some []
  | x :: l' => match x, all_some l' with Some y, Some ys => Some (y :: ys) | _, _ => None end
  end.

(** A field of the receiver of kind [k'] that shows [x] when a field of kind [k] with the value [v] arrives. [f]: updating
    values of the type of the field, [new]: a new value of this type.
    - A list gets the new elements behind its own.
    - Otherwise the field changes if the sender has set it. An optional field is present then. *)
Definition arrives (k k' : fkind) (f : sval -> sval -> option sval) (new : sval) (v x : sval) : option sval :=
  match k', given k v with
  | KRep max, _ => match x, v with
                   | SvR old, SvR l => if zlen old + zlen l <=? max then option_map (fun l' => SvR (old ++ l')) (all_some (map (f new) l)) else None
                   | _, _ => Some x
                   end
  | KPlain, Some y => f x y
  | KOpt, Some y => option_map SvSome (f (match x with SvSome x' => x' | _ => new end) y)
  | _, _ => Some x
  end.
(** A oneof that shows [o] when the member [num] arrives: that member is set then. *)
Definition arrives_member (num : Z) (k : fkind) (f : sval -> sval -> option sval) (new : sval) (v : sval) (o : Z * sval) : option (Z * sval) :=
  match given k v with
  | Some y => option_map (fun w => (num, SvSome w)) (f (if num =? fst o then match snd o with SvSome x => x | _ => new end else new) y)
  | None => Some o
  end.

(** A message of the receiver, given by its fields and oneofs, when one field of the sender arrives. *)
Notation known := (fkind * sval * (ety -> sval -> sval -> option sval))%type.
Fixpoint to_field (fs' : list (Z * known)) (r : row) (xs : list sval) : option (list sval) :=
  match fs', xs with
  | (n, (k', new, f)) :: fs1, x :: xs1 =>
      let '(num, k, t, v) := r in
      if n =? num then option_map (fun y => y :: xs1) (arrives k k' (f t) new v x) else option_map (cons x) (to_field fs1 r xs1)
  | _, _ => Some xs
  end.
Fixpoint to_member (os' : list (list (Z * known))) (r : row) (oxs : list (Z * sval)) : option (list (Z * sval)) :=
  match os', oxs with
  | ms :: os1, o :: oxs1 =>
      let '(num, k, t, v) := r in
      match lookup ms num with
      | Some (_, new, f) => option_map (fun o' => o' :: oxs1) (arrives_member num k (f t) new v o)
      | None => option_map (cons o) (to_member os1 r oxs1)
      end
  | _, _ => Some oxs
  end.
(** All fields of the sender, one after the other in the order in which they are sent. *)
Fixpoint all_arrive (fs' : list (Z * known)) (os' : list (list (Z * known))) (rows : list row) (xs : list sval) (oxs : list (Z * sval)) : option sval :=
  match rows with
  | [] => Some (SvM xs oxs)
  | r :: rows' => match to_field fs' r xs, to_member os' r oxs with
                  | Some ys, Some oys => all_arrive fs' os' rows' ys oys
                  | _, _ => None
                  end
  end.

(** [updated t t' x v]: what the receiver's object, which shows [x], shows after an update with the sender's value [v];
    [None] if a string or a list does not fit. *)
Fixpoint updated (t t' : ety) (x v : sval) {struct t'} : option sval :=
  match t', t with
  | EScalar sc', EScalar _ => match v with SvZ z => Some (SvZ (cast sc' z)) | _ => None end
  | EBytes _ max', EBytes _ _ => match v with SvB b => if zlen b <=? max' then Some v else None | _ => None end
  | EMsg fs' os', EMsg fs os =>
      match x, v with
      | SvM xs oxs, SvM vs ovs =>
          all_arrive (map (fun '(n, k', u') => (n, (k', sdefault u', fun u => updated u u'))) fs')
                     (map (map (fun '(n, u') => (n, (KOpt, sdefault u', fun u => updated u u')))) os')
                     (field_rows fs vs ++ oneof_rows os ovs) xs oxs
      | _, _ => None
      end
  | _, _ => None
  end.
