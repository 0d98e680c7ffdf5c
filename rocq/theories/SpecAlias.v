(** * SpecAlias: places inside an object, and the same call with a copy as argument. *)
From Verif Require Import Base Schema Spec Api SpecApi Alias.

(** The class of the object at a place; None when the accessors do not exist. Fields of recursive message
    types have none. *)
Fixpoint type_at (ty : oty) (p : list step) : option oty :=
  match p with
  | [] => Some ty
  | SField pos :: p' =>
      match ty with
      | OElem (EMsg fs _) =>
          match nth_error fs pos with
          | Some (_, KRecursive, _) | None => None
          | Some (_, k, t) => type_at (oty_of k t) p'
          end
      | _ => None
      end
  | SAt index :: p' =>
      match ty with
      | ORep _ t => if (0 <=? index) && (index <? 2 ^ 32) then type_at (OElem t) p' else None
      | _ => None
      end
  | SMember pos id :: p' =>
      match ty with
      | OElem (EMsg _ os) =>
          match nth_error os pos with
          | Some ms => match lookup ms id with Some t => type_at (OElem t) p' | None => None end
          | None => None
          end
      | _ => None
      end
  end.

(** An object of class [sty] can be the argument of the call [c] on an object of class [tty]. *)
Definition suits (c : acall_kind) (tty sty : oty) : Prop :=
  match c, tty with
  | CAssign, _ => sty = tty
  | CSetFrom, OElem (EBytes st _) => exists max', sty = OElem (EBytes st max')
  | CAdd, ORep _ t => sty = OElem t
  | CSetAt i, ORep _ t => legal_index i /\ sty = OElem t
  | _, _ => False
  end.

(** The call with a copy [x] of the argument, at a place. *)
Definition with_copy (c : acall_kind) (x : value) : op :=
  match c with
  | CAssign => match x with VS z => OpScalarSet z | _ => OpAssign x end
  | CSetFrom => OpSetFrom x
  | CAdd => OpRepAdd x
  | CSetAt i => OpRepSet i x
  end.
Fixpoint nest (p : list step) (o : op) : op :=
  match p with
  | [] => o
  | SField pos :: p' => OpField pos (nest p' o)
  | SAt i :: p' => OpRepAt i (nest p' o)
  | SMember pos id :: p' => OpOneof pos id (nest p' o)
  end.

(** The two places are inside two different members of the same oneof (of the same object). *)
Fixpoint rivals (ty : oty) (p q : list step) : Prop :=
  match p, q with
  | SField a :: p', SField b :: q' =>
      match ty with
      | OElem (EMsg fs _) => match nth_error fs a with Some (_, k, t) => a = b /\ rivals (oty_of k t) p' q' | None => False end
      | _ => False
      end
  | SAt i :: p', SAt j :: q' =>
      match ty with
      | ORep max t => Z.min i (max - 1) = Z.min j (max - 1) /\ rivals (OElem t) p' q'
      | _ => False
      end
  | SMember a id :: p', SMember b id' :: q' =>
      match ty with
      | OElem (EMsg _ os) =>
          match nth_error os a with
          | Some ms => match lookup ms id with Some t => a = b /\ (id <> id' \/ rivals (OElem t) p' q') | None => False end
          | None => False
          end
      | _ => False
      end
  | _, _ => False
  end.
