(** * SpecKept: what an object shows at a place, and calls after which it still does. *)
From Verif Require Import Base Schema Spec Api SpecApi Alias.

(** What the getters show at a place of an object that shows [x]. None: the getters say that there is nothing: an
    optional field without has_, an index behind the end, a member of a oneof that is not the active one. *)
Fixpoint shown (ty : oty) (x : sval) (p : list step) : option sval :=
  match p with
  | [] => Some x
  | SField pos :: p' =>
      match ty, x with
      | OElem (EMsg fs _), SvM vs _ =>
          match nth_error fs pos, nth_error vs pos with
          | Some (_, KPlain, t), Some y => shown (OElem t) y p'
          | Some (_, KOpt, t), Some (SvSome y) => shown (OElem t) y p'
          | Some (_, KRep max, t), Some y => shown (ORep max t) y p'
          | _, _ => None
          end
      | _, _ => None
      end
  | SAt index :: p' =>
      match ty, x with
      | ORep max t, SvR l =>
          match nth_error l (Z.to_nat (Z.min index (max - 1))) with
          | Some y => shown (OElem t) y p'
          | None => None
          end
      | _, _ => None
      end
  | SMember pos id :: p' =>
      match ty, x with
      | OElem (EMsg _ os), SvM _ ovs =>
          match nth_error os pos, nth_error ovs pos with
          | Some ms, Some (which, SvSome y) =>
              match lookup ms id with
              | Some t => if which =? id then shown (OElem t) y p' else None
              | None => None
              end
          | _, _ => None
          end
      | _, _ => None
      end
  end.

(** The call [o] does not clear, assign, replace or decode the part at place [p] or anything around it, nor select
    another member of a oneof around it. It may be a call on that part, on parts of it, and on everything else. *)
Fixpoint spares (ty : oty) (p : list step) (o : op) : Prop :=
  match p with
  | [] => True
  | s :: p' =>
      match o, ty with
      | OpTouch, _ => True
      | OpField pos o', OElem (EMsg fs _) =>
          match s, nth_error fs pos with
          | SField pos', Some (_, k, t) => pos = pos' -> spares (oty_of k t) p' o'
          | _, _ => True
          end
      | OpClearField pos, _ => s <> SField pos
      | OpOneof pos id o', OElem (EMsg _ os) =>
          match s, nth_error os pos with
          | SMember pos' id', Some ms => match lookup ms id with Some t => pos = pos' -> id = id' /\ spares (OElem t) p' o' | None => True end
          | _, _ => True
          end
      | OpOneofClear pos id, _ => s <> SMember pos id
      | OpRepAt index o', ORep max t =>
          match s with
          | SAt index' => Z.min index (max - 1) = Z.min index' (max - 1) -> spares (OElem t) p' o'
          | _ => True
          end
      | OpRepSet index _, ORep max t =>
          match s with SAt index' => p' = [] \/ Z.min index (max - 1) <> Z.min index' (max - 1) | _ => True end
      | OpRepAdd _, _ => True
      | _, _ => False
      end
  end.

(** Somewhere on the way to the place a oneof has another active member, or none (get_which_). *)
Definition switched (ty : oty) (p : list step) (v : value) : Prop :=
  exists p1 pos id p2 m which, p = p1 ++ SMember pos id :: p2 /\ read_at ty p1 v = Done m /\ which_oneof m pos = Done which /\ which <> id.
