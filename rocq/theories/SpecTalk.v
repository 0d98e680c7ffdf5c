(** * SpecTalk: objects that are changed by calls and send each other messages. *)
From Verif Require Import Base Buffers Wire Schema Fields Message Spec SpecVersions SpecMerge Contracts Api SpecApi SpecHistory.

(** [overwrite k x l]: [l] with [x] at position [k]; at the end of the list it is appended. *)
Definition overwrite {A} (k : Z) (x : A) (l : list A) : list A := firstn (Z.to_nat k) l ++ x :: skipn (S (Z.to_nat k)) l.

(** [effect ty x o]: what the call [o] returns, and what the getters show after it, on an object of class [ty] that shows
    [x]. [None]: the call decodes something, leaves a gap in a list, or goes to a member that is not there. *)
Fixpoint effect (ty : oty) (x : sval) (o : op) {struct o} : option (err * sval) :=
  match o, ty, x with
  | OpClear, _, _ => Some (NoErrors, odefault ty)
  | OpTouch, _, _ => Some (NoErrors, x)
  | OpAssign src, _, _ => Some (NoErrors, oview ty src)
  | OpScalarSet z, OElem (EScalar _), _ => Some (NoErrors, SvZ z)
  | OpSetFrom src, OElem (EBytes st max), _ =>
      match view (EBytes st max) src with SvB bs => Some (if zlen bs <=? max then (NoErrors, SvB bs) else (ArrayFull, x)) | _ => None end
  | OpBytesSet src len, OElem (EBytes _ max), _ =>
      Some (if len <=? max then (NoErrors, SvB (firstn (Z.to_nat len) src)) else (ArrayFull, x))
  | OpCStr None, OElem (EBytes true _), _ => Some (NoErrors, SvB [])
  | OpCStr (Some s), OElem (EBytes true max), _ => Some (NoErrors, SvB (firstn (Z.to_nat max) (c_string s)))
  | OpBytesPut i b, OElem (EBytes _ max), SvB bs =>
      let k := Z.min i (max - 1) in if k <=? zlen bs then Some (NoErrors, SvB (overwrite k b bs)) else None
  | OpRepSet i src, ORep max t, SvR l =>
      let k := Z.min i (max - 1) in if k <=? zlen l then Some (NoErrors, SvR (overwrite k (view t src) l)) else None
  | OpRepAdd src, ORep max t, SvR l => Some (if zlen l <? max then (NoErrors, SvR (l ++ [view t src])) else (ArrayFull, x))
  | OpRepSetData src len, ORep max t, SvR l =>
      Some (if len <=? max then (NoErrors, SvR (map (view t) (firstn (Z.to_nat len) src))) else (ArrayFull, x))
  | OpRepAt i o', ORep max t, SvR l =>
      let k := Z.min i (max - 1) in
      match nth_error l (Z.to_nat k) with
      | Some y => match effect (OElem t) y o' with Some (e, y') => Some (e, SvR (overwrite k y' l)) | None => None end
      | None => None
      end
  | OpField pos o', OElem (EMsg fs _), SvM vs ovs =>
      match nth_error fs pos, nth_error vs pos with
      | Some (_, k, t), Some y =>
          match k with
          | KPlain => match effect (OElem t) y o' with Some (e, y') => Some (e, SvM (upd pos y' vs) ovs) | None => None end
          | KOpt => match effect (OElem t) (match y with SvSome z => z | _ => sdefault t end) o' with
                    | Some (e, y') => Some (e, SvM (upd pos (SvSome y') vs) ovs) | None => None end
          | KRep max => match effect (ORep max t) y o' with Some (e, y') => Some (e, SvM (upd pos y' vs) ovs) | None => None end
          | KRecursive => None
          end
      | _, _ => None
      end
  | OpClearField pos, OElem (EMsg fs _), SvM vs ovs =>
      match nth_error fs pos with
      | Some (_, k, t) => Some (NoErrors, SvM (upd pos (sdefault_field k (sdefault t)) vs) ovs)
      | None => None
      end
  | OpOneof pos id o', OElem (EMsg _ os), SvM vs ovs =>
      match nth_error os pos, nth_error ovs pos with
      | Some ms, Some (which, y) =>
          match lookup ms id with
          | Some t => match effect (OElem t) (match y with SvSome z => if which =? id then z else sdefault t | _ => sdefault t end) o' with
                      | Some (e, y') => Some (e, SvM vs (upd pos (id, SvSome y') ovs)) | None => None end
          | None => None
          end
      | _, _ => None
      end
  | OpOneofClear pos id, OElem (EMsg _ _), SvM vs ovs =>
      match nth_error ovs pos with
      | Some (which, _) => Some (NoErrors, if which =? id then SvM vs (upd pos (0, SvNone) ovs) else x)
      | None => None
      end
  | _, _, _ => None
  end.

(** Objects of one class, called 0, 1, 2, ...: a call on one of them, object [i] assigned to object [j], object [i]
    serialized and its bytes deserialized by object [j]. *)
Inductive step := Call (i : nat) (o : op) | Copy (i j : nat) | Send (i j : nat).

(** What is known about the objects is a list of [option sval]: the content, or [None].
    [talk t st steps answers st']: what the calls are to answer, and what is known in the end. [None] comes from bytes that
    do not come from one of the objects, and from a message that is too long for the lists of the receiver; it goes
    away with clear(). No list of messages may be made shorter other than by clearing it (C35). *)
Inductive talk (t : ety) : list (option sval) -> list step -> list (option err) -> list (option sval) -> Prop :=
| talk_end st : talk t st [] [] st
| talk_call st i o x e y steps ans st' :
    nth_error st i = Some (Some x) -> op_ok (OElem t) o -> keeps_lists (OElem t) x o -> effect (OElem t) x o = Some (e, y) ->
    talk t (upd i (Some y) st) steps ans st' -> talk t st (Call i o :: steps) (Some e :: ans) st'
| talk_clear st i steps ans st' :
    (i < length st)%nat -> talk t (upd i (Some (sdefault t)) st) steps ans st' -> talk t st (Call i OpClear :: steps) (Some NoErrors :: ans) st'
| talk_noise st i bytes steps ans st' :
    (i < length st)%nat -> op_ok (OElem t) (OpDeserialize bytes) ->
    talk t (upd i None st) steps ans st' -> talk t st (Call i (OpDeserialize bytes) :: steps) (None :: ans) st'
| talk_copy st i j x y steps ans st' :
    i <> j -> nth_error st i = Some (Some x) -> nth_error st j = Some (Some y) -> no_shorter t y x ->
    talk t (upd j (Some x) st) steps ans st' -> talk t st (Copy i j :: steps) (Some NoErrors :: ans) st'
| talk_send st i j x y steps ans st' :
    nth_error st i = Some (Some x) -> nth_error st j = Some (Some y) -> zlen (enc t x) < 2 ^ 31 -> fits t (merge t y x) = true ->
    talk t (upd j (Some (merge t y x)) st) steps ans st' -> talk t st (Send i j :: steps) (Some NoErrors :: ans) st'
| talk_send_full st i j x y steps ans st' :
    nth_error st i = Some (Some x) -> nth_error st j = Some (Some y) -> zlen (enc t x) < 2 ^ 31 -> fits t (merge t y x) = false ->
    talk t (upd j None st) steps ans st' -> talk t st (Send i j :: steps) (Some ArrayFull :: ans) st'
| talk_send_unknown st i j x steps ans st' :
    nth_error st i = Some (Some x) -> nth_error st j = Some None -> zlen (enc t x) < 2 ^ 31 ->
    talk t st steps ans st' -> talk t st (Send i j :: steps) (None :: ans) st'.

(** What the code does with the objects: [run_op] (Api.v) for calls and copies, serialize() and deserialize() through any
    buffers that keep their contract for the rest. *)
Inductive does (t : ety) : list value -> list step -> list err -> list value -> Prop :=
| does_end vs : does t vs [] [] vs
| does_call vs i o v fuel e v' steps ans vs' :
    nth_error vs i = Some v -> run_op fuel o (OElem t) v = Done (e, v') ->
    does t (upd i v' vs) steps ans vs' -> does t vs (Call i o :: steps) (e :: ans) vs'
| does_copy vs i j v w fuel e w' steps ans vs' :
    nth_error vs i = Some v -> nth_error vs j = Some w -> run_op fuel (OpAssign v) (OElem t) w = Done (e, w') ->
    does t (upd j w' vs) steps ans vs' -> does t vs (Copy i j :: steps) (e :: ans) vs'
| does_send vs i j v w bytes e w' steps ans vs' :
    nth_error vs i = Some v -> nth_error vs j = Some w -> sends t v bytes -> receives t w bytes e w' ->
    does t (upd j w' vs) steps ans vs' -> does t vs (Send i j :: steps) (e :: ans) vs'.

(** What is known, if anything, is right. *)
Definition right {A B} (f : B -> A) (known : list (option A)) (found : list B) : Prop :=
  Forall2 (fun k b => forall x, k = Some x -> f b = x) known found.

(** No bytes other than those the objects send. *)
Definition no_noise (s : step) : Prop := match s with Call _ o => ~ decodes o | _ => True end.
