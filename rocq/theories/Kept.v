(** * Kept: references that are kept while other calls are made on the object, as in
      `auto& r = msg.mutable_f(); ...; r.set_x(1);`.

    A reference names a place (Alias.v): the storage of the member, templates/TypeDefMsg.h:394-415,
    src/RepeatedFieldFixedSize.h:202. Fields and elements of lists exist as long as the object they are in: clear(),
    operator= and deserialize() change them but never create them anew. The members of a oneof are created by init_ and
    destroyed by clear_ (templates/TypeOneof.h:53-107, FieldMsg_GetSet.h:36-43, FieldString_GetSet.h:36-43,
    FieldBasic_GetSet.h:36-43). Using a reference to a destroyed object is undefined; a reference to a member that has
    been created again names the new one, which has the same class and storage (ISO C++ [basic.life]). *)
From Verif Require Import Base Buffers Wire Schema Fields Message Api Alias.

(** The call [g] through a reference to the place [p], obtained at an earlier time. In contrast to [update_at] of
    Alias.v no accessor runs: no has_ flag is set, no list grows, no member of a oneof is created
    (templates/FieldMsg_GetSet.h:68-97, FieldString_GetSet.h:44-51,73-82, FieldBasic_GetSet.h:85-97,
    FieldRepeated_GetSet.h:85-92, src/RepeatedFieldFixedSize.h:109-117: what the accessors return is the member itself). *)
Fixpoint through (ty : oty) (p : list step) (g : oty -> value -> res (err * value)) (v : value) : res (err * value) :=
  match p with
  | [] => g ty v
  | SField pos :: p' =>
      match ty, v with
      | OElem (EMsg fs os), VM pres vs ovs =>
          match nth_error fs pos with
          | Some (_, k, t) =>
              let* x := aget vs (Z.of_nat pos) in
              let* (e, x') := through (oty_of k t) p' g x in
              let* vs' := aset vs (Z.of_nat pos) x' in
              Done (e, VM pres vs' ovs)
          | None => UB
          end
      | _, _ => UB
      end
  | SAt index :: p' =>
      match ty, v with
      | ORep max t, VR len data =>
          let i := Z.min index (u32 (zlen data - 1)) in
          let* x := aget data i in
          let* (e, x') := through (OElem t) p' g x in
          let* data' := aset data i x' in
          Done (e, VR len data')
      | _, _ => UB
      end
  | SMember pos id :: p' =>
      match ty, v with
      | OElem (EMsg fs os), VM pres vs ovs =>
          match nth_error os pos with
          | Some ms =>
              match find_member (members ms) id with
              | Some (t, _) =>
                  let* d := aget ovs (Z.of_nat pos) in
                  if id =? fst d then
                    let* (e, x') := through (OElem t) p' g (snd d) in
                    let* ovs' := aset ovs (Z.of_nat pos) (fst d, x') in
                    Done (e, VM pres vs ovs')
                  else UB
              | None => UB
              end
          | None => UB
          end
      | _, _ => UB
      end
  end.
