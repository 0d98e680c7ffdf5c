(** * GenCode: what the functions of a generated class do with the fields.

    The bodies of the functions (templates/TypeDefMsg.h and templates/Field*_Serialize.h, ..., modelled in
    Message.v for an arbitrary list of fields) mention, for every field: its number, its variable and whether it
    has a presence bit; and the fields of the oneofs. Generator.v has the types of the variables. *)
From Coq Require Import String.
From Verif Require Import Base Schema Printf Generator.
From Coq Require Import List.

(** Field.py:46,51-54: optional, variable_name (without the "_"), variable_id. Simplification: the
    functions use the enumerator FieldNumber::<NAME> (TypeDefMsg.h:92-98, TypeDefinitions.py:148-151,167-172), here its
    value. Names that make two enumerators equal are the subject of GenMembers.v. [cf_recursive]: the variable
    is not there (Field.py:549-616). *)
Record code_field : Type := { cf_name : text; cf_number : Z; cf_optional : bool; cf_recursive : bool }.

(** The same for one field of the definition. *)
Definition field_code (f : field) : code_field :=
  {| cf_name := f_name f; cf_number := f_number f; cf_optional := f_optional f;
     cf_recursive := match f_class f with FieldErrorRecursive => true | _ => false end |}.

(** The fields outside and inside of oneofs, in the order of the loops of TypeDefMsg.h:163-180,197-210,240-245. *)
Definition class_code : Type := list code_field * list (list code_field).

(** The class with its full name, and the classes inside (TypeDefMsg.h:88-91). *)
Fixpoint codes (d : mdef) : list (path * class_code) :=
  match d with
  | MDef scope nested _ fields oneofs =>
      concat (map codes nested) ++ [(scope, (map field_code fields, map (fun o => map field_code (snd o)) oneofs))]
  end.

(** The classes of all headers (main.py:110-121). *)
Definition generate_code (request : list pfile) : list (path * class_code) :=
  concat (map (fun f => match sort_file f with Some ds => concat (map codes ds) | None => [] end) request).
