(** * GenEnum: the text of the enums the generator writes. *)
From Coq Require Import String.
From Verif Require Import Base Schema Printf Generator GenMembers.
From Coq Require Import List.

(** templates/TypeDefEnum.h:32-34, templates/TypeDefMsg.h:94-96: the lines of the loop, with the spaces in front of them.
    Jinja writes a number as Python's str does, in decimal; trim_blocks and lstrip_blocks (main.py:90) remove the lines of
    the statements. *)
Fixpoint enum_lines (pad : text) (values : list (text * Z)) : text :=
  match values with
  | [] => []
  | (n, z) :: values' =>
      pad ++ n ++ chars " = " ++ decimal z ++ match values' with [] => [] | _ => chars "," end ++ newline ++ enum_lines pad values'
  end.

(** templates/TypeDefEnum.h:30-35; TypeDefinitions.py:113-120  EnumDefinition. [values]: EnumDescriptorProto.value. *)
Definition render_enum (name : text) (values : list (text * Z)) : text :=
  chars "enum class " ++ name ++ chars " : uint32_t" ++ newline ++ chars "{" ++ newline ++ enum_lines (chars "  ") values ++ chars "};".

(** The filter indent(4) of Jinja, templates/TypeDefMsg.h:84,88: all lines but the first and the empty ones. *)
Fixpoint indented (k : nat) (s : text) : text :=
  match s with
  | [] => []
  | c :: s' =>
      c :: (if c =? 10
            then match s' with d :: _ => (if d =? 10 then [] else repeat 32 k) | [] => [] end
            else []) ++ indented k s'
  end.
(** The text of an enum inside [depth] messages: every message around is indented again. *)
Fixpoint render_nested (depth : nat) (s : text) : text :=
  match depth with O => s | S depth' => indented 4 (render_nested depth' s) end.

(** TypeDefinitions.py:144,164,167: field_ids, sorted as Python sorts tuples. *)
Definition id_leb (a b : Z * text) : bool := (fst a <? fst b) || ((fst a =? fst b) && text_leb (snd a) (snd b)).
Definition field_ids (d : mdef) : list (Z * text) :=
  match d with
  | MDef _ _ _ fields oneofs => sort id_leb (map (fun f => (f_number f, variable_id_name (f_name f))) (all_fields fields oneofs))
  end.
(** templates/TypeDefMsg.h:91-97. *)
Definition render_field_number (d : mdef) : text :=
  chars "enum class FieldNumber : uint32_t" ++ newline ++ chars "    {" ++ newline ++ chars "      NOT_SET = 0," ++ newline
  ++ enum_lines (chars "      ") (map (fun '(z, n) => (n, z)) (field_ids d)) ++ chars "    };".
