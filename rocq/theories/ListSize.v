(** * ListSize: the lengths and sizes that lists, strings and bytes report. *)
From Verif Require Import Base Schema.

(** src/RepeatedFieldFixedSize.h:98 and src/FieldStringBytes.h:65. *)
Definition get_length (v : value) : Z := match v with VR len _ | VB len _ => len | _ => 0 end.
(** src/RepeatedFieldFixedSize.h:101 and src/FieldStringBytes.h:68: the size of the array. *)
Definition get_max_length (v : value) : Z := match v with VR _ data => zlen data | VB _ data => zlen data | _ => 0 end.
(** src/RepeatedFieldFixedSize.h:54,104: get_size(), in uint32_t. [sizeof]: sizeof(DATA_TYPE), which depends on the
    compiler and is a parameter. *)
Definition list_get_size (sizeof : Z) (v : value) : Z := u32 (u32 sizeof * get_length v).
(** src/RepeatedFieldFixedSize.h:107. *)
Definition list_get_max_size (sizeof : Z) (v : value) : Z := u32 (u32 sizeof * get_max_length v).
