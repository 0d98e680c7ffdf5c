(** * Buffers: the read and write buffer interfaces and the concrete classes. *)
From Verif Require Import Base.

(* ------------------------------------------------------------------------------------------- *)
(** ** Write side *)

(** src/WriteBufferInterface.h:46-81  class WriteBufferInterface.
    A virtual interface is a record of operations on an arbitrary state type. [w_pushn] takes the
    source array and the length argument separately, as the C++ takes pointer and length. *)
Record wops (S : Type) : Type := {
  w_clear : S -> S;
  w_get_size : S -> Z;
  w_get_max_size : S -> Z;
  w_get_available_size : S -> Z;
  w_push : S -> Z -> res (bool * S);
  w_pushn : S -> list Z -> Z -> res (bool * S)
}.
Arguments w_clear {S}. Arguments w_get_size {S}. Arguments w_get_max_size {S}.
Arguments w_get_available_size {S}. Arguments w_push {S}. Arguments w_pushn {S}.

(** src/WriteBufferFixedSize.h:40-111  template<uint32_t BUFFER_SIZE> class WriteBufferFixedSize.
    Members data_ (an array of BUFFER_SIZE bytes) and write_index_; the template parameter is the
    argument [cap] of the operations. *)
Record wfix : Type := { wf_data : list Z; wf_w : Z }.

(** src/WriteBufferFixedSize.h:106-109  default member initialisers. *)
Definition wfix_init (cap : Z) : wfix := {| wf_data := zrepeat 0 cap; wf_w := 0 |}.

(** src/WriteBufferFixedSize.h:48-51 *)
Definition wfix_clear (b : wfix) : wfix := {| wf_data := wf_data b; wf_w := 0 |}.

(** src/WriteBufferFixedSize.h:74-83  push(const uint8_t byte) *)
Definition wfix_push (cap : Z) (b : wfix) (byte : Z) : res (bool * wfix) :=
  if wf_w b <? cap then
    let* d := aset (wf_data b) (wf_w b) byte in
    Done (true, {| wf_data := d; wf_w := u32 (wf_w b + 1) |})
  else Done (false, b).

(** src/WriteBufferFixedSize.h:86-95  push(const uint8_t* bytes, const uint32_t length).
    The comparison is strict and the sum is a uint32_t. *)
Definition wfix_pushn (cap : Z) (b : wfix) (src : list Z) (len : Z) : res (bool * wfix) :=
  if u32 (wf_w b + len) <? cap then
    let* d := memcpy (wf_data b) (wf_w b) src len in
    Done (true, {| wf_data := d; wf_w := u32 (wf_w b + len) |})
  else Done (false, b).

(** src/WriteBufferFixedSize.h:55-71  get_size / get_max_size / get_available_size. *)
Definition wfix_ops (cap : Z) : wops wfix := {|
  w_clear := wfix_clear;
  w_get_size := wf_w;
  w_get_max_size := fun _ => cap;
  w_get_available_size := fun b => u32 (cap - wf_w b);
  w_push := wfix_push cap;
  w_pushn := wfix_pushn cap
|}.

(** The bytes a user sees through get_data()/get_size() (src/WriteBufferFixedSize.h:55-58,98-101). *)
Definition wfix_content (b : wfix) : list Z := firstn (Z.to_nat (wf_w b)) (wf_data b).

(** src/MessageSizeCalculator.h:50-104  class MessageSizeCalculator; the state is size_. *)
Definition calc_ops : wops Z := {|
  w_clear := fun _ => 0;
  w_get_size := fun s => s;
  w_get_max_size := fun _ => 2 ^ 32 - 1;
  w_get_available_size := fun _ => 2 ^ 32 - 1;
  w_push := fun s _ => Done (true, u32 (s + 1));
  w_pushn := fun s _ len => Done (true, u32 (s + len))
|}.

(* ------------------------------------------------------------------------------------------- *)
(** ** Read side *)

(** src/ReadBufferInterface.h:43-92  class ReadBufferInterface. [r_peek] and [r_pop] return the
    boolean result and the byte at once: [None] is "returned false, byte not assigned". *)
Record rops (S : Type) : Type := {
  r_get_size : S -> Z;
  r_get_max_size : S -> Z;
  r_peek : S -> res (option Z);
  r_advance : S -> res (bool * S);
  r_advance_n : S -> Z -> res (bool * S);
  r_pop : S -> res (option Z * S)
}.
Arguments r_get_size {S}. Arguments r_get_max_size {S}. Arguments r_peek {S}.
Arguments r_advance {S}. Arguments r_advance_n {S}. Arguments r_pop {S}.

(** src/ReadBufferFixedSize.h:44-157  template<uint32_t BUFFER_SIZE> class ReadBufferFixedSize. *)
Record rfix : Type := { rf_data : list Z; rf_w : Z; rf_r : Z }.

(** src/ReadBufferFixedSize.h:150-156  default member initialisers. *)
Definition rfix_init (cap : Z) : rfix := {| rf_data := zrepeat 0 cap; rf_w := 0; rf_r := 0 |}.

(** src/ReadBufferFixedSize.h:67-75 *)
Definition rfix_peek (b : rfix) : res (option Z) :=
  if rf_r b <? rf_w b then let* x := aget (rf_data b) (rf_r b) in Done (Some x)
  else Done None.

(** src/ReadBufferFixedSize.h:78-86 *)
Definition rfix_advance (b : rfix) : res (bool * rfix) :=
  if rf_r b <? rf_w b
  then Done (true, {| rf_data := rf_data b; rf_w := rf_w b; rf_r := u32 (rf_r b + 1) |})
  else Done (false, b).

(** src/ReadBufferFixedSize.h:89-98; the sum is a uint32_t. *)
Definition rfix_advance_n (b : rfix) (n : Z) : res (bool * rfix) :=
  let new_read_index := u32 (rf_r b + n) in
  if new_read_index <=? rf_w b
  then Done (true, {| rf_data := rf_data b; rf_w := rf_w b; rf_r := new_read_index |})
  else Done (false, b).

(** src/ReadBufferFixedSize.h:101-110 *)
Definition rfix_pop (b : rfix) : res (option Z * rfix) :=
  if rf_r b <? rf_w b then
    let* x := aget (rf_data b) (rf_r b) in
    Done (Some x, {| rf_data := rf_data b; rf_w := rf_w b; rf_r := u32 (rf_r b + 1) |})
  else Done (None, b).

(** src/ReadBufferFixedSize.h:55-64: get_size is write_index_, the total written. *)
Definition rfix_ops (cap : Z) : rops rfix := {|
  r_get_size := rf_w;
  r_get_max_size := fun _ => cap;
  r_peek := rfix_peek;
  r_advance := rfix_advance;
  r_advance_n := rfix_advance_n;
  r_pop := rfix_pop
|}.

(** src/ReadBufferFixedSize.h:119-122 *)
Definition rfix_set_bytes_written (cap : Z) (b : rfix) (n : Z) : rfix :=
  {| rf_data := rf_data b; rf_w := Z.min n cap; rf_r := rf_r b |}.

(** src/ReadBufferFixedSize.h:125-129 *)
Definition rfix_clear (b : rfix) : rfix := {| rf_data := rf_data b; rf_w := 0; rf_r := 0 |}.

(** src/ReadBufferFixedSize.h:136-145 *)
Definition rfix_push (cap : Z) (b : rfix) (byte : Z) : res (bool * rfix) :=
  if rf_w b <? cap then
    let* d := aset (rf_data b) (rf_w b) byte in
    Done (true, {| rf_data := d; rf_w := u32 (rf_w b + 1); rf_r := rf_r b |})
  else Done (false, b).

(** A buffer just filled with [bytes] through get_data()/set_bytes_written() or push(): the state
    from which users call deserialize (src/ReadBufferFixedSize.h:113-122). *)
Definition rfix_of (bytes : list Z) : rfix :=
  {| rf_data := bytes; rf_w := zlen bytes; rf_r := 0 |}.

(** src/ReadBufferSection.h:49-113  class ReadBufferSection: a reference to the parent buffer,
    size_ and max_size_. The parent state is threaded through the section; when the section goes
    out of scope the caller continues with [sec_parent]. *)
Record section (S : Type) : Type := { sec_parent : S; sec_size : Z; sec_max : Z }.
Arguments sec_parent {S}. Arguments sec_size {S}. Arguments sec_max {S}.

(** src/ReadBufferSection.cpp:39-45 *)
Definition mk_section {S} (R : rops S) (s : S) (size : Z) : section S :=
  {| sec_parent := s; sec_size := Z.min size (r_get_size R s);
     sec_max := Z.min size (r_get_size R s) |}.

(** src/ReadBufferSection.cpp:57-65 *)
Definition sec_peek {S} (R : rops S) (b : section S) : res (option Z) :=
  if 0 <? sec_size b then r_peek R (sec_parent b) else Done None.

(** src/ReadBufferSection.cpp:67-76; --size_ on a positive uint32_t. *)
Definition sec_advance {S} (R : rops S) (b : section S) : res (bool * section S) :=
  if 0 <? sec_size b then
    let* (ok, p) := r_advance R (sec_parent b) in
    Done (ok, {| sec_parent := p; sec_size := sec_size b - 1; sec_max := sec_max b |})
  else Done (false, b).

(** src/ReadBufferSection.cpp:78-88 *)
Definition sec_advance_n {S} (R : rops S) (b : section S) (n_bytes : Z)
  : res (bool * section S) :=
  if 0 <? sec_size b then
    let n := if n_bytes <=? sec_size b then n_bytes else sec_size b in
    let* (ok, p) := r_advance_n R (sec_parent b) n in
    Done (ok, {| sec_parent := p; sec_size := sec_size b - n; sec_max := sec_max b |})
  else Done (false, b).

(** src/ReadBufferSection.cpp:90-99 *)
Definition sec_pop {S} (R : rops S) (b : section S) : res (option Z * section S) :=
  if 0 <? sec_size b then
    let* (ob, p) := r_pop R (sec_parent b) in
    Done (ob, {| sec_parent := p; sec_size := sec_size b - 1; sec_max := sec_max b |})
  else Done (None, b).

(** src/ReadBufferSection.cpp:47-55 *)
Definition sec_ops {S} (R : rops S) : rops (section S) := {|
  r_get_size := sec_size;
  r_get_max_size := sec_max;
  r_peek := sec_peek R;
  r_advance := sec_advance R;
  r_advance_n := sec_advance_n R;
  r_pop := sec_pop R
|}.
