(** * Contracts: what a user-supplied buffer class must guarantee.

    The read and write buffer classes are interfaces that users implement themselves
    (src/ReadBufferInterface.h, src/WriteBufferInterface.h). The theorems are stated for every
    implementation that meets these contracts; the documentation comments of the interfaces are the
    source of the laws. *)
From Verif Require Import Base Buffers.

(** [rel s l]: the buffer in state [s] still holds exactly the unread bytes [l]. *)
Record reader_ok {S : Type} (R : rops S) (rel : S -> list Z -> Prop) : Prop := {
  ro_bytes : forall s l, rel s l -> Forall is_byte l;
  ro_size : forall s l, rel s l -> zlen l <= r_get_size R s;
  ro_pop_nil : forall s, rel s [] -> exists s', r_pop R s = Done (None, s') /\ rel s' [];
  ro_pop_cons : forall s b l, rel s (b :: l) ->
    exists s', r_pop R s = Done (Some b, s') /\ rel s' l;
  ro_peek_nil : forall s, rel s [] -> r_peek R s = Done None;
  ro_peek_cons : forall s b l, rel s (b :: l) -> r_peek R s = Done (Some b);
  ro_advance_nil : forall s, rel s [] -> exists s', r_advance R s = Done (false, s') /\ rel s' [];
  ro_advance_cons : forall s b l, rel s (b :: l) ->
    exists s', r_advance R s = Done (true, s') /\ rel s' l;
  ro_advance_n : forall s l n, rel s l -> 0 <= n <= zlen l ->
    exists ok s', r_advance_n R s n = Done (ok, s') /\ rel s' (skipn (Z.to_nat n) l)
                  /\ (0 < n -> ok = true)
}.

(** A reader that knows how many bytes are left, and goes to the end when told to skip more. *)
Record reader_bounded {S : Type} (R : rops S) (rel : S -> list Z -> Prop) : Prop := {
  rb_size : forall s l, rel s l -> r_get_size R s = zlen l;
  rb_advance_n : forall s l n, rel s l -> zlen l < n ->
    exists ok s', r_advance_n R s n = Done (ok, s') /\ rel s' []
}.

(** The weakest contract, enough for memory safety: no operation is UB, popped values are bytes.
    [inv s m] is an invariant of the buffer with a measure that must go down with each popped byte
    when [strict] holds. *)
Record reader_safe {S : Type} (R : rops S) (inv : S -> nat -> Prop) (strict : Prop) : Prop := {
  rs_pop : forall s m, inv s m -> exists ob s' m', r_pop R s = Done (ob, s') /\ inv s' m'
    /\ match ob with
       | Some b => is_byte b /\ (strict -> (m' < m)%nat)
       | None => strict -> (m' <= m)%nat
       end;
  rs_advance_n : forall s m n, inv s m -> 0 <= n < 2 ^ 32 ->
    exists ok s' m', r_advance_n R s n = Done (ok, s') /\ inv s' m' /\ (strict -> (m' <= m)%nat)
}.

(** [rel s c room]: the write buffer in state [s] holds the bytes [c] and accepts [room] more
    ([None]: any number). [exact]: a bulk push that fills the buffer completely is accepted. *)
Record writer_ok {S : Type} (W : wops S) (rel : S -> list Z -> option Z -> Prop) (exact : Prop)
  : Prop := {
  wo_room : forall s c n, rel s c (Some n) -> 0 <= n;
  wo_push_full : forall s c b, rel s c (Some 0) -> is_byte b ->
    exists s', w_push W s b = Done (false, s') /\ rel s' c (Some 0);
  wo_push : forall s c b n, rel s c (Some n) -> 0 < n -> is_byte b ->
    exists s', w_push W s b = Done (true, s') /\ rel s' (c ++ [b]) (Some (n - 1));
  wo_push_inf : forall s c b, rel s c None -> is_byte b ->
    exists s', w_push W s b = Done (true, s') /\ rel s' (c ++ [b]) None;
  wo_pushn : forall s c src len n, rel s c (Some n) -> Forall is_byte src ->
    0 <= len < 2 ^ 31 -> len <= zlen src ->
    exists ok s', w_pushn W s src len = Done (ok, s')
      /\ (if ok then len <= n /\ rel s' (c ++ firstn (Z.to_nat len) src) (Some (n - len))
          else n <= len /\ (exact -> n < len) /\ rel s' c (Some n));
  wo_pushn_inf : forall s c src len, rel s c None -> Forall is_byte src ->
    0 <= len < 2 ^ 31 -> len <= zlen src ->
    exists s', w_pushn W s src len = Done (true, s') /\ rel s' (c ++ firstn (Z.to_nat len) src) None;
  wo_avail : forall s c n, rel s c (Some n) -> n <= w_get_available_size W s;
  wo_avail_inf : forall s c, rel s c None -> w_get_available_size W s = 2 ^ 32 - 1
}.

(** [emits W rel f bs]: on a buffer with enough room, [f] reports success and appends exactly [bs]. *)
Definition emits {S} (rel : S -> list Z -> option Z -> Prop) (f : S -> res (err * S)) (bs : list Z)
  : Prop :=
  forall s c room, rel s c room -> (forall n, room = Some n -> zlen bs <= n) ->
  exists s', f s = Done (NoErrors, s') /\ rel s' (c ++ bs) (option_map (fun n => n - zlen bs) room).

(** [reads rel f bs x]: when the unread bytes start with [bs], [f] reports success, returns [x] and
    consumes exactly [bs]. *)
Definition reads {S A} (rel : S -> list Z -> Prop) (f : S -> res (err * option A * S)) (bs : list Z)
    (x : A) : Prop :=
  forall s rest, rel s (bs ++ rest) ->
  exists s', f s = Done (NoErrors, Some x, s') /\ rel s' rest.

(** Relations for the concrete classes. *)

(** A fixed-size read buffer holding the unread bytes [l]. *)
Definition rfix_rel (cap : Z) (b : rfix) (l : list Z) : Prop :=
  zlen (rf_data b) = cap /\ cap < 2 ^ 32 /\ 0 <= rf_r b <= rf_w b /\ rf_w b <= cap
  /\ Forall is_byte (rf_data b)
  /\ l = firstn (Z.to_nat (rf_w b - rf_r b)) (skipn (Z.to_nat (rf_r b)) (rf_data b)).

(** A section whose window holds [l], in front of the bytes [tail] of the parent. When the window was
    announced larger than what the parent has left, [tail] is empty and size_ stays too large. *)
Definition sec_rel {S} (rel : S -> list Z -> Prop) (tail : list Z) (b : section S) (l : list Z)
  : Prop := rel (sec_parent b) (l ++ tail) /\ zlen l <= sec_size b
            /\ (tail <> [] -> sec_size b = zlen l).

(** A section whose size_ is exactly the length of [l]. *)
Definition exact_rel {S} (rel : S -> list Z -> Prop) (tail : list Z) (b : section S) (l : list Z)
  : Prop := rel (sec_parent b) (l ++ tail) /\ sec_size b = zlen l.

(** A fixed-size write buffer of at most 2^31 bytes. *)
Definition wfix_rel (cap : Z) (b : wfix) (c : list Z) (room : option Z) : Prop :=
  zlen (wf_data b) = cap /\ cap <= 2 ^ 31 /\ 0 <= wf_w b <= cap /\ Forall is_byte (wf_data b)
  /\ c = firstn (Z.to_nat (wf_w b)) (wf_data b) /\ room = Some (cap - wf_w b).

(** The size calculator "holds" any byte string of the counted length. *)
Definition calc_rel (s : Z) (c : list Z) (room : option Z) : Prop :=
  s = u32 (zlen c) /\ room = None.
