(** * Printf: the text produced by the printf conversions that to_string() uses.

    The C library is not part of the repository; these definitions say what the model assumes of it. *)
From Verif Require Import Base.
From Coq Require Import String Ascii.

(** A C++ string literal as a list of char codes. *)
Definition chars (s : string) : list Z := List.map (fun c => Z.of_N (N_of_ascii c)) (list_ascii_of_string s).
Definition newline : list Z := [10].
Definition quote : list Z := [34].

(** Decimal digits without leading zeros; [k] is at least their number. *)
Fixpoint digits (k : nat) (n : Z) : list Z :=
  match k with
  | O => []
  | S k' => if n <? 10 then [48 + n] else digits k' (n / 10) ++ [48 + n mod 10]
  end.
Definition natural (n : Z) : list Z := digits (S (Z.to_nat (Z.log2 n))) n.

(** %d, %ld, %u, %lu. %ld and %lu are taken to be 64 bits wide. *)
Definition decimal (z : Z) : list Z := if z <? 0 then 45 :: natural (- z) else natural z.

(** %*s with the argument " ": at least one space; a negative width pads on the other side, which for
    spaces gives the same text. *)
Definition padding (width : Z) : list Z := zrepeat 32 (Z.max 1 (Z.abs width)).
