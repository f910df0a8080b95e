(** strconv.Itoa and strconv.FormatInt for non-negative numbers of any size. *)
From Verif Require Import Bytes.

Fixpoint digits_of (fuel : nat) (n : N) (acc : bytes) : bytes :=
  match fuel with
  | O => acc
  | S fuel =>
    let acc := 48 + n mod 10 :: acc in
    if n <? 10 then acc else digits_of fuel (n / 10) acc
  end.
(** strconv/itoa.go (Itoa, small numbers and formatBits for base 10); a number has no more digits than bits. *)
Definition itoa (n : N) : bytes := digits_of (S (N.size_nat n)) n [].
