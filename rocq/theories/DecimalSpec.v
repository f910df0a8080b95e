(** Specification: decimal numbers and their plain notation (C135). *)
From Coq Require Import Reals.
From Verif Require Import Bytes.

(** A multiple of 10^k. *)
Definition multiple (k : Z) (x : R) : Prop := exists z : Z, x = (IZR z * powerRZ 10 k)%R.
(** Numbers with at most [n] significant digits. *)
Definition written_with (n : Z) (x : R) : Prop := exists z k : Z, (Z.abs z < 10 ^ n)%Z /\ x = (IZR z * powerRZ 10 k)%R.

(** Plain notation: no exponent, no plus sign, no needless zeros, no needless point. *)
Definition plain_notation (t : bytes) : Prop := exists sg ip fp,
  t = sg ++ ip ++ (match fp with [] => [] | _ => 46 :: fp end) /\ (sg = [] \/ sg = b "-") /\
  Forall (fun d => 48 <= d <= 57) ip /\ Forall (fun d => 48 <= d <= 57) fp /\
  (ip = b "0" \/ exists c r, ip = c :: r /\ c <> 48) /\ (fp = [] \/ exists l c, fp = l ++ [c] /\ c <> 48).
