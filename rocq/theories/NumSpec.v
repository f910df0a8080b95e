(** Specification: exact numbers and their nearest doubles (C32-C34). *)
From Coq Require Import Reals.
From Flocq Require Import Core.
From Verif Require Import Bytes.

(** Value of a string of decimal digits. *)
Fixpoint digits_value (ds : bytes) : Z :=
  match ds with [] => 0 | c :: r => (Z.of_N c - 48) * 10 ^ Z.of_nat (length r) + digits_value r end.

Inductive sign_text : bytes -> R -> Prop :=
| sg_none : sign_text [] 1
| sg_plus : sign_text (b "+") 1
| sg_minus : sign_text (b "-") (-1).
Inductive exponent_text : bytes -> Z -> Prop :=
| xt_none : exponent_text [] 0
| xt_pos c sg ds : c = 101 \/ c = 69 -> sg = [] \/ sg = b "+" -> Forall (fun d => 48 <= d <= 57) ds -> ds <> [] ->
    exponent_text (c :: sg ++ ds) (digits_value ds)
| xt_neg c ds : c = 101 \/ c = 69 -> Forall (fun d => 48 <= d <= 57) ds -> ds <> [] ->
    exponent_text (c :: b "-" ++ ds) (- digits_value ds).

(** [denotes_number t r]: the text [t] is a decimal number with the exact value [r]; exponents have
    to be smaller than 100000. *)
Inductive denotes_number : bytes -> R -> Prop :=
| dec_number sg s ip dot fp ex e : sign_text sg s ->
    Forall (fun d => 48 <= d <= 57) ip -> Forall (fun d => 48 <= d <= 57) fp -> ip ++ fp <> [] ->
    (dot = [] /\ fp = [] \/ dot = b ".") -> exponent_text ex e -> (Z.abs e < 100000)%Z ->
    denotes_number (sg ++ ip ++ dot ++ fp ++ ex) (s * IZR (digits_value (ip ++ fp)) * powerRZ 10 (e - Z.of_nat (length fp))).

(** The nearest multiple of a power of two that fits 53 bits (ties to even, exponents from
    -1074): the IEEE double, if its absolute value is below 2^1024. *)
Definition nearest (r : R) : R := round radix2 (FLT_exp (-1074) 53) ZnearestE r.
Definition max_double : R := bpow radix2 1024.
Definition in_double_range (r : R) : Prop := (Rabs (nearest r) < max_double)%R.
(** Numbers that are doubles. *)
Definition representable (r : R) : Prop := generic_format radix2 (FLT_exp (-1074) 53) r.
