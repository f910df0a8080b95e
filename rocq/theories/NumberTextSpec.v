(** Specification: the texts that Go reads as floating point numbers (C137). *)
From Coq Require Import Reals SpecFloat.
From Verif Require Import Bytes NumSpec.

Definition decimal_digit (c : N) : Prop := 48 <= c <= 57.
Definition hexadecimal_digit (c : N) : Prop := 48 <= c <= 57 \/ 65 <= c <= 70 \/ 97 <= c <= 102.
(** Value of a string of hexadecimal digits of either case. *)
Definition hexadecimal_value (c : N) : Z := Z.of_N c - (if c <=? 57 then 48 else if c <=? 70 then 55 else 87).
Fixpoint hexadecimals_value (ds : bytes) : Z :=
  match ds with [] => 0 | c :: r => hexadecimal_value c * 16 ^ Z.of_nat (length r) + hexadecimals_value r end.

(** [grouped P ds t]: the digits [ds], at least one, with single underscores between some of them. *)
Inductive grouped (P : N -> Prop) : bytes -> bytes -> Prop :=
| gr_one d : P d -> grouped P [d] [d]
| gr_next d ds t : P d -> grouped P ds t -> grouped P (d :: ds) (d :: t)
| gr_under d ds t : P d -> grouped P ds t -> grouped P (d :: ds) (d :: b "_" ++ t).
Definition part (P : N -> Prop) (ds t : bytes) : Prop := ds = [] /\ t = [] \/ grouped P ds t.

(** Mantissa: digits, a point, digits; the point may be missing, but not all digits. *)
Inductive mantissa (P : N -> Prop) : bytes -> bytes -> bytes -> Prop :=
| ma_int ip t : grouped P ip t -> mantissa P ip [] t
| ma_point ip fp t u : part P ip t -> part P fp u -> ip ++ fp <> [] -> mantissa P ip fp (t ++ b "." ++ u).
(** Exponent, introduced by one of two letters. *)
Inductive written_exponent (l1 l2 : N) : bytes -> Z -> Prop :=
| wx_pos c sg ds t : c = l1 \/ c = l2 -> sg = [] \/ sg = b "+" -> grouped decimal_digit ds t -> written_exponent l1 l2 (c :: sg ++ t) (digits_value ds)
| wx_neg c ds t : c = l1 \/ c = l2 -> grouped decimal_digit ds t -> written_exponent l1 l2 (c :: b "-" ++ t) (- digits_value ds).

(** [numeral t x e]: the text [t] is a number with the exact value [x], written with the exponent
    [e]: decimal, or hexadecimal with a power of two. *)
Inductive numeral : bytes -> R -> Z -> Prop :=
| nu_decimal sg s ip fp t ex e : sign_text sg s -> mantissa decimal_digit ip fp t -> (ex = [] /\ e = 0%Z \/ written_exponent 101 69 ex e) ->
    numeral (sg ++ t ++ ex) (s * IZR (digits_value (ip ++ fp)) * powerRZ 10 (e - Z.of_nat (length fp))) e
| nu_hexadecimal sg s x u ip fp t ex e : sign_text sg s -> x = 120 \/ x = 88 -> (u = [] \/ u = b "_" /\ ip <> []) -> mantissa hexadecimal_digit ip fp t ->
    written_exponent 112 80 ex e ->
    numeral (sg ++ 48 :: x :: u ++ t ++ ex) (s * IZR (hexadecimals_value (ip ++ fp)) * powerRZ 2 (e - 4 * Z.of_nat (length fp))) e.

(** The words for what is no finite number, in letters of any case. *)
Definition small_letter (c : N) : N := if (65 <=? c) && (c <=? 90) then c + 32 else c.
Inductive number_word : bytes -> Prop :=
| nw_infinite sg w : sg = [] \/ sg = b "+" \/ sg = b "-" -> map small_letter w = b "inf" \/ map small_letter w = b "infinity" -> number_word (sg ++ w)
| nw_nan w : map small_letter w = b "nan" -> number_word w.
(** What such a word stands for: the infinity of the sign written before it, or not a number. *)
Inductive word_value : bytes -> spec_float -> Prop :=
| wv_plus sg w : sg = [] \/ sg = b "+" -> map small_letter w = b "inf" \/ map small_letter w = b "infinity" -> word_value (sg ++ w) (S754_infinity false)
| wv_minus w : map small_letter w = b "inf" \/ map small_letter w = b "infinity" -> word_value (b "-" ++ w) (S754_infinity true)
| wv_nan w : map small_letter w = b "nan" -> word_value w S754_nan.
