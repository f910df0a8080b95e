(** Specification: malformed addresses, separated parts of a text (C40). *)
From Verif Require Import Bytes Oracles MatchSpec.

(** A character that occurs in no address or block. *)
Definition separator (c : N) : Prop := c < 46 \/ 57 < c.

(** What is wrong with a candidate that denotes nothing. *)
Definition bad_octet (d : bytes) : Prop := 255 < decimal 0 d \/ exists r, d = 48 :: r /\ r <> [].
Inductive malformed (O : oracles) : bytes -> Prop :=
| mf_octet d1 d2 d3 d4 r : digit_text 3 d1 -> digit_text 3 d2 -> digit_text 3 d3 -> digit_text 3 d4 ->
    bad_octet d1 \/ bad_octet d2 \/ bad_octet d3 \/ bad_octet d4 ->
    (r = [] \/ exists n, r = 47 :: n /\ digit_text 2 n) -> malformed O ((d1 ++ 46 :: d2 ++ 46 :: d3 ++ 46 :: d4) ++ r)
| mf_bits d1 d2 d3 d4 n : digit_text 3 d1 -> digit_text 3 d2 -> digit_text 3 d3 -> digit_text 3 d4 -> digit_text 2 n ->
    32 < decimal 0 n \/ (o_strict_bits O = true /\ exists r, n = 48 :: r /\ r <> []) ->
    malformed O ((d1 ++ 46 :: d2 ++ 46 :: d3 ++ 46 :: d4) ++ 47 :: n).

