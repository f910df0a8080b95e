(** Specification: the text a JSON string denotes (RFC 8259, section 7), as UTF-8 bytes (C77). *)
From Verif Require Import Bytes JsonSpec.

Definition hex_digit (h v : N) : Prop :=
  (48 <= h <= 57 /\ v = h - 48) \/ (65 <= h <= 70 /\ v = h - 55) \/ (97 <= h <= 102 /\ v = h - 87).
(** [four h1 h2 h3 h4 c]: the four digits denote the number [c]. *)
Definition four (h1 h2 h3 h4 c : N) : Prop :=
  exists a1 a2 a3 a4, hex_digit h1 a1 /\ hex_digit h2 a2 /\ hex_digit h3 a3 /\ hex_digit h4 a4 /\
    c = ((a1 * 16 + a2) * 16 + a3) * 16 + a4.

(** UTF-8 (RFC 3629) of a code point. *)
Inductive utf8_of : N -> bytes -> Prop :=
| u8_1 c : c < 128 -> utf8_of c [c]
| u8_2 c : 128 <= c < 2048 -> utf8_of c [192 + c / 64; 128 + c mod 64]
| u8_3 c : 2048 <= c < 65536 -> utf8_of c [224 + c / 4096; 128 + c / 64 mod 64; 128 + c mod 64]
| u8_4 c : 65536 <= c < 1114112 -> utf8_of c [240 + c / 262144; 128 + c / 4096 mod 64; 128 + c / 64 mod 64; 128 + c mod 64].

(** [decodes raw t]: the characters between the quotes denote the text [t]; an escaped
    surrogate has to be followed by its other half. *)
Inductive decodes : bytes -> bytes -> Prop :=
| dc_end : decodes [] []
| dc_char c r t : 32 <= c -> c <> 34 -> c <> 92 -> decodes r t -> decodes (c :: r) (c :: t)
| dc_esc e c r t : In (e, c) [(34, 34); (92, 92); (47, 47); (98, 8); (102, 12); (110, 10); (114, 13); (116, 9)] ->
    decodes r t -> decodes (92 :: e :: r) (c :: t)
| dc_uni h1 h2 h3 h4 c u r t : four h1 h2 h3 h4 c -> c < 55296 \/ 57343 < c -> utf8_of c u -> decodes r t ->
    decodes (92 :: 117 :: h1 :: h2 :: h3 :: h4 :: r) (u ++ t)
| dc_pair h1 h2 h3 h4 g1 g2 g3 g4 hi lo u r t : four h1 h2 h3 h4 hi -> four g1 g2 g3 g4 lo ->
    55296 <= hi < 56320 -> 56320 <= lo < 57344 -> utf8_of (65536 + (hi - 55296) * 1024 + (lo - 56320)) u -> decodes r t ->
    decodes (92 :: 117 :: h1 :: h2 :: h3 :: h4 :: 92 :: 117 :: g1 :: g2 :: g3 :: g4 :: r) (u ++ t).
