(** Specification: regular expressions of package regexp (syntax.Perl), the part without
    repeat counts, Unicode classes and flags inside groups: how they are written and what they
    find.  Greedy and lazy repetitions differ in what is matched, not in whether something is. *)
From Verif Require Import Bytes Utf8 Oracles.

Inductive rx :=
| XEmpty
| XSet (P : N -> Prop)          (** one character of a set *)
| XSeq (r s : rx)
| XAlt (r s : rx)
| XStar (r : rx)
| XStart | XEnd                 (** start and end of the text *)
| XWord (yes : bool).           (** at a word boundary; not at one *)

Definition word_char (c : N) : Prop := 48 <= c <= 57 \/ 65 <= c <= 90 \/ 97 <= c <= 122 \/ c = 95.
Definition ends_in_word (t : list N) : Prop := exists u c, t = u ++ [c] /\ word_char c.
Definition starts_with_word (t : list N) : Prop := exists u c, t = c :: u /\ word_char c.
Definition at_boundary (before after : list N) : Prop := ~ (ends_in_word before <-> starts_with_word after).

(** [rx_matches r before s after]: in the text [before ++ s ++ after] the part [s] is a match. *)
Inductive rx_matches : rx -> list N -> list N -> list N -> Prop :=
| rm_empty x z : rx_matches XEmpty x [] z
| rm_set (P : N -> Prop) c x z : P c -> rx_matches (XSet P) x [c] z
| rm_seq r s x y y' z : rx_matches r x y (y' ++ z) -> rx_matches s (x ++ y) y' z -> rx_matches (XSeq r s) x (y ++ y') z
| rm_alt1 r s x y z : rx_matches r x y z -> rx_matches (XAlt r s) x y z
| rm_alt2 r s x y z : rx_matches s x y z -> rx_matches (XAlt r s) x y z
| rm_star0 r x z : rx_matches (XStar r) x [] z
| rm_star r x y y' z : rx_matches r x y (y' ++ z) -> rx_matches (XStar r) (x ++ y) y' z -> rx_matches (XStar r) x (y ++ y') z
| rm_start z : rx_matches XStart [] [] z
| rm_end x : rx_matches XEnd x [] []
| rm_word x z : at_boundary x z -> rx_matches (XWord true) x [] z
| rm_nonword x z : ~ at_boundary x z -> rx_matches (XWord false) x [] z.

Definition finds (r : rx) (t : list N) : Prop := exists x y z, t = x ++ y ++ z /\ rx_matches r x y z.

(** ** Syntax *)
Definition rx_meta (c : N) : Prop := In c (b "\.+*?()|[{^$").
Definition ascii_punct (c : N) : Prop := 33 <= c < 128 /\ ~ (48 <= c <= 57) /\ ~ (65 <= c <= 90) /\ ~ (97 <= c <= 122).
Definition digit_char (c : N) : Prop := 48 <= c <= 57.
Definition space_char (c : N) : Prop := c = 9 \/ c = 10 \/ c = 12 \/ c = 13 \/ c = 32.
Section Syntax.
(** When (?i) takes two characters for the same; without the flag: equality *)
Context (same : N -> N -> Prop).
Definition one_of (c : N) : rx := XSet (fun d => same c d).
Definition like (Q : N -> Prop) (d : N) : Prop := exists c, Q c /\ same c d.
(** \d \s \w and their complements \D \S \W *)
Inductive shorthand : N -> (N -> Prop) -> Prop :=
| sh_d : shorthand 100 (like digit_char) | sh_not_d : shorthand 68 (fun c => ~ like digit_char c)
| sh_s : shorthand 115 (like space_char) | sh_not_s : shorthand 83 (fun c => ~ like space_char c)
| sh_w : shorthand 119 (like word_char) | sh_not_w : shorthand 87 (fun c => ~ like word_char c).

(** The members of a bracket expression *)
Inductive members : list N -> (N -> Prop) -> Prop :=
| mb_none : members [] (fun _ => False)
| mb_char c t P : ~ In c (b "\[]-^") -> members t P -> members (c :: t) (fun d => same c d \/ P d)
| mb_range c d t P : ~ In c (b "\[]-^") -> ~ In d (b "\[]-^") -> c <= d -> members t P ->
    members (c :: 45 :: d :: t) (fun x => (exists y, c <= y <= d /\ same y x) \/ P x)
| mb_short c Q t P : shorthand c Q -> members t P -> members (92 :: c :: t) (fun d => Q d \/ P d).

Inductive atom : list N -> rx -> Prop :=
| at_char c : ~ rx_meta c -> atom [c] (one_of c)
| at_escape c : ascii_punct c -> atom [92; c] (one_of c)
| at_short c P : shorthand c P -> atom [92; c] (XSet P)
| at_any : atom (b ".") (XSet (fun c => c <> 10))
| at_class t P : t <> [] -> members t P -> atom (b "[" ++ t ++ b "]") (XSet P)
| at_not_class t P : t <> [] -> members t P -> atom (b "[^" ++ t ++ b "]") (XSet (fun c => ~ P c))
| at_start : atom (b "^") XStart
| at_start_text : atom (b "\A") XStart
| at_end : atom (b "$") XEnd
| at_end_text : atom (b "\z") XEnd
| at_word : atom (b "\b") (XWord true)
| at_nonword : atom (b "\B") (XWord false)
| at_group t r : alternatives t r -> atom (b "(" ++ t ++ b ")") r
| at_plain_group t r : alternatives t r -> atom (b "(?:" ++ t ++ b ")") r
with piece : list N -> rx -> Prop :=
| pc_once t r : atom t r -> piece t r
| pc_star t r l : atom t r -> l = [] \/ l = b "?" -> piece (t ++ b "*" ++ l) (XStar r)
| pc_plus t r l : atom t r -> l = [] \/ l = b "?" -> piece (t ++ b "+" ++ l) (XSeq r (XStar r))
| pc_opt t r l : atom t r -> l = [] \/ l = b "?" -> piece (t ++ b "?" ++ l) (XAlt r XEmpty)
with sequence : list N -> rx -> Prop :=
| sq_none : sequence [] XEmpty
| sq_piece t r u s : piece t r -> sequence u s -> sequence (t ++ u) (XSeq r s)
with alternatives : list N -> rx -> Prop :=
| al_last t r : sequence t r -> alternatives t r
| al_more t r u s : sequence t r -> alternatives u s -> alternatives (t ++ b "|" ++ u) (XAlt r s).
End Syntax.

(** Literal text: the characters one after the other *)
Fixpoint literal_rx (t : list N) : rx :=
  match t with [] => XEmpty | c :: u => XSeq (XSet (fun d => c = d)) (literal_rx u) end.

Section Patterns.
Context (fold : N -> N -> Prop).
(** [reads p r]: the pattern [p] is read as [r].  A flag at the start; \Q makes the rest literal. *)
Inductive reads : list N -> rx -> Prop :=
| rd_plain t r : alternatives eq t r -> reads t r
| rd_fold t r : alternatives fold t r -> reads (b "(?i)" ++ t) r
| rd_quote t : (forall u v, t <> u ++ b "\E" ++ v) -> reads (b "\Q" ++ t) (literal_rx t).

(** An implementation that treats the pattern [p] as described *)
Definition conforms (O : oracles) (p : list N) : Prop :=
  forall r s, reads p r -> (o_re_match O (encode p) s = true <-> finds r (decode s)).
End Patterns.
