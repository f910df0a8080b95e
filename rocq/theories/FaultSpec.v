(** Specification: what an error about a value says, and what it marks.  The query is split
    into the code points before the value, its own, and those that follow up to the end or
    the first byte that is not UTF-8. *)
From Verif Require Import Bytes Utf8 Oracles Ast PegSyntax GrammarSpec ShapeSpec.

(** Bytes that start with one that no code point's encoding starts with *)
Definition broken (s : bytes) : Prop := s <> [] /\ forall c r, is_scalar c = true -> s <> encode_rune c ++ r.

Section Spec.
Context (O : oracles).

(** A text without a value *)
Definition worthless (t : text) : Prop := forall p v, ~ literal O t p v.

(** A regular expression with every escaped slash written as a slash *)
Inductive unslashed : text -> text -> Prop :=
| us_nil : unslashed [] []
| us_slash t u : unslashed t u -> unslashed (tx "\/" ++ t) (tx "/" ++ u)
| us_char c t u : (c = 92 -> forall z, t <> tx "/" ++ z) -> unslashed t u -> unslashed (c :: t) (c :: u).

(** [fault before own rest k p]: an error of kind [k] placed at [p] is right about [own]. *)
Inductive fault (before own rest : text) : err_kind -> pos -> Prop :=
| ft_string n : quoted own -> worthless own -> fault before own rest (KBadString n) (pos_of before own)
| ft_regex n u : regex_lit own -> worthless own -> unslashed own u -> fault before own rest (KBadRegex n (encode u)) (pos_of before own)
| ft_float n : float_lit own -> worthless own -> fault before own rest (KBadFloat n (encode own)) (pos_of before own)
(** without a prefix length the whole address is meant, and it is shown with that length *)
| ft_net n u : ip_lit own -> worthless own -> (In 47 own /\ u = own \/ ~ In 47 own /\ u = own ++ tx "/32") ->
    fault before own rest (KBadNet n (encode u)) (pos_of before own)
| ft_time n : timestamp_lit own -> worthless own -> fault before own rest (KBadTime n (encode own)) (pos_of before own)
(** an integer out of range: its first character only is marked *)
| ft_int : int_lit own -> worthless own -> fault before own rest (KBadInt (encode own)) (pos_of before (firstn 1 own))
(** a word that is not a value, up to the next white space: its first character is marked *)
| ft_unknown x w : own = x :: w -> x <> 41 -> Forall (fun c => ~ ws_char c) own ->
    match rest with c :: _ => ws_char c | [] => True end ->
    (forall t u, own ++ rest = t ++ u -> ~ value_form t) ->
    fault before own rest (KUnknownValue (encode own)) (pos_of before [x])
(** a value is missing before a closing parenthesis *)
| ft_close : own = tx ")" -> fault before own rest KCloseParen (pos_of before own)
(** one value in parentheses: the opening parenthesis is marked *)
| ft_single w1 t w2 v : own = tx "(" ++ w1 ++ t ++ w2 ++ tx ")" -> ws w1 -> ws w2 ->
    literal O t (pos_of (before ++ tx "(" ++ w1) t) v ->
    fault before own rest KParenSingle (pos_of before (tx "("))
(** a string or regular expression that is never closed: the place where it breaks off *)
| ft_untermstr body p : own = tx """" ++ body -> quoted_body body ->
    (forall t z, own ++ rest = t ++ z -> ~ quoted t) ->
    (forall more z, rest = more ++ z -> quoted_body (body ++ more) -> more = []) ->
    p_off p = Z.of_nat (length (encode (before ++ own))) -> p_len p = 1%Z -> fault before own rest KUntermStr p
| ft_untermregex body p : own = tx "/" ++ body -> regex_body body ->
    (forall t z, own ++ rest = t ++ z -> ~ regex_lit t) ->
    (forall more z, rest = more ++ z -> regex_body (body ++ more) -> more = []) ->
    p_off p = Z.of_nat (length (encode (before ++ own))) -> p_len p = 1%Z -> fault before own rest KUntermRegex p.
End Spec.
