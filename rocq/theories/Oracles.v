(** External behaviour that is not modelled.  Every theorem quantifies over an
    arbitrary value of this record. *)
From Verif Require Import Bytes GoFloat GoTime.

(** Operators of regexp/syntax.Regexp that query_messages.go distinguishes. *)
Inductive re_op := OpLiteral | OpStar | OpQuest | OpAlternate | OpCapture | OpAnyChar | OpAnyCharNotNL | OpOther.

(** regexp/syntax.Regexp: operator and sub-expressions. *)
Inductive re_tree := RT (op : re_op) (sub : list re_tree).

Record oracles := {
  (** regexp/syntax.Parse(pattern, Perl); regexp.Compile succeeds exactly when it does. *)
  o_re_parse : bytes -> option re_tree;
  (** Regexp.MatchString of the compiled pattern. *)
  o_re_match : bytes -> bytes -> bool;
  (** strconv.FormatFloat(f, 'f', -1, 64) *)
  o_fmt_float : f64 -> bytes;
  (** strconv.ParseFloat on texts with x, X or underscore *)
  o_float_other : bytes -> option f64;
  (** strconv.IsPrint on runes >= 128 *)
  o_is_print : N -> bool;
  (** dateparse.ParseAny: the instant recognised, if any *)
  o_dateparse : bytes -> option instant;
  (** unicode.ToLower on runes >= 128 *)
  o_to_lower : N -> N;
  (** golang.org/x/text/search loose pattern: does it occur in the text *)
  o_text_search : bytes -> bytes -> bool;
  (** simple case folding of regexp (?i) for runes >= 128: the canonical representative *)
  o_fold : N -> N;
  (** netip.ParsePrefix rejects leading zeros in the prefix length (newer Go versions) *)
  o_strict_bits : bool
}.
