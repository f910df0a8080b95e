(** The list of errors of the generated parser. *)
From Verif Require Import Bytes Ast PegSyntax Grammar Actions Engine.

(** internal/grammar/parser_gen.go:2589-2599 dedupe: of the errors with the same text the first one is kept.  The text of
    an error (2630-2632) is left open; [seen] are the texts met before. *)
Fixpoint dedupe (text : perr -> bytes) (seen : list bytes) (l : list perr) : list perr :=
  match l with
  | [] => []
  | e :: l' => if existsb (beqb (text e)) seen then dedupe text seen l' else e :: dedupe text (text e :: seen) l'
  end.

(** 2581-2587 err, for the outcome of a run: the list the caller gets *)
Definition told (text : perr -> bytes) (r : presult) : list perr :=
  match r with PErr e es => dedupe text [] (e :: es) | _ => [] end.
(** The list the parser has built up by then, 2577-2579 add *)
Definition recorded (r : presult) : list perr :=
  match r with PErr e es => e :: es | _ => [] end.
