(** internal/grammar/parser_gen.go 3025-3042: the list of what was expected, as it is put into
    the error, and 3049-3058 listJoin; the message of the error. *)
From Verif Require Import Bytes PegSyntax Engine.

(** sort.Strings on strings without repetitions: Go compares strings byte by byte *)
Fixpoint insert_str (x : string) (l : list string) : list string :=
  match l with
  | [] => [x]
  | y :: l' => if String.leb x y then x :: l else y :: insert_str x l'
  end.
Definition sort_strings (l : list string) : list string := fold_right insert_str [] l.

(** 3025-3041: a map removes repetitions, the entry for the end of the text is taken out, the
    rest is sorted, and EOF is appended. *)
Definition expected (l : list string) : list string :=
  let set := nodup string_dec l in
  sort_strings (filter (fun w => negb (String.eqb w "!.")) set) ++
  (if existsb (String.eqb "!.") set then ["EOF"%string] else []).

(** 3049-3058 listJoin *)
Definition list_join (l : list string) (sep last_sep : string) : string :=
  match rev l with
  | [] => ""
  | [x] => x
  | x :: before => String.concat sep (rev before) ++ " " ++ last_sep ++ " " ++ x
  end%string.
(** 3042: the text of the error *)
Definition no_match_text (l : list string) : string :=
  ("no match found, expected: " ++ list_join (expected l) ", " "or")%string.
(** aql.peg:36-60 GetParseError: the list is handed on as it is *)
Definition error_expected (k : err_kind) : list string :=
  match k with KNoMatch l => expected l | _ => [] end.
