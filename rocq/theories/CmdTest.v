(** cmd/aqltest/main.go: the program that matches one document against one query.

    Reading files is a parameter; so are the wording of messages and errors and the capacity that
    Go gives the slice of the query's runes.  Lines written to standard error other than printed
    messages are represented by constructors; log adds a line end where it is missing. *)
From Verif Require Import Bytes Oracles Ast PegSyntax Visitors ParseQuery StrMatch Values Json Matcher QueryMessages Fmtmsg Marshal.

(** node_stats.go:5-10: the tags of MatchStats; empty children are omitted *)
Fixpoint tree_of_stats (s : match_stats) : jtree :=
  match s with
  | MatchStats name checked matched children =>
    TObj ([("node_name", TStr name); ("times_checked", TInt checked); ("times_matched", TInt matched)]%string ++
          match children with [] => [] | _ => [("children"%string, TList (map tree_of_stats children))] end)
  end.

Inductive line :=
| LUsage                       (** 19 *)
| LNoFile (name : bytes)       (** 27, 44: os.ReadFile failed *)
| LText (out : bytes)          (** 36, 48: a printed message *)
| LPrintError (out : bytes)    (** a printed message that ends with PRINT ERROR *)
| LInvalidJson                 (** 53 *)
| LMarshal                     (** 59 *)
| LPanic.                      (** the trace of a panic *)
Record run := { r_out : bytes; r_err : list line; r_status : Z }.

Section WithOracles.
Context (O : oracles) (file : bytes -> option bytes) (cap : Z) (err_text : qerr unit hint -> bytes) (hint_text : hint -> bytes).

(** formatter.go 100-110: how the formatter sees a ParserMessage *)
Definition kind_of (t : msg_type) : kind :=
  match t with MHint => KMsgHint | MWarning => KMsgWarning | MError => KMsgError end.

(** Sprint of the printer made in line 32 *)
Definition sprint (query : bytes) (k : kind) (text : bytes) (p : pos) : line :=
  match terminal (-1) query cap k text p with
  | Printed out => LText out
  | PrintError out => LPrintError out
  end.

Definition fatal (log : list line) : run := {| r_out := []; r_err := log; r_status := 1 |}.
Definition panics (log : list line) : run := {| r_out := []; r_err := log ++ [LPanic]; r_status := 2 |}.

(** 32-62 *)
Definition test_query (query document : bytes) : run :=
  match new_matcher O query with
  | NewErr e => fatal [sprint query KParseError (err_text e) (qerr_pos e)]
  | NewPanic | NewFuel => panics []
  | NewOk m =>
    match file document with
    | None => fatal [LNoFile document]
    | Some input =>
      let log := map (fun x => sprint query (kind_of (m_type x)) (hint_text (m_text x)) (m_pos x)) (mt_messages m) in
      match match_doc O (mt_root m) input with
      | Panic => panics log
      | Ok (None, _) => fatal (log ++ [LInvalidJson])
      | Ok (Some result, m') =>
        let answer := (if result then b "true" else b "false") ++ [10] in
        match marshal_indent (tree_of_stats (stats m')) with
        | None => {| r_out := answer; r_err := log ++ [LMarshal]; r_status := 1 |}
        | Some text => {| r_out := answer ++ text ++ [10]; r_err := log; r_status := 0 |}
        end
      end
    end
  end.

(** 16-30; [args] is os.Args *)
Definition aqltest (args : list bytes) : run :=
  match args with
  | [_; query; document] =>
    if has_suffix (b ".aql") query then
      match file query with
      | None => fatal [LNoFile query]
      | Some text => test_query text document
      end
    else test_query query document
  | _ => fatal [LUsage]
  end.
End WithOracles.
