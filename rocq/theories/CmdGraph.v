(** cmd/aqlgraph/main.go: the program that draws a query.  Writing the file is left to graphviz;
    the model says what is written where. *)
From Verif Require Import Bytes Oracles Ast ParseQuery StrMatch Graph.

(** path/filepath.Ext on Unix: from the last dot after the last slash; [s] is reversed *)
Fixpoint ext_rev (s acc : bytes) : bytes :=
  match s with
  | [] => []
  | c :: s' => if c =? 47 then [] else if c =? 46 then c :: acc else ext_rev s' (c :: acc)
  end.
Definition ext (name : bytes) : bytes := ext_rev (rev name) [].

Inductive graph_run :=
| GUsage                                              (** 15 *)
| GRejected                                           (** 26: the error of QueryGraph *)
| GUnknown (e : bytes)                                (** 35 *)
| GWrite (svg : bool) (name : bytes) (g : namegraph). (** 31, 33 *)

Section WithOracles.
Context (O : oracles).

(** 12-41; [args] is os.Args *)
Definition aqlgraph (args : list bytes) : graph_run :=
  match args with
  | _ :: query :: more =>
    let '(name, e) := match more with
                      | [] => (b "query_graph.svg", b ".svg")
                      | n :: _ => (n, to_lower O (ext n))
                      end in
    match query_graph O query with
    | None => GRejected
    | Some g =>
      if beqb e (b ".svg") then GWrite true name g
      else if beqb e (b ".dot") then GWrite false name g
      else GUnknown e
    end
  | _ => GUsage
  end.
End WithOracles.
