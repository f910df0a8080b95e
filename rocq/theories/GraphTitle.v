(** How the texts given to graphviz arrive and what becomes of the title of a drawing: aqlgraph/graph.go:74,
    107-120, 176.  The library goccy/go-graphviz and graphviz itself (lib/common/labels.c), which are not on
    disk, are modelled from their published sources. *)
From Verif Require Import Bytes Oracles Ast ParseQuery Graph.

(** C.CString: C reads a text up to the first zero byte. *)
Fixpoint c_string (s : bytes) : bytes :=
  match s with
  | [] => []
  | c :: r => if c =? 0 then [] else c :: c_string r
  end.

(** labels.c strdup_and_subst_obj0 for the label of a graph: \G is its name; other pairs are kept *)
Fixpoint subst_name (name : bytes) (s : bytes) : bytes :=
  match s with
  | [] => []
  | 92 :: 71 :: r => name ++ subst_name name r
  | 92 :: c :: r => 92 :: c :: subst_name name r
  | c :: r => c :: subst_name name r
  end.
(** labels.c make_simple_label: \n, \l, \r and the line end finish a line, any other pair stands for its second
    character; the last line counts if it is not empty.  [line] is the line so far. *)
Fixpoint label_lines (line : bytes) (s : bytes) : list bytes :=
  match s with
  | [] => match line with [] => [] | _ => [line] end
  | 92 :: r =>
    match r with
    | [] => match line with [] => [] | _ => [line] end
    | c :: r' => if (c =? 110) || (c =? 108) || (c =? 114) then line :: label_lines [] r' else label_lines (line ++ [c]) r'
    end
  | c :: r => if c =? 10 then line :: label_lines [] r else label_lines (line ++ [c]) r
  end.
(** graph.go:65, 74: the label of the graph named query is the query.  [entities]: labels.c htmlEntityUTF8, which
    replaces character references. *)
Definition title (entities : bytes -> bytes) (q : bytes) : list bytes :=
  label_lines [] (entities (subst_name (b "query") (c_string q))).
