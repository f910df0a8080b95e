(** The drawing of a query as a graph: aqlgraph/graph.go and aqlgraph/node_html.go.  The graphviz library is represented by
    the list of nodes and the list of edges created, in order of creation.  Colours, shapes, fonts
    and the label of the whole graph (the query text) are left out; so is rendering. *)
From Verif Require Import Bytes GoItoa Oracles Ast ParseQuery.


(** What is created with CreateNode and CreateEdge. *)
Record gnode := { gn_name : bytes; gn_label : bytes }.
Record gedge := { ge_name : bytes; ge_from : bytes; ge_to : bytes; ge_wide : bool }.
(** namegraph (graph.go:27-30); the counter of namer (49-57) is unbounded *)
Record namegraph := { ng_next : N; ng_nodes : list gnode; ng_edges : list gedge }.

(** namegraph.NewNode followed by SetLabel (graph.go:32-38, 103-163) *)
Definition new_node (label : bytes) (g : namegraph) : bytes * namegraph :=
  let name := itoa (ng_next g) in
  (name, {| ng_next := ng_next g + 1; ng_nodes := ng_nodes g ++ [{| gn_name := name; gn_label := label |}]; ng_edges := ng_edges g |}).
(** namegraph.NewEdge followed by SetPenWidth(3) if [wide] (graph.go:40-46) *)
Definition new_edge (wide : bool) (from to : bytes) (g : namegraph) : namegraph :=
  {| ng_next := ng_next g + 1; ng_nodes := ng_nodes g;
     ng_edges := ng_edges g ++ [{| ge_name := itoa (ng_next g); ge_from := from; ge_to := to; ge_wide := wide |}] |}.

Section WithOracles.
Context (O : oracles).

(** text/template's html function (template.HTMLEscapeString), used in node_html.go:49-50 *)
Fixpoint html_escape (s : bytes) : bytes :=
  match s with
  | [] => []
  | 34 :: r => b "&#34;" ++ html_escape r
  | 39 :: r => b "&#39;" ++ html_escape r
  | 38 :: r => b "&amp;" ++ html_escape r
  | 60 :: r => b "&lt;" ++ html_escape r
  | 62 :: r => b "&gt;" ++ html_escape r
  | 0 :: r => [239; 191; 189] ++ html_escape r
  | c :: r => c :: html_escape r
  end.

(** graph.go:133-158, colours from node_html.go:13-19 *)
Definition val_type (v : aval) : bytes :=
  match v with
  | AFloat _ _ _ => b "float" | AInt _ _ _ => b "integer" | AStr _ _ => b "string" | ANet _ _ _ => b "network"
  | ABool _ _ => b "boolean" | ARegex _ _ _ => b "regexp" | ATime _ _ _ _ => b "datetime"
  end.
Definition val_color (v : aval) : bytes :=
  match v with
  | AFloat _ _ _ => b "#24b581" | AInt _ _ _ => b "#007a55" | AStr _ _ => b "#cccccc" | ANet _ _ _ => b "#d8c732"
  | ABool _ _ => b "#ffffff" | ARegex _ _ _ => b "#ca074c" | ATime _ _ _ _ => b "#f48544"
  end.

(** The label of a comparison: labelTmpl (node_html.go:41-64) applied to the htmlNode of
    graph.go:126-166 *)
Definition value_row (v : aval) : bytes :=
  b "
<TR>
	<TD BORDER=""1"" BGCOLOR=""" ++ val_color v ++ b """><I>" ++ val_type v ++ b "</I></TD>
	<TD BORDER=""1"" BGCOLOR=""#FFFFFF"">" ++ val_string O v ++ b "</TD>
</TR>".
Definition expr_label (o : op) (f : list bytes) (vs : list aval) : bytes :=
  b "<TABLE BORDER=""0"" CELLBORDER=""1"" CELLSPACING=""0"" CELLPADDING=""2"">
<TR>
	<TD COLSPAN=""2"" CELLPADDING=""8"">" ++ join (b ".") f ++ b "</TD>
</TR>
<TR>
	<TD CELLPADDING=""0"" BORDER=""1"">" ++ html_escape (b "op") ++ b "</TD>
	<TD CELLPADDING=""0"" BORDER=""1"">" ++ html_escape (op_text o) ++ b "</TD>
</TR>" ++
  match vs with
  | [] => []
  | _ => b "
<TR>
	<TD COLSPAN=""2"">Values</TD>
</TR>" ++ concat (map value_row vs)
  end ++ b "
</TABLE>
".

(** graph.go:112-170 *)
Definition node_label (n : node) : bytes :=
  match n with
  | NNot _ => b "NOT"
  | NAnd _ _ => b "AND"
  | NOr _ _ => b "OR"
  | NExpr o f vs _ => expr_label o f vs
  end.

(** visitNodes (graph.go:103-189) *)
Fixpoint visit_nodes (n : node) (g : namegraph) : bytes * namegraph :=
  let '(me, g) := new_node (node_label n) g in
  match n with
  | NNot e =>
    let '(l, g) := visit_nodes e g in
    (me, new_edge true me l g)
  | NAnd l r | NOr l r =>
    let '(ln, g) := visit_nodes l g in
    let g := new_edge true me ln g in
    let '(rn, g) := visit_nodes r g in
    (me, new_edge false me rn g)
  | NExpr _ _ _ _ => (me, g)
  end.

(** QueryGraph (graph.go:59-101) after the query was parsed; the start node has no label of its own. *)
Definition graph_of (n : node) : namegraph :=
  let '(root, g) := visit_nodes n {| ng_next := 0; ng_nodes := [{| gn_name := b "start"; gn_label := [] |}]; ng_edges := [] |} in
  new_edge true (b "start") root g.
Definition query_graph (q : bytes) : option namegraph :=
  match parse_plain O q with
  | QOk n => Some (graph_of n)
  | _ => None
  end.

End WithOracles.
