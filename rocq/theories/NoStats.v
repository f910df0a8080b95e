(** Matchers with and without statistics: the builder takes a flag (jsonmatcher/build_matcher.go 9-25), and the nodes
    look whether they have counters (jsonmatcher/nodes.go).  NewMatcher always passes true (jsonmatcher.go:26);
    Matcher.v is that case. *)
From Verif Require Import Bytes Oracles Ast Json Values Matcher.

(** nodes.go:14-17, 32-35, 50-53, 92-96: the pointer nodeStats may be nil *)
Inductive onode :=
| OAnd (l r : onode) (st : option node_stats)
| OOr (l r : onode) (st : option node_stats)
| ONot (e : onode) (st : option node_stats)
| OExpr (path : list bytes) (exprs : list fexpr) (st : option node_stats).

Section WithOracles.
Context (O : oracles).

(** build_matcher.go:36-40, 47-51, 57-61, 82-86 *)
Definition counters (with_stats : bool) (name : bytes) : option node_stats := if with_stats then Some (new_stats name) else None.

(** build_matcher.go:27-123 build; the default case of 118-122 for other kinds of nodes cannot occur *)
Fixpoint build_with (with_stats : bool) (n : node) : res onode :=
  match n with
  | NAnd l r => bind (build_with with_stats l) (fun x => bind (build_with with_stats r) (fun y => Ok (OAnd x y (counters with_stats (b "AND")))))
  | NOr l r => bind (build_with with_stats l) (fun x => bind (build_with with_stats r) (fun y => Ok (OOr x y (counters with_stats (b "OR")))))
  | NNot e => bind (build_with with_stats e) (fun x => Ok (ONot x (counters with_stats (b "NOT"))))
  | NExpr o f vs _ => bind (build_exprs O o vs) (fun es => Ok (OExpr f es (counters with_stats (friendly_string O o f vs))))
  end.

(** nodes.go:21-23, 39-41, 57-59, 110-112 *)
Definition mark_if (st : option node_stats) (matched : bool) : option node_stats :=
  match st with Some s => Some (mark s matched) | None => None end.

(** nodes.go:19-25, 37-43, 55-61, 98-114 *)
Fixpoint oresult (m : onode) (root : json) : res (bool * onode) :=
  match m with
  | OAnd l r st =>
    bind (oresult l root) (fun x =>
      let '(a, l') := x in
      if a then bind (oresult r root) (fun y => let '(c, r') := y in Ok (c, OAnd l' r' (mark_if st c)))
      else Ok (false, OAnd l' r (mark_if st false)))
  | OOr l r st =>
    bind (oresult l root) (fun x =>
      let '(a, l') := x in
      if a then Ok (true, OOr l' r (mark_if st true))
      else bind (oresult r root) (fun y => let '(c, r') := y in Ok (c, OOr l' r' (mark_if st c))))
  | ONot e st =>
    bind (oresult e root) (fun x => let '(a, e') := x in Ok (negb a, ONot e' (mark_if st (negb a))))
  | OExpr path es st =>
    bind (expr_result O path es root) (fun a => Ok (a, OExpr path es (mark_if st a)))
  end.

(** jsonmatcher.go:37-42 Match *)
Definition omatch (m : onode) (data : bytes) : res (option bool * onode) :=
  match parse_json data with
  | None => Ok (None, m)
  | Some root => bind (oresult m root) (fun x => let '(a, m') := x in Ok (Some a, m'))
  end.

(** nodes.go:27-29, 45-47, 63-65: the connectives call toStatsNode, which reads the name, without looking whether there
    are counters; 116-121: a comparison looks, and returns nil.  [None] stands for nil. *)
Definition ostats (m : onode) : res (option match_stats) :=
  match m with
  | OAnd _ _ (Some st) | OOr _ _ (Some st) | ONot _ (Some st) => Ok (Some (to_stats_node st []))
  | OAnd _ _ None | OOr _ _ None | ONot _ None => Panic
  | OExpr _ _ (Some st) => Ok (Some (to_stats_node st []))
  | OExpr _ _ None => Ok None
  end.
End WithOracles.
