(** Specification: the hints and warnings a query gives (C21). *)
From Coq Require Export Sorted.
From Verif Require Import Bytes Oracles Ast AstSpec Visitors QueryMessages.

(** [bare s t]: [t] is [s] without the slashes at both ends. *)
Definition bare (s t : bytes) : Prop :=
  exists k l, s = repeat 47 k ++ t ++ repeat 47 l /\
    (forall u, t <> 47 :: u) /\ (forall u, t <> u ++ [47]).
Definition starts (p s : bytes) : Prop := exists t, s = p ++ t.
Definition ends (p s : bytes) : Prop := exists t, s = t ++ p.

(** A regular expression other than alternatives of plain strings, characters and [*] or [?] of those. *)
Inductive special : re_tree -> Prop :=
| sp_unary o x : o <> OpLiteral -> o <> OpStar -> o <> OpQuest -> special (RT o [x])
| sp_sub o sub x : length sub <> 1%nat -> In x sub -> special x -> special (RT o sub).
Inductive dot_star : re_tree -> Prop :=
| ds_any l : dot_star (RT OpStar [RT OpAnyChar l])
| ds_line l : dot_star (RT OpStar [RT OpAnyCharNotNL l]).
(** The expression inside an outer group, or the expression. *)
Inductive inner : re_tree -> re_tree -> Prop :=
| in_group s : inner (RT OpCapture [s]) s
| in_none r : (forall s, r <> RT OpCapture [s]) -> inner r r.

Section WithOracles.
Context (O : oracles).

(** [gives o f v k h]: in a comparison with operator [o] on the field [f] the value [v] calls
    for the message [h]. *)
Inductive gives (o : op) (f : list bytes) : aval -> msg_type -> hint -> Prop :=
| g_sim_string s p : o = SIM -> gives o f (AStr s p) MWarning HSimString
| g_sim_regex r s p : o = SIM -> gives o f (ARegex r s p) MWarning HSimRegex
| g_fold r s p t c : bare s t -> starts (b "(?i)") t -> In c s -> 128 <= c -> gives o f (ARegex r s p) MWarning (HFoldUnicode s)
| g_dots r s p t u : bare s t -> t = u /\ ~ starts (b "(?i)") t \/ t = b "(?i)" ++ u ->
    starts (b ".*") u \/ ends (b ".*") u -> gives o f (ARegex r s p) MHint (HDotStar s)
| g_group r s p x : o_re_parse O r = Some (RT OpCapture [x]) -> gives o f (ARegex r s p) MHint (HOuterGroup x)
| g_alternation r s p x subs : o_re_parse O r = Some x -> inner x (RT OpAlternate subs) -> ~ special (RT OpAlternate subs) ->
    gives o f (ARegex r s p) MHint (HAlternation (join (b ".") f))
| g_leading r s p x k y z subs : o_re_parse O r = Some x -> inner x (RT k (y :: z :: subs)) -> dot_star y ->
    gives o f (ARegex r s p) MHint HLeadingDotStar
| g_trailing r s p x k y z subs w : o_re_parse O r = Some x -> inner x (RT k (y :: z :: subs ++ [w])) -> dot_star w ->
    gives o f (ARegex r s p) MHint HTrailingDotStar
| g_exact_time t s p : o = EQ -> gives o f (ATime t false s p) MWarning HExactTime.

(** The order of the messages for one value. *)
Definition rank (h : hint) : nat :=
  match h with
  | HSimString | HSimRegex | HExactTime => 0
  | HFoldUnicode _ => 1
  | HDotStar _ => 2
  | HOuterGroup _ => 3
  | HAlternation _ => 4
  | HLeadingDotStar => 5
  | HTrailingDotStar => 6
  end.

(** The messages for one value: all that are called for, each once, in order, at the value. *)
Definition messages_for (x : op * list bytes * aval) (ms : list (message hint)) : Prop :=
  let '(o, f, v) := x in
  (forall m, In m ms -> m_pos m = val_pos v) /\
  (forall k h, (exists m, In m ms /\ m_type m = k /\ m_text m = h) <-> gives o f v k h) /\
  StronglySorted (fun m m' => (rank (m_text m) < rank (m_text m'))%nat) ms.

(** The values of a tree from left to right, with operator and field. *)
Fixpoint tree_values (t : node) : list (op * list bytes * aval) :=
  match t with
  | NAnd l r | NOr l r => tree_values l ++ tree_values r
  | NNot e => tree_values e
  | NExpr o f vs _ => map (fun v => (o, f, v)) vs
  end.
End WithOracles.
