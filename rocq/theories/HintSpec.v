(** Specification: dropping a leading or trailing .* from the regular expressions of a query. *)
From Verif Require Import Bytes Utf8 Oracles Ast AstSpec Layout RegexSpec.

(** A flag at the start of a pattern and what it makes of characters *)
Inductive flag (fold : N -> N -> Prop) : bytes -> (N -> N -> Prop) -> Prop :=
| fl_none : flag fold [] eq
| fl_fold : flag fold (b "(?i)") fold.

(** [shorter fold p p']: after a flag the pattern [p] begins or ends with .*, and [p'] is [p] without it *)
Definition shorter (fold : N -> N -> Prop) (p p' : list N) : Prop :=
  exists fl same u r, flag fold fl same /\ alternatives same u r /\ p' = fl ++ u /\ (p = fl ++ b ".*" ++ u \/ p = fl ++ u ++ b ".*").

Section Spec.
Context (R : bytes -> bytes -> Prop).
(** Two trees that differ in places and in regular expressions related by [R] *)
Inductive value_up_to : aval -> aval -> Prop :=
| vu_same v w : set_pos no_position v = set_pos no_position w -> value_up_to v w
| vu_regex r r' s s' p p' : R r r' -> value_up_to (ARegex r s p) (ARegex r' s' p').
Inductive tree_up_to : node -> node -> Prop :=
| tu_and l l' r r' : tree_up_to l l' -> tree_up_to r r' -> tree_up_to (NAnd l r) (NAnd l' r')
| tu_or l l' r r' : tree_up_to l l' -> tree_up_to r r' -> tree_up_to (NOr l r) (NOr l' r')
| tu_not e e' : tree_up_to e e' -> tree_up_to (NNot e) (NNot e')
| tu_expr o f vs vs' p p' : Forall2 value_up_to vs vs' -> tree_up_to (NExpr o f vs p) (NExpr o f vs' p').
End Spec.
