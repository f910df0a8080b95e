(** How deep the groups of an accepted query are nested. *)
From Verif Require Import Bytes Oracles Ast GrammarSpec.

Section Spec.
Context (O : oracles).

(** [nested d l pre t]: the text [t], standing after [pre], is a clause of level [l] (as [derives] in
    GrammarSpec) in which no comparison stands inside more than [d] pairs of parentheses. *)
Inductive nested : nat -> level -> text -> text -> Prop :=
| ns_or d pre a w1 w2 c : ws1 w1 -> ws1 w2 ->
    nested d LAnd pre a -> nested d LOr (pre ++ a ++ w1 ++ tx "OR" ++ w2) c ->
    nested d LOr pre (a ++ w1 ++ tx "OR" ++ w2 ++ c)
| ns_or1 d pre a : nested d LAnd pre a -> nested d LOr pre a
| ns_and d pre a w1 w2 c : ws1 w1 -> ws1 w2 ->
    nested d LNot pre a -> nested d LAnd (pre ++ a ++ w1 ++ tx "AND" ++ w2) c ->
    nested d LAnd pre (a ++ w1 ++ tx "AND" ++ w2 ++ c)
| ns_and1 d pre a : nested d LNot pre a -> nested d LAnd pre a
| ns_not d pre n a : not_op n -> nested d LCmp (pre ++ n) a -> nested d LNot pre (n ++ a)
| ns_not1 d pre a : nested d LCmp pre a -> nested d LNot pre a
| ns_group d pre w1 w2 a : ws w1 -> ws w2 -> nested d LOr (pre ++ tx "(" ++ w1) a ->
    nested (S d) LCmp pre (tx "(" ++ w1 ++ a ++ w2 ++ tx ")")
| ns_single d pre t x : derives O LCmp pre t x -> hd_error t <> Some 40 -> nested d LCmp pre t.

(** A whole query: an OR clause with white space around it. *)
Definition nested_query (d : nat) (t : text) : Prop :=
  exists w1 a w2, t = w1 ++ a ++ w2 /\ ws w1 /\ ws w2 /\ nested d LOr w1 a.
End Spec.
