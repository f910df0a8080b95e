(** Specification: the texts that have the outward form of a query.  Literals are taken by
    their form only (whether their value can be converted is not asked), one value in
    parentheses is allowed, and so are fields made of stars only.  Compare GrammarSpec, which
    adds the tree, the conversions and the number of values. *)
From Verif Require Import Bytes GrammarSpec.

Definition value_form (t : text) : Prop :=
  quoted t \/ regex_lit t \/ timestamp_lit t \/ ip_lit t \/ float_lit t \/ int_lit t \/ t = tx "true" \/ t = tx "false".
Definition piece_form (t : text) : Prop :=
  quoted t \/ (Forall name_char t /\ t <> []) \/ t = tx "*".
Inductive field_form : text -> Prop :=
| ff_one t : piece_form t -> field_form t
| ff_more t u : piece_form t -> field_form u -> field_form (t ++ tx "." ++ u).
Inductive more_form : text -> Prop :=
| mf_none : more_form []
| mf_more w1 w2 t u : ws w1 -> ws w2 -> value_form t -> more_form u -> more_form (w1 ++ tx "," ++ w2 ++ t ++ u).
Inductive values_form : text -> Prop :=
| vf_one t : value_form t -> values_form t
| vf_list w1 t u w2 : ws w1 -> ws w2 -> value_form t -> more_form u ->
    values_form (tx "(" ++ w1 ++ t ++ u ++ w2 ++ tx ")").
Definition comparator (t : text) : Prop :=
  t = [] \/ t = tx "><" \/ t = tx "~" \/ t = tx "<" \/ t = tx "<=" \/ t = tx ">" \/ t = tx ">=".

Inductive clause_form : level -> text -> Prop :=
| cf_or a w1 w2 c : ws1 w1 -> ws1 w2 -> clause_form LAnd a -> clause_form LOr c ->
    clause_form LOr (a ++ w1 ++ tx "OR" ++ w2 ++ c)
| cf_or1 a : clause_form LAnd a -> clause_form LOr a
| cf_and a w1 w2 c : ws1 w1 -> ws1 w2 -> clause_form LNot a -> clause_form LAnd c ->
    clause_form LAnd (a ++ w1 ++ tx "AND" ++ w2 ++ c)
| cf_and1 a : clause_form LNot a -> clause_form LAnd a
| cf_not n a : not_op n -> clause_form LCmp a -> clause_form LNot (n ++ a)
| cf_not1 a : clause_form LCmp a -> clause_form LNot a
| cf_paren w1 w2 a : ws w1 -> ws w2 -> clause_form LOr a ->
    clause_form LCmp (tx "(" ++ w1 ++ a ++ w2 ++ tx ")")
| cf_noarg f w1 w2 k : field_form f -> ws w1 -> ws w2 -> k = tx "exists" \/ k = tx "null" ->
    clause_form LCmp (f ++ w1 ++ tx ":" ++ w2 ++ k)
| cf_values f w1 w2 k w3 v : field_form f -> ws w1 -> ws w2 -> comparator k -> ws w3 -> values_form v ->
    clause_form LCmp (f ++ w1 ++ tx ":" ++ w2 ++ k ++ w3 ++ v).
Definition query_form (t : text) : Prop :=
  exists w1 a w2, t = w1 ++ a ++ w2 /\ ws w1 /\ ws w2 /\ clause_form LOr a.
