(** Specification: the tokens of a query and the ways to lay them out (C05), and rendering of a
    tree with as few parentheses as precedence allows (C04). *)
From Verif Require Import Bytes Utf8 Oracles Ast AstSpec GrammarSpec.

(** Trees without source positions. *)
Definition set_pos (p : pos) (v : aval) : aval :=
  match v with
  | AInt z s _ => AInt z s p
  | AFloat f s _ => AFloat f s p
  | AStr s _ => AStr s p
  | ABool x _ => ABool x p
  | ARegex r s _ => ARegex r s p
  | ANet n s _ => ANet n s p
  | ATime t d s _ => ATime t d s p
  end.
Fixpoint strip (n : node) : node :=
  match n with
  | NAnd x y => NAnd (strip x) (strip y)
  | NOr x y => NOr (strip x) (strip y)
  | NNot x => NNot (strip x)
  | NExpr o f vs _ => NExpr o f (map (set_pos no_position) vs) no_position
  end.

(** Tokens of a query, grouped as the grammar groups them. *)
Inductive tokens :=
| TOr (l r : tokens)
| TAnd (l r : tokens)
| TNot (word : bool) (e : tokens)          (* NOT or ! *)
| TParen (e : tokens)
| TNoArg (f k : text)                      (* field, operator *)
| TOne (f k v : text)                      (* field, operator, literal *)
| TMany (f k v : text) (vs : list text).   (* field, operator, literals *)

(** Further literals, each after a comma. *)
Inductive commas : list text -> text -> Prop :=
| cm_nil : commas [] []
| cm_cons w1 w2 v vs t : ws w1 -> ws w2 -> commas vs t -> commas (v :: vs) (w1 ++ tx "," ++ w2 ++ v ++ t).

(** [layout k t]: the text [t] shows the tokens [k] with some white space between them. *)
Inductive layout : tokens -> text -> Prop :=
| lay_or l r a w1 w2 c : ws1 w1 -> ws1 w2 -> layout l a -> layout r c -> layout (TOr l r) (a ++ w1 ++ tx "OR" ++ w2 ++ c)
| lay_and l r a w1 w2 c : ws1 w1 -> ws1 w2 -> layout l a -> layout r c -> layout (TAnd l r) (a ++ w1 ++ tx "AND" ++ w2 ++ c)
| lay_not e a w : ws1 w -> layout e a -> layout (TNot true e) ((tx "NOT" ++ w) ++ a)
| lay_bang e a w : ws w -> layout e a -> layout (TNot false e) ((tx "!" ++ w) ++ a)
| lay_paren e a w1 w2 : ws w1 -> ws w2 -> layout e a -> layout (TParen e) (tx "(" ++ w1 ++ a ++ w2 ++ tx ")")
| lay_noarg f k w1 w2 : ws w1 -> ws w2 -> layout (TNoArg f k) (f ++ w1 ++ tx ":" ++ w2 ++ k)
| lay_one f k v w1 w2 w3 : ws w1 -> ws w2 -> ws w3 -> layout (TOne f k v) (f ++ w1 ++ tx ":" ++ w2 ++ k ++ w3 ++ v)
| lay_many f k v vs w1 w2 w3 w4 w5 u : ws w1 -> ws w2 -> ws w3 -> ws w4 -> ws w5 -> commas vs u -> vs <> [] ->
    layout (TMany f k v vs) (f ++ w1 ++ tx ":" ++ w2 ++ k ++ w3 ++ tx "(" ++ w4 ++ v ++ u ++ w5 ++ tx ")").
Definition layout_query (k : tokens) (t : text) : Prop :=
  exists w1 a w2, t = w1 ++ a ++ w2 /\ ws w1 /\ ws w2 /\ layout k a.

(** The tokens are well formed and make up a tree. *)
Inductive tokens_tree (O : oracles) : level -> tokens -> node -> Prop :=
| tt_or l r x y : tokens_tree O LAnd l x -> tokens_tree O LOr r y -> tokens_tree O LOr (TOr l r) (NOr x y)
| tt_or1 k x : tokens_tree O LAnd k x -> tokens_tree O LOr k x
| tt_and l r x y : tokens_tree O LNot l x -> tokens_tree O LAnd r y -> tokens_tree O LAnd (TAnd l r) (NAnd x y)
| tt_and1 k x : tokens_tree O LNot k x -> tokens_tree O LAnd k x
| tt_not w k x : tokens_tree O LCmp k x -> tokens_tree O LNot (TNot w k) (NNot x)
| tt_not1 k x : tokens_tree O LCmp k x -> tokens_tree O LNot k x
| tt_paren k x : tokens_tree O LOr k x -> tokens_tree O LCmp (TParen k) x
| tt_noarg f l k o : field f l -> noarg_op k o -> tokens_tree O LCmp (TNoArg f k) (NExpr o l [] no_position)
| tt_one f l k o t v : field f l -> comp_op k o -> literal O t no_position v ->
    tokens_tree O LCmp (TOne f k t) (NExpr o l [v] no_position)
| tt_many f l k o t v ts vs : field f l -> comp_op k o -> literal O t no_position v ->
    Forall2 (fun t v => literal O t no_position v) ts vs ->
    tokens_tree O LCmp (TMany f k t ts) (NExpr o l (v :: vs) no_position).

(** ** Rendering *)
Section Render.
Context (spell_field : list bytes -> text) (spell : aval -> text).

Definition paren (yes : bool) (t : text) : text := if yes then tx "(" ++ t ++ tx ")" else t.
Fixpoint commas_text (vs : list aval) : text :=
  match vs with
  | [] => []
  | v :: r => tx ", " ++ spell v ++ commas_text r
  end.
Definition render_op (o : op) : text :=
  match o with
  | EQ => [] | LT => tx "<" | LTE => tx "<=" | GT => tx ">" | GTE => tx ">=" | BET => tx "><" | SIM => tx "~"
  | EXS => tx "exists" | NUL => tx "null"
  end.
(** [render l n]: the text of [n] where a clause of level [l] is expected. *)
Fixpoint render (l : level) (n : node) : text :=
  match n with
  | NOr x y => paren (match l with LOr => false | _ => true end) (render LAnd x ++ tx " OR " ++ render LOr y)
  | NAnd x y => paren (match l with LOr | LAnd => false | _ => true end) (render LNot x ++ tx " AND " ++ render LAnd y)
  | NNot x => paren (match l with LCmp => true | _ => false end) (tx "NOT " ++ render LCmp x)
  | NExpr o f vs _ =>
    spell_field f ++ tx ":" ++ render_op o ++
    match vs with
    | [] => []
    | [v] => spell v
    | v :: r => tx "(" ++ spell v ++ commas_text r ++ tx ")"
    end
  end.
End Render.
