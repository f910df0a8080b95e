(** What a drawing of a query and well-formed markup are, independently of the program. *)
From Verif Require Import Bytes Oracles Ast.

(** ** Places in a tree: sequences of steps down from the root *)
Inductive step := SLeft | SRight.
Definition child (n : node) (s : step) : option node :=
  match n, s with
  | NNot e, SLeft => Some e
  | NAnd l _, SLeft | NOr l _, SLeft => Some l
  | NAnd _ r, SRight | NOr _ r, SRight => Some r
  | _, _ => None
  end.
Fixpoint sub (n : node) (a : list step) : option node :=
  match a with
  | [] => Some n
  | s :: a => match child n s with Some m => sub m a | None => None end
  end.
Definition place (t : node) (a : list step) : Prop := sub t a <> None.

Fixpoint count_nodes (n : node) : nat :=
  match n with
  | NNot e => S (count_nodes e)
  | NAnd l r | NOr l r => S (count_nodes l + count_nodes r)
  | NExpr _ _ _ _ => 1
  end.

(** ** Markup: elements nest, text contains no markup characters, and [text] is what is displayed *)
Definition plain_byte (c : N) : Prop := c <> 60 /\ c <> 62 /\ c <> 38.
Inductive entity : bytes -> N -> Prop :=
| en_quot : entity (b "&#34;") 34
| en_apos : entity (b "&#39;") 39
| en_amp : entity (b "&amp;") 38
| en_lt : entity (b "&lt;") 60
| en_gt : entity (b "&gt;") 62.
Inductive markup : bytes -> bytes -> Prop :=
| mu_end : markup [] []
| mu_byte c s text : plain_byte c -> markup s text -> markup (c :: s) (c :: text)
| mu_entity e c s text : entity e c -> markup s text -> markup (e ++ s) (c :: text)
| mu_element name attrs inner it s text :
    name <> [] -> Forall (fun c => 65 <= c <= 90) name ->
    (attrs = [] \/ exists r, attrs = 32 :: r) -> Forall plain_byte attrs ->
    markup inner it -> markup s text ->
    markup (b "<" ++ name ++ attrs ++ b ">" ++ inner ++ b "</" ++ name ++ b ">" ++ s) (it ++ text).

(** The word for the kind of a value. *)
Definition kind_word (v : aval) : bytes :=
  match v with
  | AInt _ _ _ => b "integer" | AFloat _ _ _ => b "float" | AStr _ _ => b "string" | ABool _ _ => b "boolean"
  | ARegex _ _ _ => b "regexp" | ANet _ _ _ => b "network" | ATime _ _ _ _ => b "datetime"
  end.
