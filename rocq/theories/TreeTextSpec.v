(** Specification: two trees that differ in no more than the positions in the query, the texts
    of the literals, and whether a number is an integer or the float nearest to it. *)
From Verif Require Import Bytes Utf8 Oracles Ast AstSpec GoFloat NumSpec FloatProofs.
From Coq Require Import Reals.

Definition value_alike (v w : aval) : Prop :=
  match v, w with
  | AInt i _ _, AInt j _ _ => i = j
  | AFloat f _ _, AFloat g _ _ => f = g
  | AStr s _, AStr s' _ => s = s'
  | ABool x _, ABool y _ => x = y
  | ARegex pat _ _, ARegex pat' _ _ => pat = pat'
  | ANet n _ _, ANet n' _ _ => n = n'
  | ATime i d _ _, ATime i' d' _ _ => i = i' /\ d = d'
  | AInt i _ _, AFloat f _ _ | AFloat f _ _, AInt i _ _ => double_value f = nearest (IZR i)
  | _, _ => False
  end.
Inductive alike : node -> node -> Prop :=
| al_and l l' r r' : alike l l' -> alike r r' -> alike (NAnd l r) (NAnd l' r')
| al_or l l' r r' : alike l l' -> alike r r' -> alike (NOr l r) (NOr l' r')
| al_not e e' : alike e e' -> alike (NNot e) (NNot e')
| al_expr o f vs vs' p p' : Forall2 value_alike vs vs' -> alike (NExpr o f vs p) (NExpr o f vs' p').

(** A comparison whose field does not consist of one empty name, and whose regular expressions
    have no slash but at their ends. *)
Definition one_slash (v : aval) : Prop :=
  match v with ARegex _ sv _ => exists body, sv = 47 :: body ++ [47] /\ ~ In 47 body | _ => True end.
Definition plain_tree (t : node) : Prop :=
  forall o f vs p, subnode (NExpr o f vs p) t -> f <> [[]] /\ Forall one_slash vs.
