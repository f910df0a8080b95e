(** Specification: what the web page shows (C92, C93). *)
From Coq Require Export Sorted.
From Verif Require Import Bytes Oracles Ast Visitors QueryMessages MessageSpec.

Section WithOracles.
Context (O : oracles).

(** What the page says about a value: [gives] of the matcher, without the message about
    strings, and for every time compared for equality. *)
Definition web_gives (o : op) (f : list bytes) (v : aval) (k : msg_type) (h : hint) : Prop :=
  match v with
  | AStr _ _ => False
  | ATime _ _ _ _ => o = EQ /\ k = MWarning /\ h = HExactTime
  | _ => gives O o f v k h
  end.
Definition web_messages_for (x : op * list bytes * aval * pos) (ms : list (message hint)) : Prop :=
  let '(o, f, v, np) := x in
  (forall m, In m ms -> m_pos m = (match m_text m with HSimRegex => np | _ => val_pos v end)) /\
  (forall k h, (exists m, In m ms /\ m_type m = k /\ m_text m = h) <-> web_gives o f v k h) /\
  StronglySorted (fun m m' => (rank (m_text m) < rank (m_text m'))%nat) ms.
End WithOracles.

(** The values of a tree with operator, field and position of the comparison. *)
Fixpoint placed_values (t : node) : list (op * list bytes * aval * pos) :=
  match t with
  | NAnd l r | NOr l r => placed_values l ++ placed_values r
  | NNot e => placed_values e
  | NExpr o f vs p => map (fun v => (o, f, v, p)) vs
  end.

(** Equal up to AND and OR, and to the values. *)
Fixpoint alike (t u : node) : Prop :=
  match t, u with
  | (NAnd l r | NOr l r), (NAnd l' r' | NOr l' r') => alike l l' /\ alike r r'
  | NNot e, NNot e' => alike e e'
  | NExpr o f vs p, NExpr o' f' vs' p' => o = o' /\ f = f' /\ length vs = length vs' /\ p = p'
  | _, _ => False
  end.
