(** Specifications about query trees, independent of the validator and visitor code. *)
From Verif Require Import Bytes Oracles GoFloat GoTime Ast Visitors.

(** [subnode x t]: [x] is a node of the tree [t] (C16-C18). *)
Inductive subnode : node -> node -> Prop :=
| sub_refl t : subnode t t
| sub_and_l x l r : subnode x l -> subnode x (NAnd l r)
| sub_and_r x l r : subnode x r -> subnode x (NAnd l r)
| sub_or_l x l r : subnode x l -> subnode x (NOr l r)
| sub_or_r x l r : subnode x r -> subnode x (NOr l r)
| sub_not x e : subnode x e -> subnode x (NNot e).

(** Values that have an order: integers, floats, timestamps. *)
Inductive orderable : aval -> Prop :=
| ord_int z s p : orderable (AInt z s p)
| ord_float f s p : orderable (AFloat f s p)
| ord_time t d s p : orderable (ATime t d s p).

(** Values the similarity operator accepts. *)
Inductive simable : aval -> Prop :=
| sim_str s p : simable (AStr s p)
| sim_regex r s p : simable (ARegex r s p)
| sim_bool v p : simable (ABool v p).

(** Number and kinds of arguments of each operator (C16). *)
Definition args_ok (o : op) (vs : list aval) : Prop :=
  match o with
  | LT | LTE | GT | GTE => exists v, vs = [v] /\ orderable v
  | BET => exists v w, vs = [v; w] /\ orderable v /\ orderable w
  | SIM => vs <> [] /\ forall v, In v vs -> simable v
  | EQ => vs <> []
  | EXS | NUL => vs = []
  end.

(** No two values of the list print alike, and an equality list does not hold both
    booleans (C17). *)
Definition distinct_ok (O : oracles) (o : op) (vs : list aval) : Prop :=
  (forall i j v w, nth_error vs i = Some v -> nth_error vs j = Some w ->
     val_string O v = val_string O w -> i = j) /\
  (o = EQ -> (exists v, In v vs /\ val_string O v = b "true") ->
             (exists v, In v vs /\ val_string O v = b "false") -> False).

(** The number a numeric literal denotes, as a float64. *)
Inductive denotes_num : aval -> f64 -> Prop :=
| den_int z s p : denotes_num (AInt z s p) (f_of_Z z)
| den_float f s p : denotes_num (AFloat f s p) f.

(** Lower end strictly below upper end (C18): the comparison [f_le y x] of the upper with the
    lower end is false for numbers; timestamps are compared as exact instants. *)
Inductive range_ok : aval -> aval -> Prop :=
| range_num v w x y : denotes_num v x -> denotes_num w y -> f_le y x = false -> range_ok v w
| range_time t d s p t' d' s' p' :
    (i_sec t < i_sec t' \/ i_sec t = i_sec t' /\ i_nsec t < i_nsec t')%Z ->
    range_ok (ATime t d s p) (ATime t' d' s' p')
| range_mixed v x t d s p :                      (* see C18_mixed_range_refuted *)
    denotes_num v x -> f_le (S754_zero false) x = false -> range_ok v (ATime t d s p).

(** All operator checks, for every comparison of a tree. *)
Definition checked (O : oracles) (t : node) : Prop :=
  forall o f vs p, subnode (NExpr o f vs p) t ->
    args_ok o vs /\ distinct_ok O o vs /\ (o = BET -> exists v w, vs = [v; w] /\ range_ok v w).

(** Pre-order listing of a tree (C19). *)
Fixpoint preorder (t : node) : list node :=
  t :: match t with
       | NAnd l r | NOr l r => preorder l ++ preorder r
       | NNot e => preorder e
       | NExpr _ _ _ _ => []
       end.

Section Visits.
Context {S E T : Type} (call : node -> S -> verdict E T * S).

(** What a visitor does on a list of pending nodes in pre-order: Skip drops the rest of
    the subtree of the node, SkipAll ends without error, any other error ends with it. *)
Inductive visits : list node -> S -> option (verdict E T) -> list node -> S -> Prop :=
| vs_done s : visits [] s None [] s
| vs_next n l s s1 r log s2 :
    call n s = (VNone, s1) -> visits l s1 r log s2 -> visits (n :: l) s r (n :: log) s2
| vs_skip n l s s1 r log s2 :
    call n s = (VSkip, s1) ->
    visits (skipn (length (preorder n) - 1) l) s1 r log s2 -> visits (n :: l) s r (n :: log) s2
| vs_skip_all n l s s1 : call n s = (VSkipAll, s1) -> visits (n :: l) s None [n] s1
| vs_err n l s s1 e : call n s = (e, s1) -> e <> VNone -> e <> VSkip -> e <> VSkipAll ->
    visits (n :: l) s (Some e) [n] s1.
End Visits.

(** A list of visitors, each with its tape, run one after the other on a tree (C19):
    the first error ends everything.  [logs] lists the nodes each visitor was called on. *)
Inductive runs {W E T : Type} : list (visitor W E T * tape T) -> node -> W ->
    option (verdict E T) -> W -> list (tape T) -> list (list node) -> Prop :=
| runs_nil root w : runs [] root w None w [] []
| runs_stop v t vs root w e log w' t' :
    visits (visit v) (preorder root) (w, t) (Some e) log (w', t') ->
    runs ((v, t) :: vs) root w (Some e) w' (t' :: map snd vs) [log]
| runs_next v t vs root w log w' t' r w'' ts logs :
    visits (visit v) (preorder root) (w, t) None log (w', t') ->
    runs vs root w' r w'' ts logs ->
    runs ((v, t) :: vs) root w r w'' (t' :: ts) (log :: logs).
