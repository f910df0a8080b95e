(** Specification: which comparison and which value of a query tree the operator checks blame,
    and for what.  Written without reference to the checks of parser/validators.go. *)
From Verif Require Import Bytes Oracles GoFloat GoTime Ast AstSpec Validators.

(** The comparisons of a tree in reading order. *)
Fixpoint comparisons (t : node) : list (op * list aval * pos) :=
  match t with
  | NAnd l r | NOr l r => comparisons l ++ comparisons r
  | NNot e => comparisons e
  | NExpr o _ vs p => [(o, vs, p)]
  end.

Definition ordering (o : op) : Prop := o = LT \/ o = LTE \/ o = GT \/ o = GTE.
Definition is_time (v : aval) : Prop := exists t d s p, v = ATime t d s p.

Section WithOracles.
Context (O : oracles).

(** Nothing to object to (C16-C18). *)
Definition faultless (c : op * list aval * pos) : Prop :=
  let '(o, vs, _) := c in
  args_ok o vs /\ distinct_ok O o vs /\ (o = BET -> exists v w, vs = [v; w] /\ range_ok v w).

Definition printed (vs : list aval) : list bytes := map (val_string O) vs.
Definition opposite (x y : bytes) : Prop := (x = b "true" /\ y = b "false") \/ (x = b "false" /\ y = b "true").

(** [blamed (o, vs, p) k q]: the comparison at [p] is refused with message [k] about the place [q]. *)
Inductive blamed : op * list aval * pos -> verr -> pos -> Prop :=
| bl_numeric o us v ws p : ordering o \/ o = BET -> Forall orderable us -> ~ orderable v ->
    blamed (o, us ++ v :: ws, p) (VeNeedsNumeric o) (val_pos v)
| bl_stringy us v ws p : Forall simable us -> ~ simable v ->
    blamed (SIM, us ++ v :: ws, p) (VeNeedsStringy SIM) (val_pos v)
| bl_one o vs p : ordering o -> Forall orderable vs -> length vs <> 1%nat ->
    blamed (o, vs, p) (VeExactly o 1) p
| bl_two vs p : Forall orderable vs -> length vs <> 2%nat ->
    blamed (BET, vs, p) (VeExactly BET 2) p
| bl_duplicate o us v ws p : args_ok o (us ++ v :: ws) -> distinct_ok O o us ->
    In (val_string O v) (printed us) ->
    blamed (o, us ++ v :: ws, p) (VeDuplicate (val_string O v) (Z.of_nat (S (length us))) (Z.of_nat (length (us ++ v :: ws)))) (val_pos v)
| bl_conflict us v ws p x : distinct_ok O EQ us -> ~ In (val_string O v) (printed us) ->
    In x (printed us) -> opposite (val_string O v) x ->
    blamed (EQ, us ++ v :: ws, p) (VeConflictBool (val_string O v) (Z.of_nat (S (length us))) (Z.of_nat (length (us ++ v :: ws)))) (val_pos v)
| bl_datetime v w p : is_time v -> orderable w -> ~ is_time w -> distinct_ok O BET [v; w] ->
    blamed (BET, [v; w], p) VeSecondDatetime (val_pos w)
| bl_greater v w p : orderable v -> orderable w -> (is_time v -> is_time w) -> distinct_ok O BET [v; w] ->
    ~ range_ok v w -> blamed (BET, [v; w], p) VeSecondGreater (val_pos w).
End WithOracles.
