(** parser/validators.go *)
From Verif Require Import Bytes Oracles GoFloat GoTime Ast.

(** What the error messages say: the message with its arguments ([o] is the operation in brackets). *)
Inductive verr :=
| VeNeedsNumeric (o : op)   (** 33, 41 needs numeric arguments *)
| VeNeedsStringy (o : op)   (** 36, 41 needs string, or boolean arguments *)
| VeNoArgs (o : op)         (** 78, 99 does not accept arguments *)
| VeExactly (o : op) (n : N)  (** 82, 99 requires exactly n arguments *)
| VeAtLeast (o : op) (n : N)  (** 90, 99 requires at least n arguments *)
| VeDuplicate (sv : bytes) (i n : Z)    (** 112 duplicate argument [sv] (value i/n) *)
| VeConflictBool (sv : bytes) (i n : Z) (** 122 conflicting boolean value [sv] (value i/n) *)
| VeSecondDatetime          (** 136 second argument must also be a datetime value *)
| VeSecondGreater.          (** 140, 159 requires the second argument be greater *)

Inductive chk :=
| COk
| CErr (k : verr) (p : pos)
| CPanic.

(** The fields of an ast.ExprNode. *)
Record expr_node := { x_op : op; x_field : list bytes; x_vals : list aval; x_pos : pos }.

(** 164-178 mustBeOneOf: the index of the first value of another type, or -1 (None) *)
Fixpoint must_be_one_of (types : list val_type) (values : list aval) : option nat :=
  match values with
  | [] => None
  | v :: vs =>
    if existsb (val_type_eqb (type_of v)) types
    then option_map S (must_be_one_of types vs)
    else Some 0%nat
  end.

(** ErrorWith(e.RVals[i], ...) *)
Definition err_at_val (vs : list aval) (i : nat) (k : verr) : chk :=
  match nth_error vs i with
  | Some v => CErr k (val_pos v)
  | None => CPanic
  end.

(** 28-44 *)
Definition check_values (e : expr_node) : chk :=
  match
    match x_op e with
    | LT | LTE | GT | GTE | BET => Some (VeNeedsNumeric (x_op e), [TyInt; TyFloat; TyTime])
    | SIM => Some (VeNeedsStringy (x_op e), [TyString; TyRegex; TyBool])
    | _ => None
    end
  with
  | None => COk
  | Some (k, types) =>
    match must_be_one_of types (x_vals e) with
    | Some i => err_at_val (x_vals e) i k
    | None => COk
    end
  end.

(** 46-101; the switch on the operation gives (min, max), -1 meaning no maximum *)
Definition arity (o : op) : Z * Z :=
  match o with
  | EXS | NUL => (0, 0)
  | LT | LTE | GT | GTE => (1, 1)
  | BET => (2, 2)
  | EQ | SIM => (1, -1)
  end%Z.

Definition check_arity (e : expr_node) : chk :=
  let n := Z.of_nat (length (x_vals e)) in
  let '(mn, mx) := arity (x_op e) in
  (if (mn =? 0) && (mx =? 0) then
     if 0 <? n then CErr (VeNoArgs (x_op e)) (x_pos e) else COk
   else if mn =? mx then
     if negb (n =? mn) then CErr (VeExactly (x_op e) (Z.to_N mn)) (x_pos e) else COk
   else if mn <? mx then COk   (* 84-87: no operation has such an arity *)
   else if mx =? -1 then
     if (0 <? mn) && (n <? mn) then CErr (VeAtLeast (x_op e) (Z.to_N mn)) (x_pos e) else COk
   else CPanic)%Z.

Section WithOracles.
Context (O : oracles).

(** 104-128; [seen] holds the texts of the values before, [i] is the index, [n] the number of values *)
Fixpoint check_rvals_loop (o : op) (vs : list aval) (seen : list bytes) (i n : Z) : chk :=
  match vs with
  | [] => COk
  | v :: vs' =>
    let sv := val_string O v in
    let found s := existsb (beqb s) seen in
    if found sv then CErr (VeDuplicate sv (i + 1) n) (val_pos v)
    else if op_eqb o EQ &&
            ((beqb sv (b "true") && found (b "false")) || (beqb sv (b "false") && found (b "true")))
    then CErr (VeConflictBool sv (i + 1) n) (val_pos v)
    else check_rvals_loop o vs' (sv :: seen) (i + 1)%Z n
  end.
Definition check_rvals (e : expr_node) : chk :=
  if Nat.leb (length (x_vals e)) 1 then COk
  else check_rvals_loop (x_op e) (x_vals e) [] 0 (Z.of_nat (length (x_vals e))).

(** 145-157: a value of another kind leaves the variable at 0 *)
Definition num_or_zero (v : aval) : f64 :=
  match v with
  | AInt z _ _ => f_of_Z z
  | AFloat f _ _ => f
  | _ => S754_zero false
  end.

(** 130-162 *)
Definition check_between (e : expr_node) : chk :=
  if negb (op_eqb (x_op e) BET) then COk
  else
    match x_vals e with
    | v0 :: v1 :: _ =>
      match v0 with
      | ATime lt _ _ _ =>
        match v1 with
        | ATime rt _ _ _ =>
          if instant_after lt rt || instant_eqb lt rt then CErr VeSecondGreater (val_pos v1) else COk
        | _ => CErr VeSecondDatetime (val_pos v1)
        end
      | _ => if f_le (num_or_zero v1) (num_or_zero v0) then CErr VeSecondGreater (val_pos v1) else COk
      end
    | _ => CPanic
    end.

(** 14-23: the checks in order, the first error wins *)
Definition op_checks (e : expr_node) : chk :=
  match check_values e with
  | COk =>
    match check_arity e with
    | COk =>
      match check_rvals e with
      | COk => check_between e
      | r => r
      end
    | r => r
    end
  | r => r
  end.

(** 11-26 opValidator *)
Definition op_validator (n : node) : chk :=
  match n with
  | NExpr o f vs p => op_checks {| x_op := o; x_field := f; x_vals := vs; x_pos := p |}
  | _ => COk
  end.

End WithOracles.
