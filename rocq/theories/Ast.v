(** parser/ast/ast.go: values, nodes, positions and their constructors. *)
From Verif Require Import Bytes Utf8 GoStrconv GoFloat GoTime GoNet Oracles.

(** ast.go:14-26 *)
Inductive op := EQ | LT | LTE | GT | GTE | BET | SIM | EXS | NUL.

Definition op_eqb (x y : op) : bool :=
  match x, y with
  | EQ, EQ | LT, LT | LTE, LTE | GT, GT | GTE, GTE | BET, BET | SIM, SIM | EXS, EXS | NUL, NUL => true
  | _, _ => false
  end.

Definition op_text (o : op) : bytes :=
  match o with
  | EQ => b "==" | LT => b "<" | LTE => b "<=" | GT => b ">" | GTE => b ">="
  | BET => b "><" | SIM => b "~" | EXS => b "exists" | NUL => b "null"
  end.

(** ast.go:135-145 (Pos): 1-based line and column, byte offset, length in runes *)
Record pos := { p_line : Z; p_col : Z; p_off : Z; p_len : Z }.

(** ast.go:169-174 *)
Definition no_position : pos := {| p_line := 0; p_col := 0; p_off := -1; p_len := 0 |}.

(** ast.go:147-157 (Pos.Start) *)
Definition pos_start (p : pos) : pos :=
  if ((p_line p =? 0) || (p_col p =? 0) || (p_off p =? -1))%Z then p
  else {| p_line := p_line p; p_col := p_col p; p_off := p_off p; p_len := 1 |}.

(** ast.go:159-161 (Pos.IsZero) *)
Definition pos_is_zero (p : pos) : bool :=
  ((p_line p =? 0) && (p_col p =? 0) && (p_off p =? -1) && (p_len p =? 0))%Z.

(** ast.go:194-472: the seven value types.  [sv] fields hold what String() returns,
    except for strings, whose String() is computed by [val_string]. *)
Inductive aval :=
| AInt (iv : Z) (sv : bytes) (p : pos)
| AFloat (fv : f64) (sv : bytes) (p : pos)
| AStr (sv : bytes) (p : pos)
| ABool (bv : bool) (p : pos)
| ARegex (pat : bytes) (sv : bytes) (p : pos)     (** pat: the compiled source *)
| ANet (nv : prefix) (sv : bytes) (p : pos)
| ATime (tv : instant) (day_only : bool) (sv : bytes) (p : pos).

(** ast.go:176-186 *)
Inductive val_type := TyInt | TyFloat | TyString | TyBool | TyRegex | TyNet | TyTime.

Definition type_of (v : aval) : val_type :=
  match v with
  | AInt _ _ _ => TyInt | AFloat _ _ _ => TyFloat | AStr _ _ => TyString | ABool _ _ => TyBool
  | ARegex _ _ _ => TyRegex | ANet _ _ _ => TyNet | ATime _ _ _ _ => TyTime
  end.

Definition val_type_eqb (x y : val_type) : bool :=
  match x, y with
  | TyInt, TyInt | TyFloat, TyFloat | TyString, TyString | TyBool, TyBool
  | TyRegex, TyRegex | TyNet, TyNet | TyTime, TyTime => true
  | _, _ => false
  end.

Definition val_pos (v : aval) : pos :=
  match v with
  | AInt _ _ p | AFloat _ _ p | AStr _ p | ABool _ p | ARegex _ _ p | ANet _ _ p | ATime _ _ _ p => p
  end.

(** ast.go:34-79.  SubdocNode (64-72) is never produced by the grammar and is omitted. *)
Inductive node :=
| NAnd (l r : node)
| NOr (l r : node)
| NNot (e : node)
| NExpr (o : op) (field : list bytes) (rvals : list aval) (p : pos).

Section WithOracles.
Context (O : oracles).

(** Val.String(): ast.go:213, 248, 279, 318, 353, 399, 454 *)
Definition val_string (v : aval) : bytes :=
  match v with
  | AInt _ sv _ => sv
  | AFloat _ sv _ => sv
  | AStr sv _ => quote (o_is_print O) sv
  | ABool true _ => b "true"
  | ABool false _ => b "false"
  | ARegex _ sv _ => sv
  | ANet _ sv _ => sv
  | ATime _ _ sv _ => sv
  end.

(** ast.go:200-211 *)
Definition new_int_val (t : bytes) (p : pos) : option aval :=
  do iv <- parse_int t;; Some (AInt iv t p).

(** ast.go:235-246; the grammar never yields a text that parses to NaN *)
Definition new_float_val (t : bytes) (p : pos) : option aval :=
  do fv <- parse_float (o_float_other O) t;;
  match fv with
  | S754_nan => None
  | _ => Some (AFloat fv (o_fmt_float O fv) p)
  end.

(** ast.go:270-277 *)
Definition new_string_val (s : bytes) (p : pos) : aval := AStr s p.

(** ast.go:301-316; strconv.ParseBool on the lower-cased text also knows 1, t, 0, f *)
Definition new_bool_val (t : bytes) (p : pos) : option aval :=
  let l := map lower_ascii t in
  if beqb l (b "true") || beqb l (b "1") || beqb l (b "t") then Some (ABool true p)
  else if beqb l (b "false") || beqb l (b "0") || beqb l (b "f") then Some (ABool false p)
  else None.

(** strings.Trim(s, "/") *)
Fixpoint trim_left_slash (s : bytes) : bytes :=
  match s with 47 :: r => trim_left_slash r | _ => s end.
Definition trim_slash (s : bytes) : bytes := rev (trim_left_slash (rev (trim_left_slash s))).

(** ast.go:340-351 *)
Definition new_regexp_val (t : bytes) (p : pos) : option aval :=
  let pat := trim_slash t in
  do _ <- o_re_parse O pat;; Some (ARegex pat t p).

(** ast.go:381-384 *)
Definition net_text (t : bytes) : bytes := if has_byte 47 t then t else t ++ b "/32".
(** ast.go:380-397 *)
Definition new_net_val (t : bytes) (p : pos) : option aval :=
  let sv := net_text t in
  do nv <- parse_prefix (o_strict_bits O) sv;; Some (ANet nv sv p).

(** ast.go:422-452 *)
Definition new_time_val (t : bytes) (p : pos) : option aval :=
  if Nat.eqb (length t) 10
  then do tv <- parse_date t;; Some (ATime tv true t p)
  else do tv <- parse_rfc3339 t;; Some (ATime tv false t p).

(** strings.ContainsAny of space, dot, double quote (ast.go:477) *)
Definition needs_quote (s : bytes) : bool := has_byte 32 s || has_byte 46 s || has_byte 34 s.

(** ast.go:474-487 (FieldString) *)
Definition field_piece_string (s : bytes) : bytes :=
  if needs_quote s then quote (o_is_print O) s else s.
Fixpoint field_string (f : list bytes) : bytes :=
  match f with
  | [] => []
  | [p] => field_piece_string p
  | p :: r => field_piece_string p ++ b "." ++ field_string r
  end.

Fixpoint join (sep : bytes) (l : list bytes) : bytes :=
  match l with
  | [] => []
  | [x] => x
  | x :: r => x ++ sep ++ join sep r
  end.

(** ast.go:109-132 (ExprNode.FriendlyString) *)
Definition friendly_string (o : op) (f : list bytes) (vs : list aval) : bytes :=
  field_string f ++ b ":" ++ (if op_eqb o EQ then [] else op_text o) ++ b " " ++
  match vs with
  | [] => []
  | [v] => val_string v
  | _ => b "(" ++ join (b ",") (map val_string vs) ++ b ")"
  end.

(** ast.go:41-103 (Node.String) *)
Fixpoint node_string (n : node) : bytes :=
  match n with
  | NAnd l r => b "(&& " ++ node_string l ++ b " " ++ node_string r ++ b ")"
  | NOr l r => b "(|| " ++ node_string l ++ b " " ++ node_string r ++ b ")"
  | NNot e => b "(! " ++ node_string e ++ b ")"
  | NExpr o f vs _ =>
    b "(" ++ op_text o ++ b " " ++ field_string f ++
    match vs with
    | [] => []
    | [v] => b " " ++ val_string v
    | _ => b " [" ++ join (b ", ") (map val_string vs) ++ b "]"
    end ++ b ")"
  end.

End WithOracles.
