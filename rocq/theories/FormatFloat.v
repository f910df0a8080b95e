(** strconv.FormatFloat(f, 'f', -1, 64), as used by NewFloatVal (parser/ast/ast.go:243) and by getStringVal
    (jsonmatcher/json_values.go).  Not the algorithm of strconv but the result it documents: the
    smallest number of digits that identifies the double, nearest to its value.  The matcher and
    parser models take the conversion as an oracle; this is the intended one. *)
From Verif Require Import Bytes GoItoa GoFloat.

Definition f_same (x y : f64) : bool :=
  match x, y with
  | S754_finite s m e, S754_finite s' m' e' => Bool.eqb s s' && Pos.eqb m m' && Z.eqb e e'
  | _, _ => false
  end.

(** The number num/den > 0 with a unit of 10^k: the neighbouring multiple that reads back as [f];
    if both do, the nearer one, ties to even. *)
Definition digits_at (neg : bool) (f : f64) (num den : N) (k : Z) : option N :=
  let up := 10 ^ Z.to_N k in
  let dn := 10 ^ Z.to_N (- k) in
  let n := num * dn in
  let d := den * up in
  let q := n / d in
  let r := n mod d in
  match f_same (f_of_decimal neg q k) f, f_same (f_of_decimal neg (q + 1) k) f with
  | true, true => Some (if (2 * r <? d) || (2 * r =? d) && N.even q then q else q + 1)
  | true, false => Some q
  | false, true => Some (q + 1)
  | false, false => None
  end.

(** Largest unit first.  17 digits always suffice (C135), so that the last case (all digits) is not
    reached. *)
Fixpoint shortest (fuel : nat) (neg : bool) (f : f64) (num den : N) (exact : N * Z) (k : Z) : N * Z :=
  match fuel with
  | O => exact
  | S fuel => match digits_at neg f num den k with
              | Some d => (d, k)
              | None => shortest fuel neg f num den exact (k - 1)
              end
  end.

(** d * 10^k in positional notation: strconv/ftoa.go fmtF *)
Definition positional (d : N) (k : Z) : bytes :=
  match k with
  | Zneg n =>
    let n := Pos.to_nat n in
    let s := itoa d in
    let s := repeat 48 (S n - length s) ++ s in
    firstn (length s - n) s ++ b "." ++ skipn (length s - n) s
  | _ => itoa d ++ repeat 48 (Z.to_nat k)
  end.

(** strconv/ftoa.go FormatFloat *)
Definition format_float (f : f64) : bytes :=
  match f with
  | S754_nan => b "NaN"
  | S754_infinity s => if s then b "-Inf" else b "+Inf"
  | S754_zero s => (if s then b "-" else []) ++ b "0"
  | S754_finite s m e =>
    let '(num, den, exact) :=
      match e with
      | Zneg k => (Npos m, 2 ^ Npos k, (Npos m * 5 ^ Npos k, e))
      | _ => (Npos m * 2 ^ Z.to_N e, 1, (Npos m * 2 ^ Z.to_N e, 0%Z))
      end in
    let start := (Z.of_nat (length (itoa num)) - Z.of_nat (length (itoa den)) + 1)%Z in
    let (d, k) := shortest 20 s f num den exact start in
    (if s then b "-" else []) ++ positional d k
  end.
