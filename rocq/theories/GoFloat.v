(** IEEE binary64 (Go float64) on top of Coq's executable SpecFloat. *)
From Verif Require Import Bytes GoStrconv GoTime.
From Coq Require Export Floats.SpecFloat.

Definition f64 := spec_float.

(** Conversion float64(i) of an integer: round to nearest even. *)
Definition f_of_Z (z : Z) : f64 := binary_normalize 53 1024 z 0 false.

Definition f_zero : f64 := S754_zero false.

(** Correctly rounded quotient of two positive integers. *)
Definition f_of_ratio (neg : bool) (m1 m2 : positive) : f64 :=
  let '(q, e, l) := SFdiv_core_binary 53 1024 (Zpos m1) 0 (Zpos m2) 0 in
  binary_round_aux 53 1024 neg q e l.

(** (-1)^neg * m * 10^e, correctly rounded. *)
Definition f_of_decimal (neg : bool) (m : N) (e : Z) : f64 :=
  match m with
  | 0 => S754_zero neg
  | Npos p =>
    match e with
    | Zneg k => f_of_ratio neg p (10 ^ k)
    | Zpos k => binary_normalize 53 1024 (if neg then - (Zpos p * 10 ^ (Zpos k)) else Zpos p * 10 ^ (Zpos k))%Z 0 neg
    | Z0 => binary_normalize 53 1024 (if neg then - Zpos p else Zpos p)%Z 0 neg
    end
  end.

Definition f_lt (x y : f64) : bool := match SFcompare x y with Some Lt => true | _ => false end.
Definition f_le (x y : f64) : bool := match SFcompare x y with Some Lt | Some Eq => true | _ => false end.
Definition f_eq (x y : f64) : bool := match SFcompare x y with Some Eq => true | _ => false end.
Definition f_gt (x y : f64) : bool := match SFcompare x y with Some Gt => true | _ => false end.
Definition f_ge (x y : f64) : bool := match SFcompare x y with Some Gt | Some Eq => true | _ => false end.

Definition is_inf (x : f64) : bool := match x with S754_infinity _ => true | _ => false end.

Definition lower_ascii (c : N) : N := if (65 <=? c) && (c <=? 90) then c + 32 else c.

(** Sign, digits, optional fraction, optional exponent; the whole text must be used.
    strconv/atof.go readFloat (decimal part). Exponents beyond 10000 are capped as in
    readFloat. *)
Fixpoint cap_digits (acc : N) (s : bytes) : N :=
  match s with
  | [] => acc
  | c :: r => cap_digits (if acc <? 10000 then acc * 10 + digit_val c else acc) r
  end.

Definition parse_exp (s : bytes) : option (Z * bytes) :=
  match s with
  | c :: r =>
    if lower_ascii c =? 101 then
      let '(neg, r) := match r with 43 :: r' => (false, r') | 45 :: r' => (true, r') | _ => (false, r) end in
      match span_digits r with
      | ([], _) => None
      | (ds, t) => let e := Z.of_N (cap_digits 0 ds) in Some ((if neg then - e else e)%Z, t)
      end
    else Some (0%Z, s)
  | [] => Some (0%Z, s)
  end.

Definition digits_val (ds : bytes) : N := fold_left (fun a c => a * 10 + digit_val c) ds 0.

Definition parse_decimal (s : bytes) : option (bool * N * Z) :=
  let '(neg, s) := match s with 43 :: r => (false, r) | 45 :: r => (true, r) | _ => (false, s) end in
  let (ip, s) := span_digits s in
  let (fp, s) := match s with 46 :: r => span_digits r | _ => ([], s) end in
  match ip ++ fp with
  | [] => None
  | ds =>
    do (e, s) <- parse_exp s;;
    match s with
    | [] => Some (neg, digits_val ds, (e - Z.of_nat (length fp))%Z)
    | _ => None
    end
  end.

(** strconv/atof.go special: inf, infinity, nan in any case, optional sign (not for nan). *)
Definition parse_special (s : bytes) : option f64 :=
  let l := map lower_ascii s in
  let is_inf t := beqb t (b "inf") || beqb t (b "infinity") in
  match l with
  | 43 :: r => if is_inf r then Some (S754_infinity false) else None
  | 45 :: r => if is_inf r then Some (S754_infinity true) else None
  | _ => if is_inf l then Some (S754_infinity false)
         else if beqb l (b "nan") then Some S754_nan else None
  end.

(** strconv.ParseFloat(s, 64): [None] for a syntax or range error.  Hexadecimal floats and
    digit separators are left to the oracle [other]. *)
Definition parse_float (other : bytes -> option f64) (s : bytes) : option f64 :=
  if has_byte 95 s || has_byte 120 s || has_byte 88 s then other s else
  match parse_special s with
  | Some f => Some f
  | None =>
    do (neg, m, e) <- parse_decimal s;;
    let f := f_of_decimal neg m e in
    if is_inf f then None else Some f
  end.
