(** strconv.ParseFloat on all texts: hexadecimal numbers and digit separators included. *)
From Verif Require Import Bytes GoStrconv GoTime GoFloat.

(** A digit of the base (strconv/atof.go readFloat, the cases of its loop). *)
Definition base_digit (hex : bool) (c : N) : bool :=
  is_digit c || (hex && ((97 <=? lower_ascii c) && (lower_ascii c <=? 102))).
Definition base_value (c : N) : N := if is_digit c then digit_val c else lower_ascii c - 87.

(** strconv/atof.go readFloat, label loop: the digits before and after the point and the rest of
    the text; underscores are passed over, a second point ends the number. The code keeps 19
    decimal or 16 hexadecimal digits in a word and a flag for the others (or reads the text once
    more, decimal.set); here all digits are kept, the result is rounded once. *)
Fixpoint read_digits (hex dot : bool) (s : bytes) : bytes * bytes * bytes :=
  match s with
  | [] => ([], [], [])
  | c :: r =>
    if c =? 95 then read_digits hex dot r
    else if c =? 46 then if dot then ([], [], s) else read_digits hex true r
    else if base_digit hex c then
      let '(ip, fp, t) := read_digits hex dot r in
      if dot then (ip, c :: fp, t) else (c :: ip, fp, t)
    else ([], [], s)
  end.

(** readFloat, the digits of the exponent. *)
Fixpoint read_exp_digits (s : bytes) : bytes * bytes :=
  match s with
  | [] => ([], [])
  | c :: r =>
    if is_digit c then let (ds, t) := read_exp_digits r in (c :: ds, t)
    else if c =? 95 then read_exp_digits r
    else ([], s)
  end.

(** readFloat, optional exponent moves decimal point: a hexadecimal number must have one. *)
Definition read_exp (hex : bool) (s : bytes) : option (Z * bytes) :=
  let none := if hex then None else Some (0%Z, s) in
  match s with
  | [] => none
  | c :: r =>
    if lower_ascii c =? (if hex then 112 else 101) then
      let '(neg, r) := match r with 43 :: r' => (false, r') | 45 :: r' => (true, r') | _ => (false, r) end in
      match r with
      | d :: _ =>
        if is_digit d then
          let (ds, t) := read_exp_digits r in
          let e := Z.of_N (cap_digits 0 ds) in Some ((if neg then - e else e)%Z, t)
        else None
      | [] => None
      end
    else none
  end.

(** strconv/atoi.go underscoreOK: what was seen last. *)
Inductive saw := SawNone | SawDigit | SawUnder | SawOther.
Fixpoint under_loop (hex : bool) (w : saw) (s : bytes) : bool :=
  match s with
  | [] => match w with SawUnder => false | _ => true end
  | c :: r =>
    if base_digit hex c then under_loop hex SawDigit r
    else if c =? 95 then match w with SawDigit => under_loop hex SawUnder r | _ => false end
    else match w with SawUnder => false | _ => under_loop hex SawOther r end
  end.
Definition drop_sign (s : bytes) : bool * bytes :=
  match s with 43 :: r => (false, r) | 45 :: r => (true, r) | _ => (false, s) end.
Definition underscore_ok (s : bytes) : bool :=
  let s := snd (drop_sign s) in
  match s with
  | 48 :: c :: r =>
    let l := lower_ascii c in
    if (l =? 98) || (l =? 111) || (l =? 120) then under_loop (l =? 120) SawDigit r
    else under_loop false SawNone s
  | _ => under_loop false SawNone s
  end.

(** The prefix 0x of at least one more byte (readFloat, digits). *)
Definition hex_prefix (s : bytes) : option bytes :=
  match s with
  | 48 :: c :: d :: r => if lower_ascii c =? 120 then Some (d :: r) else None
  | _ => None
  end.

Definition base_val (hex : bool) (ds : bytes) : N :=
  fold_left (fun a c => a * (if hex then 16 else 10) + base_value c) ds 0.

(** strconv/atof.go readFloat, for a text that has to be used up (ParseFloat refuses a rest, so
    the underscores can be checked in the whole text). *)
Definition read_float (s : bytes) : option (bool * bool * N * Z) :=
  let (neg, u) := drop_sign s in
  let (hex, u) := match hex_prefix u with Some v => (true, v) | None => (false, u) end in
  let '(ip, fp, t) := read_digits hex false u in
  match ip ++ fp with
  | [] => None
  | ds =>
    match read_exp hex t with
    | Some (e, []) =>
      if has_byte 95 s && negb (underscore_ok s) then None
      else Some (neg, hex, base_val hex ds, (e - (if hex then 4 else 1) * Z.of_nat (length fp))%Z)
    | _ => None
    end
  end.

(** strconv/atof.go atofHex: m * 2^e, correctly rounded. *)
Definition f_of_binary (neg : bool) (m : N) (e : Z) : f64 :=
  binary_normalize 53 1024 (if neg then - Z.of_N m else Z.of_N m)%Z e neg.

Definition read_value (s : bytes) : option f64 :=
  match read_float s with
  | None => None
  | Some (neg, hex, m, e) =>
    let f := if hex then f_of_binary neg m e else f_of_decimal neg m e in
    if is_inf f then None else Some f
  end.

(** strconv.ParseFloat(s, 64) (atof64, parseFloatPrefix). *)
Definition go_parse_float (s : bytes) : option f64 :=
  match parse_special s with Some f => Some f | None => read_value s end.

Example read_examples :
  (go_parse_float (b "1_23.50_0_0e+1_2"), go_parse_float (b "-_123.5e+12"), go_parse_float (b "1__23.5e+12"), go_parse_float (b "123_.5e+12"), go_parse_float (b "123._5e+12"),
   go_parse_float (b "123.5_e+12"), go_parse_float (b "123.5e_+12"), go_parse_float (b "123.5e+_12"), go_parse_float (b "123.5e+1__2"), go_parse_float (b "123.5e+12_")) =
  (go_parse_float (b "1.235e+14"), None, None, None, None, None, None, None, None, None).
Proof. vm_compute. reflexivity. Qed.
Example read_hex :
  (go_parse_float (b "0x_1_2.3_4_5p+1_2"), go_parse_float (b "-0X_12.345p+12"), go_parse_float (b "0x10"), go_parse_float (b "0x1p4"), go_parse_float (b "0x.8P0"), go_parse_float (b "0x_.8p0"),
   go_parse_float (b "0x1p1024"), go_parse_float (b "0x1p-1075"), go_parse_float (b "0b1_0"), go_parse_float (b "0x"), go_parse_float (b "0x1.p_4")) =
  (Some (f_of_Z 74565), Some (f_of_Z (-74565)), None, Some (f_of_Z 16), go_parse_float (b "0.5"), None, None, Some (S754_zero false), None, None, None).
Proof. vm_compute. reflexivity. Qed.
