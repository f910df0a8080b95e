(** The parts of Go's strconv used by aql: ParseInt (base 10, 64 bits),
    Unquote (double quotes) and Quote. *)
From Verif Require Import Bytes Utf8.

(** Value of a digit string, most significant first; [None] if some byte is not a digit. *)
Fixpoint digits_acc (acc : N) (s : bytes) : option N :=
  match s with
  | [] => Some acc
  | c :: s' => if is_digit c then digits_acc (acc * 10 + digit_val c) s' else None
  end.

(** strconv.ParseInt(s, 10, 64): [None] stands for a syntax or range error.
    strconv/atoi.go ParseInt. *)
Definition parse_int (s : bytes) : option Z :=
  let go (neg : bool) (t : bytes) : option Z :=
    match t with
    | [] => None
    | _ =>
      match digits_acc 0 t with
      | None => None
      | Some n =>
        if neg then (if 9223372036854775808 <? n then None else Some (- Z.of_N n)%Z)
        else (if 9223372036854775807 <? n then None else Some (Z.of_N n))
      end
    end in
  match s with
  | 45 :: t => go true t
  | 43 :: t => go false t
  | _ => go false s
  end.

Definition hex_val (c : N) : option N :=
  if (48 <=? c) && (c <=? 57) then Some (c - 48)
  else if (97 <=? c) && (c <=? 102) then Some (c - 87)
  else if (65 <=? c) && (c <=? 70) then Some (c - 55)
  else None.

(** [n] hexadecimal digits: value and remaining text (strconv/quote.go UnquoteChar, cases x, u, U). *)
Fixpoint hex_digits (n : nat) (acc : N) (s : bytes) : option (N * bytes) :=
  match n with
  | O => Some (acc, s)
  | S n' =>
    match s with
    | [] => None
    | c :: s' => match hex_val c with None => None | Some v => hex_digits n' (acc * 16 + v) s' end
    end
  end.

Definition is_octal (c : N) : bool := (48 <=? c) && (c <=? 55).

(** strconv.UnquoteChar(s, the double quote) for non-empty [s]: the bytes appended to the
    result and the remaining text (strconv/quote.go UnquoteChar and the loop of unquote). *)
Definition unquote_char (s : bytes) : option (bytes * bytes) :=
  match s with
  | [] => None
  | c :: s1 =>
    if c =? 34 then None
    else if 128 <=? c then
      let (r, w) := decode_rune s in Some (encode_rune r, skipn w s)
    else if negb (c =? 92) then Some ([c], s1)
    else match s1 with
    | [] => None
    | e :: s2 =>
      if e =? 97 then Some ([7], s2)
      else if e =? 98 then Some ([8], s2)
      else if e =? 102 then Some ([12], s2)
      else if e =? 110 then Some ([10], s2)
      else if e =? 114 then Some ([13], s2)
      else if e =? 116 then Some ([9], s2)
      else if e =? 118 then Some ([11], s2)
      else if e =? 120 then
        match hex_digits 2 0 s2 with None => None | Some (v, s3) => Some ([v], s3) end
      else if e =? 117 then
        match hex_digits 4 0 s2 with
        | None => None
        | Some (v, s3) => if is_scalar v then Some (encode_rune v, s3) else None
        end
      else if e =? 85 then
        match hex_digits 8 0 s2 with
        | None => None
        | Some (v, s3) => if is_scalar v then Some (encode_rune v, s3) else None
        end
      else if is_octal e then
        match s2 with
        | o1 :: o2 :: s3 =>
          if is_octal o1 && is_octal o2 then
            let v := (e - 48) * 64 + (o1 - 48) * 8 + (o2 - 48) in
            if 255 <? v then None else Some ([v], s3)
          else None
        | _ => None
        end
      else if (e =? 92) || (e =? 34) then Some ([e], s2)
      else None
    end
  end.

(** The loop of strconv's unquote for the double quote: reads up to and including the closing
    quote; fuel is the length of the text. *)
Fixpoint unquote_loop (n : nat) (s : bytes) : option (bytes * bytes) :=
  match n with
  | O => None
  | S n' =>
    match s with
    | [] => None
    | 34 :: s' => Some ([], s')
    | 10 :: _ => None
    | _ =>
      match unquote_char s with
      | None => None
      | Some (out, s') =>
        match unquote_loop n' s' with
        | None => None
        | Some (outs, rem) => Some (out ++ outs, rem)
        end
      end
    end
  end.

(** strconv.Unquote for a text starting with a double quote (other quotes are not
    produced by the grammar). *)
Definition unquote (s : bytes) : option bytes :=
  match s with
  | 34 :: s' =>
    match unquote_loop (length s) s' with
    | Some (out, []) => Some out
    | _ => None
    end
  | _ => None
  end.

Definition hex_digit (v : N) : N := if v <? 10 then 48 + v else 87 + v.

(** strconv.appendEscapedRune with quote the double quote; [isprint] is strconv.IsPrint on runes >= 128. *)
Definition quote_rune (isprint : N -> bool) (r : N) : bytes :=
  if (r =? 34) || (r =? 92) then [92; r]
  else if (if r <? 128 then (32 <=? r) && (r <? 127) else isprint r) then encode_rune r
  else if r =? 7 then [92; 97]
  else if r =? 8 then [92; 98]
  else if r =? 12 then [92; 102]
  else if r =? 10 then [92; 110]
  else if r =? 13 then [92; 114]
  else if r =? 9 then [92; 116]
  else if r =? 11 then [92; 118]
  else if (r <? 32) || (r =? 127) then [92; 120; hex_digit (r / 16); hex_digit (r mod 16)]
  else if r <? 65536 then
    [92; 117; hex_digit (r / 4096); hex_digit ((r / 256) mod 16); hex_digit ((r / 16) mod 16); hex_digit (r mod 16)]
  else [92; 85; hex_digit (r / 268435456); hex_digit ((r / 16777216) mod 16); hex_digit ((r / 1048576) mod 16);
        hex_digit ((r / 65536) mod 16); hex_digit ((r / 4096) mod 16); hex_digit ((r / 256) mod 16);
        hex_digit ((r / 16) mod 16); hex_digit (r mod 16)].

(** strconv.appendQuotedWith: loop over the string; invalid bytes as \xNN. *)
Fixpoint quote_loop (isprint : N -> bool) (n : nat) (s : bytes) : bytes :=
  match n, s with
  | O, _ => []
  | _, [] => []
  | S n', c :: _ =>
    let (r, w) := decode_rune s in
    (if (r =? rune_error) && Nat.eqb w 1
     then [92; 120; hex_digit (c / 16); hex_digit (c mod 16)]
     else quote_rune isprint r) ++ quote_loop isprint n' (skipn w s)
  end.

(** strconv.Quote *)
Definition quote (isprint : N -> bool) (s : bytes) : bytes :=
  34 :: quote_loop isprint (length s) s ++ [34].
