(** Why a date or a network literal is refused: the reason that the libraries give and that the
    error message of NewTimeVal (parser/ast/ast.go:422-452) and NewNetVal (ast.go:380-397)
    repeats.  [None] means that the text has a value. *)
From Verif Require Import Bytes GoStrconv GoTime GoNet Oracles Ast.

(** ** time.Parse (time/format.go parse).  A text that does not fit the layout gets a ParseError
    with an empty Message; a component out of range gets the Message ": ... out of range", of
    which ast.go:441 removes the colon and the blank. *)
Inductive step (A : Type) := Go (a : A) | Stop (reason : bytes).
Arguments Go {A}. Arguments Stop {A}.
Definition or_stop {A} (x : option A) : step A := match x with Some a => Go a | None => Stop [] end.
Definition need (c : bool) (what : string) : step unit := if c then Go tt else Stop (b what ++ b " out of range").
Notation "'try' x <- e1 ;; e2" :=
  (match e1 with Go x => e2 | Stop r => Some r end)
  (at level 200, x pattern, e1 at level 100, e2 at level 200).

(** The check of the day comes after the whole text has been read (format.go: Validate the day of the month). *)
Definition day_reason (y m d : N) : option bytes :=
  try _ <- need ((1 <=? d) && (d <=? days_in m y)) "day";; None.

(** Layout 2006-01-02; the reason for further text is not modelled, as the text has ten bytes
    (it is represented by an empty one). *)
Definition date_reason (s : bytes) : option bytes :=
  try (y, s) <- or_stop (num4 s);; try s <- or_stop (eat 45 s);;
  try (m, s) <- or_stop (num2 s);; try _ <- need ((1 <=? m) && (m <=? 12)) "month";;
  try s <- or_stop (eat 45 s);; try (d, s) <- or_stop (num2 s);;
  match s with [] => day_reason y m d | _ => Some [] end.

(** Case stdISO8601ColonTZ: hours and minutes of the offset are tested one after the other, the
    later message replaces the earlier one. *)
Definition zone_reason (s : bytes) : step unit :=
  match s with
  | [90] => Go tt
  | c :: r =>
    match
      (do (h, r) <- num2 r;; do r <- eat 58 r;; do (m, r) <- num2 r;; match r with [] => Some (h, m) | _ => None end)
    with
    | None => Stop []
    | Some (h, m) =>
      if 60 <? m then Stop (b "time zone offset minute out of range")
      else if 24 <? h then Stop (b "time zone offset hour out of range")
      else if (c =? 43) || (c =? 45) then Go tt else Stop []
    end
  | [] => Stop []
  end.

(** Layout RFC3339 *)
Definition rfc3339_reason (s : bytes) : option bytes :=
  try (y, s) <- or_stop (num4 s);; try s <- or_stop (eat 45 s);;
  try (mo, s) <- or_stop (num2 s);; try _ <- need ((1 <=? mo) && (mo <=? 12)) "month";;
  try s <- or_stop (eat 45 s);; try (d, s) <- or_stop (num2 s);;
  try s <- or_stop (eat 84 s);;
  try (h, s) <- or_stop (num2 s);; try _ <- need (h <=? 23) "hour";;
  try s <- or_stop (eat 58 s);;
  try (mi, s) <- or_stop (num2 s);; try _ <- need (mi <=? 59) "minute";;
  try s <- or_stop (eat 58 s);;
  try (se, s) <- or_stop (num2 s);; try _ <- need (se <=? 59) "second";;
  let (_, s) := parse_frac s in
  try _ <- zone_reason s;;
  day_reason y mo d.

(** ast.go:429-445 *)
Definition time_reason (t : bytes) : option bytes :=
  if Nat.eqb (length t) 10 then date_reason t else rfc3339_reason t.

(** ** netip.ParsePrefix (net/netip/netip.go), without what the two replacements of ast.go:376-391
    take away, the names of the functions with the quoted text. *)
Section WithOracles.
Context (O : oracles).

(** parseIPv4: [n] fields so far, the value and number of digits of the current one *)
Fixpoint ipv4_reason (s : bytes) (n : nat) (val : N) (dig : nat) : option bytes :=
  match s with
  | [] => if Nat.ltb n 3 then Some (b "IPv4 address too short") else None
  | c :: s' =>
    if is_digit c then
      if Nat.eqb dig 1 && (val =? 0) then Some (b "IPv4 field has octet with leading zero")
      else let v := val * 10 + digit_val c in
           if 255 <? v then Some (b "IPv4 field has value >255") else ipv4_reason s' n v (S dig)
    else if c =? 46 then
      if Nat.eqb dig 0 || Nat.eqb (length s') 0
      then Some (b "IPv4 field must have at least one digit (at " ++ quote (o_is_print O) s ++ b ")")
      else if Nat.eqb n 3 then Some (b "IPv4 address too long") else ipv4_reason s' (S n) 0 0
    else Some (b "unexpected character (at " ++ quote (o_is_print O) s ++ b ")")
  end.

(** ParseAddr on a text without dot, colon and percent sign *)
Definition addr_reason (a : bytes) : option bytes :=
  if has_byte 46 a then ipv4_reason a 0 0 0 else Some (b "unable to parse IP").

Definition net_reason (s : bytes) : option bytes :=
  match split_slash s with
  | None => Some (b "no '/'")
  | Some (a, bs) =>
    match addr_reason a with
    | Some r => Some r
    | None =>
      let bad := Some (b "bad bits after slash: " ++ quote (o_is_print O) bs) in
      match bs with
      | [] => bad
      | c :: r =>
        if o_strict_bits O && negb (Nat.eqb (length r) 0) && (c =? 48) then bad
        else
          match digits_acc 0 bs with
          | None => bad
          | Some n => if 32 <? n then Some (b "prefix length out of range") else None
          end
      end
    end
  end.
End WithOracles.
