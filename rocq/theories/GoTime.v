(** The parts of Go's package time used by aql: time.Parse for the layouts
    2006-01-02 and RFC3339, and UnixNano. *)
From Verif Require Import Bytes GoStrconv.

(** An instant: seconds since 1970-01-01T00:00:00Z and nanoseconds. *)
Record instant := { i_sec : Z; i_nsec : Z }.

Definition is_leap (y : N) : bool := (y mod 4 =? 0) && (negb (y mod 100 =? 0) || (y mod 400 =? 0)).

(** time/time.go daysBefore (non-leap year) *)
Definition days_before (m : N) : N :=
  match m with
  | 1 => 0 | 2 => 31 | 3 => 59 | 4 => 90 | 5 => 120 | 6 => 151 | 7 => 181
  | 8 => 212 | 9 => 243 | 10 => 273 | 11 => 304 | 12 => 334 | _ => 365
  end.

(** time/time.go daysIn *)
Definition days_in (m y : N) : N :=
  if (m =? 2) && is_leap y then 29 else days_before (m + 1) - days_before m.

(** time/time.go daysSinceEpoch: days from the epoch of the 400-year cycle; Go counts
    from a year congruent to 1 modulo 400, here the year -399. *)
Definition days_since_cycle (y : N) : N :=
  let y := y + 399 in
  let n := y / 400 in let d := 146097 * n in let y := y - 400 * n in
  let n := y / 100 in let d := d + 36524 * n in let y := y - 100 * n in
  let n := y / 4 in let d := d + 1461 * n in let y := y - 4 * n in
  d + 365 * y.

(** time.Date for in-range arguments: days since 1970-01-01 (time/time.go Date). *)
Definition civil_days (y m d : N) : Z :=
  let k := days_since_cycle y + days_before m + (if is_leap y && (3 <=? m) then 1 else 0) + (d - 1) in
  (Z.of_N k - 865259)%Z.

Definition date_ok (y m d : N) : bool :=
  (1 <=? m) && (m <=? 12) && (1 <=? d) && (d <=? days_in m y).

(** Two or four digits at the front of the text. *)
Definition num2 (s : bytes) : option (N * bytes) :=
  match s with
  | a :: c :: r => match digits_acc 0 [a; c] with Some n => Some (n, r) | None => None end
  | _ => None
  end.
Definition num4 (s : bytes) : option (N * bytes) :=
  match s with
  | a :: c :: d :: e :: r => match digits_acc 0 [a; c; d; e] with Some n => Some (n, r) | None => None end
  | _ => None
  end.
Definition eat (c : N) (s : bytes) : option bytes :=
  match s with x :: r => if x =? c then Some r else None | [] => None end.

Notation "'do' x <- e1 ;; e2" :=
  (match e1 with Some x => e2 | None => None end)
  (at level 200, x pattern, e1 at level 100, e2 at level 200).

(** Year, month, day with range check. *)
Definition parse_ymd (s : bytes) : option (N * N * N * bytes) :=
  do (y, s) <- num4 s;; do s <- eat 45 s;;
  do (m, s) <- num2 s;; do s <- eat 45 s;;
  do (d, s) <- num2 s;;
  if date_ok y m d then Some (y, m, d, s) else None.

(** time.Parse("2006-01-02", s) *)
Definition parse_date (s : bytes) : option instant :=
  do (y, m, d, s) <- parse_ymd s;;
  match s with
  | [] => Some {| i_sec := civil_days y m d * 86400; i_nsec := 0 |}
  | _ => None
  end.

(** Leading digits of a text. *)
Fixpoint span_digits (s : bytes) : bytes * bytes :=
  match s with
  | c :: r => if is_digit c then let (a, t) := span_digits r in (c :: a, t) else ([], s)
  | [] => ([], [])
  end.

(** parseNanoseconds: at most nine digits count, missing ones are zero (time/format.go). *)
Fixpoint frac_nanos (k : nat) (ds : bytes) : N :=
  match k with
  | O => 0
  | S k' =>
    match ds with
    | [] => 0
    | c :: r => digit_val c * 10 ^ N.of_nat k' + frac_nanos k' r
    end
  end.

(** Optional fraction after the seconds: a dot followed by at least one digit. *)
Definition parse_frac (s : bytes) : N * bytes :=
  match s with
  | 46 :: r =>
    match span_digits r with
    | ([], _) => (0, s)
    | (ds, t) => (frac_nanos 9 ds, t)
    end
  | _ => (0, s)
  end.

(** Zone: upper-case Z or a signed offset hh:mm with hh <= 24 and mm <= 60
    (time/format.go, case stdISO8601ColonTZ; the range test uses > on purpose). *)
Definition parse_zone (s : bytes) : option Z :=
  match s with
  | [90] => Some 0%Z
  | c :: r =>
    if (c =? 43) || (c =? 45) then
      do (h, r) <- num2 r;; do r <- eat 58 r;; do (m, r) <- num2 r;;
      match r with
      | [] => if (24 <? h) || (60 <? m) then None
              else let o := (Z.of_N (h * 3600 + m * 60)) in
                   Some (if c =? 45 then Z.opp o else o)
      | _ => None
      end
    else None
  | [] => None
  end.

(** time.Parse(time.RFC3339, s): the separator must be an upper-case T. *)
Definition parse_rfc3339 (s : bytes) : option instant :=
  do (y, mo, d, s) <- parse_ymd s;; do s <- eat 84 s;;
  do (h, s) <- num2 s;; do s <- eat 58 s;;
  do (mi, s) <- num2 s;; do s <- eat 58 s;;
  do (se, s) <- num2 s;;
  if (23 <? h) || (59 <? mi) || (59 <? se) then None else
  let (ns, s) := parse_frac s in
  do off <- parse_zone s;;
  Some {| i_sec := (civil_days y mo d * 86400 + Z.of_N (h * 3600 + mi * 60 + se) - off)%Z;
          i_nsec := Z.of_N ns |}.

(** Two's complement wrap to 64 bits. *)
Definition wrap64 (z : Z) : Z := ((z + 9223372036854775808) mod 18446744073709551616 - 9223372036854775808)%Z.

Definition exact_nanos (t : instant) : Z := (i_sec t * 1000000000 + i_nsec t)%Z.

(** Time.UnixNano: (sec)*1e9 + nsec in int64 arithmetic. *)
Definition unix_nano (t : instant) : Z := wrap64 (exact_nanos t).

(** Time.After *)
Definition instant_after (a c : instant) : bool :=
  ((i_sec c <? i_sec a) || ((i_sec a =? i_sec c) && (i_nsec c <? i_nsec a)))%Z.
Definition instant_eqb (a c : instant) : bool :=
  ((i_sec a =? i_sec c) && (i_nsec a =? i_nsec c))%Z.
