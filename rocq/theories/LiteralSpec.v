(** Specification: what literals denote, independent of the conversions of the model. *)
From Verif Require Import Bytes GrammarSpec.

(** ** Strings (C10) *)
Definition hex_num (c : N) : N := if c <=? 57 then c - 48 else if c <=? 70 then c - 55 else c - 87.
(** A surrogate half. *)
Definition surrogate (c : N) : Prop := 55296 <= c <= 57343.
(** [denotes_string body text]: the body of a quoted literal denotes the code points [text]. *)
Inductive denotes_string : text -> text -> Prop :=
| ds_nil : denotes_string [] []
| ds_char c t u : 32 <= c -> c <> 34 -> c <> 92 -> denotes_string t u -> denotes_string (c :: t) (c :: u)
| ds_quote t u : denotes_string t u -> denotes_string (tx "\""" ++ t) (34 :: u)
| ds_backslash t u : denotes_string t u -> denotes_string (tx "\\" ++ t) (92 :: u)
| ds_b t u : denotes_string t u -> denotes_string (tx "\b" ++ t) (8 :: u)
| ds_f t u : denotes_string t u -> denotes_string (tx "\f" ++ t) (12 :: u)
| ds_n t u : denotes_string t u -> denotes_string (tx "\n" ++ t) (10 :: u)
| ds_r t u : denotes_string t u -> denotes_string (tx "\r" ++ t) (13 :: u)
| ds_t t u : denotes_string t u -> denotes_string (tx "\t" ++ t) (9 :: u)
| ds_uni h1 h2 h3 h4 t u : hex h1 -> hex h2 -> hex h3 -> hex h4 ->
    let c := hex_num h1 * 4096 + hex_num h2 * 256 + hex_num h3 * 16 + hex_num h4 in
    ~ surrogate c -> denotes_string t u ->
    denotes_string (tx "\u" ++ [h1; h2; h3; h4] ++ t) (c :: u).

(** A literal for each text: quotes and backslashes escaped, control characters as \u00hh. *)
Definition hex_char (v : N) : N := if v <? 10 then 48 + v else 87 + v.
Definition quote_char (c : N) : text :=
  if c <? 32 then tx "\u00" ++ [hex_char (c / 16); hex_char (c mod 16)]
  else if c =? 34 then tx "\""" else if c =? 92 then tx "\\" else [c].
Definition quote_text (t : text) : text := [34] ++ concat (map quote_char t) ++ [34].

(** ** Integers (C09) *)
Definition dec_num (t : text) : Z := fold_left (fun a c => 10 * a + (Z.of_N c - 48))%Z t 0%Z.
Definition int_value (t : text) : Z :=
  match t with
  | 45 :: d => (- dec_num d)%Z
  | _ => dec_num t
  end.

(** ** Regular expressions (C11) *)
(** The body with each escaped slash replaced by a slash; all other escapes are kept. *)
Inductive regex_denotes : text -> text -> Prop :=
| rd_nil : regex_denotes [] []
| rd_char c t u : c <> 47 -> c <> 92 -> c <> 10 -> regex_denotes t u -> regex_denotes (c :: t) (c :: u)
| rd_slash t u : regex_denotes t u -> regex_denotes (tx "\/" ++ t) (47 :: u)
| rd_esc c t u : c <> 47 -> c <> 10 -> regex_denotes t u -> regex_denotes (92 :: c :: t) (92 :: c :: u).

(** ** Calendar (C12): years, months, days from 1; the year 0 exists (proleptic). *)
Definition leap (y : Z) : bool := ((y mod 4 =? 0) && (negb (y mod 100 =? 0) || (y mod 400 =? 0)))%Z.
Definition month_days (y m : Z) : Z :=
  if (m =? 2)%Z then (if leap y then 29 else 28)%Z
  else if ((m =? 4) || (m =? 6) || (m =? 9) || (m =? 11))%Z then 30%Z else 31%Z.
Record date := { yr : Z; mo : Z; dy : Z }.
Definition valid_date (d : date) : Prop := (1 <= mo d <= 12 /\ 1 <= dy d <= month_days (yr d) (mo d))%Z.
Definition next_day (d : date) : date :=
  if (dy d <? month_days (yr d) (mo d))%Z then {| yr := yr d; mo := mo d; dy := dy d + 1 |}
  else if (mo d <? 12)%Z then {| yr := yr d; mo := mo d + 1; dy := 1 |}
  else {| yr := yr d + 1; mo := 1; dy := 1 |}.
Fixpoint after_days (n : nat) (d : date) : date :=
  match n with O => d | S n' => after_days n' (next_day d) end.
Definition epoch : date := {| yr := 1970; mo := 1; dy := 1 |}.
(** [day_number d n]: the day [d] is [n] days after 1970-01-01 (before it if negative). *)
Definition day_number (d : date) (n : Z) : Prop :=
  (0 <= n /\ after_days (Z.to_nat n) epoch = d \/ n <= 0 /\ after_days (Z.to_nat (- n)) d = epoch)%Z.

(** Fractions of a second are cut off after nine digits. *)
Definition frac_value (f : text) (ns : Z) : Prop :=
  (0 <= ns /\ ns * 10 ^ Z.of_nat (length f) <= dec_num f * 1000000000 < (ns + 1) * 10 ^ Z.of_nat (length f))%Z.
(** Optional fraction, zone: nanoseconds and seconds east of UTC. *)
Inductive frac_denotes : text -> Z -> Prop :=
| fr_none : frac_denotes [] 0
| fr_some d ns : digits1 d -> frac_value d ns -> frac_denotes (tx "." ++ d) ns.
Inductive zone_denotes : text -> Z -> Prop :=
| zn_utc : zone_denotes (tx "Z") 0
| zn_plus h m : ndigits 2 h -> ndigits 2 m -> (dec_num h <= 24)%Z -> (dec_num m <= 60)%Z ->
    zone_denotes (tx "+" ++ h ++ tx ":" ++ m) (dec_num h * 3600 + dec_num m * 60)
| zn_minus h m : ndigits 2 h -> ndigits 2 m -> (dec_num h <= 24)%Z -> (dec_num m <= 60)%Z ->
    zone_denotes (tx "-" ++ h ++ tx ":" ++ m) (- (dec_num h * 3600 + dec_num m * 60)).
(** [date_denotes t n]: the text is a valid date, [n] days after 1970-01-01. *)
Inductive date_denotes : text -> Z -> Prop :=
| dt y m d n : ndigits 4 y -> ndigits 2 m -> ndigits 2 d ->
    let x := {| yr := dec_num y; mo := dec_num m; dy := dec_num d |} in
    valid_date x -> day_number x n ->
    date_denotes (y ++ tx "-" ++ m ++ tx "-" ++ d) n.
(** [timestamp_denotes t s ns]: [s] seconds and [ns] nanoseconds after 1970-01-01T00:00:00Z. *)
Inductive timestamp_denotes : text -> Z -> Z -> Prop :=
| ts d n h m s f ns z off : date_denotes d n -> ndigits 2 h -> ndigits 2 m -> ndigits 2 s ->
    (dec_num h <= 23)%Z -> (dec_num m <= 59)%Z -> (dec_num s <= 59)%Z ->
    frac_denotes f ns -> zone_denotes z off ->
    timestamp_denotes (d ++ tx "T" ++ h ++ tx ":" ++ m ++ tx ":" ++ s ++ f ++ z)
      (n * 86400 + dec_num h * 3600 + dec_num m * 60 + dec_num s - off) ns.
