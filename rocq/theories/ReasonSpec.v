(** Specification: what is wrong with a date or an address, as a list of requirements in the order
    in which they are looked at; the reason given belongs to the first one that is not met. *)
From Verif Require Import Bytes GoStrconv Oracles GrammarSpec LiteralSpec.

(** [first_wrong l r]: the first fault of the list that is present has the description [r]. *)
Definition first_wrong (l : list (Prop * bytes)) (r : bytes) : Prop :=
  exists l1 (P : Prop) l2, l = l1 ++ (P, r) :: l2 /\ P /\ Forall (fun x => ~ fst x) l1.

Definition num_between (lo hi : Z) (t : text) : Prop := (lo <= dec_num t <= hi)%Z.

(** Dates: the day is looked at last. *)
Definition month_fault (m : text) : Prop * bytes := (~ num_between 1 12 m, b "month out of range").
Definition day_fault (y m d : text) : Prop * bytes :=
  (~ num_between 1 (month_days (dec_num y) (dec_num m)) d, b "day out of range").
Definition date_faults (y m d : text) : list (Prop * bytes) := [month_fault m; day_fault y m d].
(** Zones; a lower-case z is refused without a reason. *)
Definition zone_faults (z : text) : list (Prop * bytes) :=
  [(z = tx "z", []);
   (exists s h m, z = s ++ h ++ tx ":" ++ m /\ length s = 1%nat /\ ndigits 2 h /\ ndigits 2 m /\ ~ num_between 0 60 m, b "time zone offset minute out of range");
   (exists s h m, z = s ++ h ++ tx ":" ++ m /\ length s = 1%nat /\ ndigits 2 h /\ ndigits 2 m /\ ~ num_between 0 24 h, b "time zone offset hour out of range")].
(** Date and time: [sep] is the character between them; only a capital T is accepted, and no
    reason is given for another one. *)
Definition time_faults (y m d sep h mi s z : text) : list (Prop * bytes) :=
  [month_fault m; (sep <> tx "T", []); (~ num_between 0 23 h, b "hour out of range");
   (~ num_between 0 59 mi, b "minute out of range"); (~ num_between 0 59 s, b "second out of range")]
  ++ zone_faults z ++ [day_fault y m d].

(** Addresses: the numbers from left to right, then the prefix length. *)
Definition padded (t : text) : Prop := exists r, t = tx "0" ++ r /\ r <> [].
Definition octet_faults (o : text) : list (Prop * bytes) :=
  [(padded o, b "IPv4 field has octet with leading zero"); (~ num_between 0 255 o, b "IPv4 field has value >255")].
Definition bits_faults (O : oracles) (n : text) : list (Prop * bytes) :=
  [(o_strict_bits O = true /\ padded n, b "bad bits after slash: " ++ tx """" ++ n ++ tx """");
   (~ num_between 0 32 n, b "prefix length out of range")].
Definition net_faults (O : oracles) (o1 o2 o3 o4 m : text) : list (Prop * bytes) :=
  octet_faults o1 ++ octet_faults o2 ++ octet_faults o3 ++ octet_faults o4 ++
  match m with [] => [] | _ :: n => bits_faults O n end.
