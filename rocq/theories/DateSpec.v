(** Specification: order of instants and calendar days (C37, C38, C75, C76). *)
From Verif Require Import Bytes GoTime GrammarSpec LiteralSpec Ast.

Definition normal (i : instant) : Prop := (0 <= i_nsec i < 1000000000)%Z.
Definition before (i t : instant) : Prop := (i_sec i < i_sec t \/ i_sec i = i_sec t /\ i_nsec i < i_nsec t)%Z.
Definition time_rel (o : op) (i t : instant) : Prop :=
  match o with
  | EQ => i = t
  | LT => before i t
  | LTE => before i t \/ i = t
  | GT => before t i
  | GTE => before t i \/ i = t
  | _ => False
  end.

(** The instant a date or timestamp literal names; a date names its midnight in UTC. *)
Inductive names_instant : text -> instant -> Prop :=
| ni_date t n : date_denotes t n -> names_instant t {| i_sec := n * 86400; i_nsec := 0 |}
| ni_time t s ns : timestamp_denotes t s ns -> names_instant t {| i_sec := s; i_nsec := ns |}.

(** Within 2^63 nanoseconds of 1970: from 1677-09-21T00:12:43.145224192Z to
    2262-04-11T23:47:16.854775807Z. *)
Definition near (i : instant) : Prop :=
  (- 2 ^ 63 <= i_sec i * 1000000000 + i_nsec i < 2 ^ 63)%Z.
