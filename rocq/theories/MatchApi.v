(** Vocabulary for statements about the API of package jsonmatcher. *)
From Verif Require Import Bytes Oracles Ast Json Values StrMatch Matcher QueryMessages Layout.

(** [after O m m']: [m'] is the matcher [m] after any number of calls of Match. *)
Inductive after (O : oracles) : mnode -> mnode -> Prop :=
| af_none m : after O m m
| af_match m1 m2 m3 data r : after O m1 m2 -> match_doc O m2 data = Ok (r, m3) -> after O m1 m3.

(** [answers O q data r]: a matcher made from the query [q], possibly used before, returns [r]
    for the document [data]; [None] is an error. *)
Definition answers (O : oracles) (q data : bytes) (r : option bool) : Prop :=
  exists m m1 m2, new_matcher O q = NewOk m /\ after O (mt_root m) m1 /\ match_doc O m1 data = Ok (r, m2).

(** Combined queries. *)
Definition q_and (p q : bytes) : bytes := b "(" ++ p ++ b ") AND (" ++ q ++ b ")".
Definition q_or (p q : bytes) : bytes := b "(" ++ p ++ b ") OR (" ++ q ++ b ")".
Definition q_not (p : bytes) : bytes := b "NOT (" ++ p ++ b ")".

(** Values that differ at most in their position in the query. *)
Definition same_value (v w : aval) : Prop := set_pos no_position v = set_pos no_position w.
