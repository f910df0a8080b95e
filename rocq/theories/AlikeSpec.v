(** Specification: trees that mean the same.  The relation is given by laws: how values may be
    written, and the laws of the connectives that hold without looking at a document. *)
From Verif Require Import Bytes GoFloat GoTime GoNet Oracles Ast.

(** The same letter or the other case of it (ASCII) *)
Definition same_letter_ascii (c d : N) : Prop :=
  c = d \/ (65 <= c <= 90 /\ d = c + 32) \/ (65 <= d <= 90 /\ c = d + 32).

(** The same double, or zeros of different signs *)
Inductive same_double : f64 -> f64 -> Prop :=
| sd_same d : same_double d d
| sd_zero s s' : same_double (S754_zero s) (S754_zero s').

(** The double a number of the query stands for *)
Inductive stands_for : aval -> f64 -> Prop :=
| sf_int z s p : stands_for (AInt z s p) (f_of_Z z)
| sf_float f s p : stands_for (AFloat f s p) f.

(** A path that can be looked up in any document without a panic (C72) *)
Definition plain_path (f : list bytes) : Prop := match f with [] | [] :: _ => False | _ => True end.
Inductive plain_paths : node -> Prop :=
| pp_and l r : plain_paths l -> plain_paths r -> plain_paths (NAnd l r)
| pp_or l r : plain_paths l -> plain_paths r -> plain_paths (NOr l r)
| pp_not e : plain_paths e -> plain_paths (NNot e)
| pp_expr o f vs p : plain_path f -> plain_paths (NExpr o f vs p).

Section Spec.
Context (O : oracles).

(** Values that mean the same: places and spelling do not count, integers and floats with one
    double are the same, letters of ASCII strings may be capital or small, and regular expressions may
    be exchanged for others that find the same texts. *)
Inductive alike_val : aval -> aval -> Prop :=
| av_number v w d d' : stands_for v d -> stands_for w d' -> same_double d d' -> alike_val v w
| av_string s p p' : alike_val (AStr s p) (AStr s p')
| av_case s s' p p' : Forall (fun c => c < 128) s -> Forall2 same_letter_ascii s s' -> alike_val (AStr s p) (AStr s' p')
| av_bool x p p' : alike_val (ABool x p) (ABool x p')
| av_regex r r' s s' p p' : (forall t, o_re_match O r t = o_re_match O r' t) -> alike_val (ARegex r s p) (ARegex r' s' p')
| av_net n s s' p p' : alike_val (ANet n s p) (ANet n s' p')
| av_time t day s s' p p' : alike_val (ATime t day s p) (ATime t day s' p').

(** Lists of which every member has its like in the other: order and number do not count *)
Definition covers (vs ws : list aval) : Prop := forall v, In v vs -> exists w, In w ws /\ alike_val v w.

Inductive alike : node -> node -> Prop :=
(** an equivalence, respected by the connectives *)
| al_refl t : alike t t
| al_sym t u : alike t u -> alike u t
| al_trans t u v : alike t u -> alike u v -> alike t v
| al_and l l' r r' : alike l l' -> alike r r' -> alike (NAnd l r) (NAnd l' r')
| al_or l l' r r' : alike l l' -> alike r r' -> alike (NOr l r) (NOr l' r')
| al_not e e' : alike e e' -> alike (NNot e) (NNot e')
(** comparisons *)
| al_expr o f vs ws p p' : Forall2 alike_val vs ws -> alike (NExpr o f vs p) (NExpr o f ws p')
| al_list f vs ws p p' : covers vs ws -> covers ws vs -> alike (NExpr EQ f vs p) (NExpr EQ f ws p')
| al_sim f vs p : alike (NExpr SIM f vs p) (NExpr EQ f vs p)
| al_split f vs ws p p' p'' : vs <> [] -> ws <> [] ->
    alike (NExpr EQ f (vs ++ ws) p) (NOr (NExpr EQ f vs p') (NExpr EQ f ws p''))
| al_exists f vs vs' p p' : alike (NExpr EXS f vs p) (NExpr EXS f vs' p')
(** a day, and the range from its first to its last nanosecond *)
| al_day f t u s s1 s2 p p' p1 p2 d1 d2 : i_sec u = (i_sec t + 86399)%Z -> i_nsec t = 0%Z -> i_nsec u = 999999999%Z ->
    alike (NExpr EQ f [ATime t true s p] p') (NExpr BET f [ATime t d1 s1 p1; ATime u d2 s2 p2] p')
(** connectives *)
| al_not_not t : alike (NNot (NNot t)) t
| al_and_assoc t u v : alike (NAnd (NAnd t u) v) (NAnd t (NAnd u v))
| al_or_assoc t u v : alike (NOr (NOr t u) v) (NOr t (NOr u v))
| al_and_same t : alike (NAnd t t) t
| al_or_same t : alike (NOr t t) t
| al_not_and t u : alike (NNot (NAnd t u)) (NOr (NNot t) (NNot u))
| al_and_or t u v : alike (NAnd t (NOr u v)) (NOr (NAnd t u) (NAnd t v))
| al_or_and t u v : alike (NOr t (NAnd u v)) (NAnd (NOr t u) (NOr t v))
(** the operands of a connective may change places if no path makes Match panic *)
| al_and_comm t u : plain_paths t -> plain_paths u -> alike (NAnd t u) (NAnd u t)
| al_or_comm t u : plain_paths t -> plain_paths u -> alike (NOr t u) (NOr u t).
End Spec.
