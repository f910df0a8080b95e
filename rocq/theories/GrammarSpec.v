(** Specification: the query language as a context-free grammar over code points, with the
    tree, the denoted literals and the source positions.  Independent of the parser model;
    literals are converted by the constructors of Ast.v (package ast), about which separate
    theorems are proved. *)
From Verif Require Import Bytes Utf8 GoStrconv Oracles Ast Actions.

Definition text := list N.
Definition tx (s : string) : text := b s.

(** Text predicates *)
Definition ws_char (c : N) : Prop := c = 32 \/ c = 9 \/ c = 10 \/ c = 13.
Definition ws (t : text) : Prop := Forall ws_char t.
Definition ws1 (t : text) : Prop := ws t /\ t <> [].
Definition digit (c : N) : Prop := 48 <= c <= 57.
Definition digits (t : text) : Prop := Forall digit t.
Definition digits1 (t : text) : Prop := digits t /\ t <> [].
Definition ndigits (n : nat) (t : text) : Prop := digits t /\ length t = n.
Definition hex (c : N) : Prop := 48 <= c <= 57 \/ 97 <= c <= 102 \/ 65 <= c <= 70.

(** Where a text starting after [pre] is: line and column count from one, the column counts
    code points, the offset bytes; the length counts code points. *)
Definition last_line (pre : text) : text :=
  fold_left (fun cur c => if c =? 10 then [] else cur ++ [c]) pre [].
Definition pos_of (pre t : text) : pos :=
  {| p_line := 1 + Z.of_nat (count_occ N.eq_dec pre 10);
     p_col := 1 + Z.of_nat (length (last_line pre));
     p_off := Z.of_nat (length (encode pre));
     p_len := Z.of_nat (length t) |}.

(** Body of a quoted literal: no control characters, no bare quote; escapes as in JSON
    except for the escaped slash. *)
Inductive quoted_body : text -> Prop :=
| qb_nil : quoted_body []
| qb_char c t : 32 <= c -> c <> 34 -> c <> 92 -> quoted_body t -> quoted_body (c :: t)
| qb_esc c t : In c (tx """\bfnrt") -> quoted_body t -> quoted_body (92 :: c :: t)
| qb_uni h1 h2 h3 h4 t : hex h1 -> hex h2 -> hex h3 -> hex h4 -> quoted_body t ->
    quoted_body (92 :: 117 :: h1 :: h2 :: h3 :: h4 :: t).
Definition quoted (t : text) : Prop := exists body, t = [34] ++ body ++ [34] /\ quoted_body body.

(** Body of a regular expression: no line feed, slashes escaped. *)
Inductive regex_body : text -> Prop :=
| rb_nil : regex_body []
| rb_char c t : c <> 47 -> c <> 92 -> c <> 10 -> regex_body t -> regex_body (c :: t)
| rb_esc c t : c <> 10 -> regex_body t -> regex_body (92 :: c :: t).
Definition regex_lit (t : text) : Prop := exists body, t = [47] ++ body ++ [47] /\ regex_body body.

Definition sign (t : text) : Prop := t = [] \/ t = tx "-".
Definition int_lit (t : text) : Prop := exists s d, t = s ++ d /\ sign s /\ digits1 d.
Definition float_lit (t : text) : Prop :=
  exists s d e, t = s ++ d ++ tx "." ++ e /\ sign s /\ digits1 d /\ digits1 e.
Definition octet (t : text) : Prop := digits1 t /\ (length t <= 3)%nat.
Definition cidr (t : text) : Prop := t = [] \/ exists d, t = tx "/" ++ d /\ digits1 d /\ (length d <= 2)%nat.
Definition ip_lit (t : text) : Prop :=
  exists o1 o2 o3 o4 m, t = o1 ++ tx "." ++ o2 ++ tx "." ++ o3 ++ tx "." ++ o4 ++ m /\
    octet o1 /\ octet o2 /\ octet o3 /\ octet o4 /\ cidr m.
Definition date_lit (t : text) : Prop :=
  exists y m d, t = y ++ tx "-" ++ m ++ tx "-" ++ d /\ ndigits 4 y /\ ndigits 2 m /\ ndigits 2 d.
Definition secfrac (t : text) : Prop := t = [] \/ exists d, t = tx "." ++ d /\ digits1 d.
Definition zone (t : text) : Prop :=
  t = tx "Z" \/ t = tx "z" \/
  exists s h m, t = s ++ h ++ tx ":" ++ m /\ (s = tx "+" \/ s = tx "-") /\ ndigits 2 h /\ ndigits 2 m.
Definition time_lit (t : text) : Prop :=
  exists h m s f z, t = h ++ tx ":" ++ m ++ tx ":" ++ s ++ f ++ z /\
    ndigits 2 h /\ ndigits 2 m /\ ndigits 2 s /\ secfrac f /\ zone z.
Definition datetime_lit (t : text) : Prop :=
  exists d s u, t = d ++ s ++ u /\ date_lit d /\ (s = tx "T" \/ s = tx "t" \/ s = tx " ") /\ time_lit u.
Definition timestamp_lit (t : text) : Prop := datetime_lit t \/ date_lit t.

(** Name characters: letters in either case, digits, underscore, minus; case folding also
    admits the Kelvin sign and the dotted capital I. *)
Definition name_char (c : N) : Prop :=
  97 <= c <= 122 \/ 65 <= c <= 90 \/ digit c \/ c = 95 \/ c = 45 \/ c = 304 \/ c = 8490.

Section Spec.
Context (O : oracles).

(** Literals: text, position, value *)
Inductive literal : text -> pos -> aval -> Prop :=
| lit_string t s p : quoted t -> unquote (encode t) = Some s -> literal t p (AStr s p)
| lit_regex t v p : regex_lit t -> new_regexp_val O (unescape_slash (encode t)) p = Some v -> literal t p v
| lit_time t v p : timestamp_lit t -> new_time_val (encode t) p = Some v -> literal t p v
| lit_ip t v p : ip_lit t -> new_net_val O (encode t) p = Some v -> literal t p v
| lit_float t v p : float_lit t -> new_float_val O (encode t) p = Some v -> literal t p v
| lit_int t v p : int_lit t -> new_int_val (encode t) p = Some v -> literal t p v
| lit_true p : literal (tx "true") p (ABool true p)
| lit_false p : literal (tx "false") p (ABool false p).

(** Field paths *)
Inductive piece : text -> bytes -> Prop :=
| pc_quoted t s : quoted t -> unquote (encode t) = Some s -> piece t s
| pc_plain t : Forall name_char t -> t <> [] -> piece t (encode t)
| pc_star : piece (tx "*") (b "*").
Inductive pieces : text -> list bytes -> Prop :=
| pcs_one t s : piece t s -> pieces t [s]
| pcs_more t s u l : piece t s -> pieces u l -> pieces (t ++ tx "." ++ u) (s :: l).
(** Pieces equal to a star are dropped. *)
Definition field (t : text) (l : list bytes) : Prop :=
  exists l0, pieces t l0 /\ l = filter (fun s => negb (beqb s (b "*"))) l0.

(** [values pre t vs]: one literal, or two or more in parentheses. *)
Inductive more_values : text -> text -> list aval -> Prop :=
| mv_last pre w1 w2 t v : ws w1 -> ws w2 ->
    literal t (pos_of (pre ++ w1 ++ tx "," ++ w2) t) v ->
    more_values pre (w1 ++ tx "," ++ w2 ++ t) [v]
| mv_cons pre w1 w2 t v u vs : ws w1 -> ws w2 ->
    literal t (pos_of (pre ++ w1 ++ tx "," ++ w2) t) v ->
    more_values (pre ++ w1 ++ tx "," ++ w2 ++ t) u vs ->
    more_values pre (w1 ++ tx "," ++ w2 ++ t ++ u) (v :: vs).
Inductive values : text -> text -> list aval -> Prop :=
| vs_one pre t v : literal t (pos_of pre t) v -> values pre t [v]
| vs_many pre w1 t v u vs w2 : ws w1 -> ws w2 ->
    literal t (pos_of (pre ++ tx "(" ++ w1) t) v ->
    more_values (pre ++ tx "(" ++ w1 ++ t) u vs ->
    values pre (tx "(" ++ w1 ++ t ++ u ++ w2 ++ tx ")") (v :: vs).

Inductive noarg_op : text -> op -> Prop :=
| no_exists : noarg_op (tx "exists") EXS
| no_null : noarg_op (tx "null") NUL.
Inductive comp_op : text -> op -> Prop :=
| co_none : comp_op [] EQ
| co_bet : comp_op (tx "><") BET
| co_sim : comp_op (tx "~") SIM
| co_lt : comp_op (tx "<") LT
| co_lte : comp_op (tx "<=") LTE
| co_gt : comp_op (tx ">") GT
| co_gte : comp_op (tx ">=") GTE.
Inductive not_op : text -> Prop :=
| nt_word w : ws1 w -> not_op (tx "NOT" ++ w)
| nt_bang w : ws w -> not_op (tx "!" ++ w).

(** The four levels; [derives l pre t n]: the text [t], standing after [pre], is a clause of
    level [l] with tree [n]. *)
Inductive level := LOr | LAnd | LNot | LCmp.
Inductive derives : level -> text -> text -> node -> Prop :=
| d_or pre a w1 w2 c x y : ws1 w1 -> ws1 w2 ->
    derives LAnd pre a x -> derives LOr (pre ++ a ++ w1 ++ tx "OR" ++ w2) c y ->
    derives LOr pre (a ++ w1 ++ tx "OR" ++ w2 ++ c) (NOr x y)
| d_or1 pre a x : derives LAnd pre a x -> derives LOr pre a x
| d_and pre a w1 w2 c x y : ws1 w1 -> ws1 w2 ->
    derives LNot pre a x -> derives LAnd (pre ++ a ++ w1 ++ tx "AND" ++ w2) c y ->
    derives LAnd pre (a ++ w1 ++ tx "AND" ++ w2 ++ c) (NAnd x y)
| d_and1 pre a x : derives LNot pre a x -> derives LAnd pre a x
| d_not pre n a x : not_op n -> derives LCmp (pre ++ n) a x -> derives LNot pre (n ++ a) (NNot x)
| d_not1 pre a x : derives LCmp pre a x -> derives LNot pre a x
| d_paren pre w1 w2 a x : ws w1 -> ws w2 -> derives LOr (pre ++ tx "(" ++ w1) a x ->
    derives LCmp pre (tx "(" ++ w1 ++ a ++ w2 ++ tx ")") x
| d_noarg pre f l w1 w2 k o : field f l -> ws w1 -> ws w2 -> noarg_op k o ->
    let t := f ++ w1 ++ tx ":" ++ w2 ++ k in
    derives LCmp pre t (NExpr o l [] (pos_of pre t))
| d_values pre f l w1 w2 k o w3 v vs : field f l -> ws w1 -> ws w2 -> comp_op k o -> ws w3 ->
    values (pre ++ f ++ w1 ++ tx ":" ++ w2 ++ k ++ w3) v vs ->
    let t := f ++ w1 ++ tx ":" ++ w2 ++ k ++ w3 ++ v in
    derives LCmp pre t (NExpr o l vs (pos_of pre t)).

(** A whole query: an OR clause with white space around it. *)
Definition query (t : text) (n : node) : Prop :=
  exists w1 a w2, t = w1 ++ a ++ w2 /\ ws w1 /\ ws w2 /\ derives LOr w1 a n.
End Spec.
