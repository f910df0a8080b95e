(** jsonmatcher: comparisons, nodes, builder, Match and statistics. *)
From Verif Require Import Bytes Utf8 GoStrconv GoFloat GoTime GoNet Oracles Ast Json Values StrMatch.

(** The implementations of fieldExpr (field_expr.go). *)
Inductive fexpr :=
| FExists                              (** expr_exists.go *)
| FNull                                (** expr_null.go *)
| FFloat (o : op) (v0 v1 : f64)        (** expr_float.go:9-12 *)
| FDate (o : op) (v0 v1 : Z)           (** expr_datetime.go:9-12 *)
| FBool (v : bool) (o : op)            (** expr_equal_bool.go:9-12 *)
| FRegex (pat : bytes)                 (** expr_regexp.go:7-9, a pattern from the query *)
| FSearch (items : list rx_item)       (** expr_regexp.go:7-9, the pattern made from a string *)
| FUnicode (pat : bytes)               (** str_matchers.go:71-79 *)
| FNet (p : prefix).                   (** expr_net.go:11-13 *)

(** ** Addresses in a text: regular expression (?:\d{1,3}\.){3}\d{1,3}(?:/\d{1,2})? *)

(** expr_net.go:9: up to [n] digits, at least one *)
Fixpoint upto_digits (n : nat) (s : bytes) : bytes * bytes :=
  match n, s with
  | S n', c :: r => if is_digit c then let (a, t) := upto_digits n' r in (c :: a, t) else ([], s)
  | _, _ => ([], s)
  end.

(** expr_net.go:9: k times up to three digits and a dot.  Giving back digits never helps,
    since a digit would have to be a dot. *)
Fixpoint net_groups (k : nat) (s : bytes) : option (bytes * bytes) :=
  match k with
  | 0%nat => Some ([], s)
  | S k' =>
    match upto_digits 3 s with
    | ([], _) => None
    | (ds, t) =>
      match t with
      | c :: t' =>
        if c =? 46 then
          match net_groups k' t' with
          | Some (g, u) => Some (ds ++ 46 :: g, u)
          | None => None
          end
        else None
      | [] => None
      end
    end
  end.

(** expr_net.go:9: the optional prefix length *)
Definition net_suffix (s : bytes) : bytes * bytes :=
  match s with
  | c :: t =>
    if c =? 47 then
      match upto_digits 2 t with
      | ([], _) => ([], s)
      | (ds, u) => (c :: ds, u)
      end
    else ([], s)
  | [] => ([], s)
  end.

(** expr_net.go:9: the match starting at the front of the text and what follows it *)
Definition net_here (s : bytes) : option (bytes * bytes) :=
  match net_groups 3 s with
  | None => None
  | Some (g, t) =>
    match upto_digits 3 t with
    | ([], _) => None
    | (ds, u) => let (x, w) := net_suffix u in Some (g ++ ds ++ x, w)
    end
  end.

(** expr_net.go:22 FindAllStringIndex: successive leftmost matches.  Fuel is the length. *)
Fixpoint find_nets (fuel : nat) (s : bytes) : list bytes :=
  match fuel with
  | 0%nat => []
  | S f =>
    match net_here s with
    | Some (m, t) => m :: find_nets f t
    | None => match s with [] => [] | _ :: r => find_nets f r end
    end
  end.

Section WithOracles.
Context (O : oracles).

(** expr_net.go:24-45: one candidate *)
Definition net_hit (p : prefix) (cand : bytes) : bool :=
  if has_byte 47 cand then
    match parse_prefix (o_strict_bits O) cand with
    | Some q => net_overlaps p q
    | None => false
    end
  else
    match parse_addr4 cand with
    | Some a => net_contains p a
    | None => false
    end.

(** A loop over scalar values that stops at the first success. *)
Fixpoint any_res (f : json -> res bool) (vs : list json) : res bool :=
  match vs with
  | [] => Ok false
  | v :: vs' => bind (f v) (fun r => if r then Ok true else any_res f vs')
  end.

(** expr_float.go:20-48 *)
Definition float_op (o : op) (f v0 v1 : f64) : res bool :=
  match o with
  | EQ => Ok (f_eq f v0)
  | LT => Ok (f_lt f v0)
  | LTE => Ok (f_le f v0)
  | GT => Ok (f_gt f v0)
  | GTE => Ok (f_ge f v0)
  | BET => Ok (f_ge f v0 && f_le f v1)
  | SIM | EXS | NUL => Panic
  end.

(** expr_datetime.go:20-48 *)
Definition date_op (o : op) (d v0 v1 : Z) : res bool :=
  match o with
  | EQ => Ok (d =? v0)%Z
  | LT => Ok (d <? v0)%Z
  | LTE => Ok (d <=? v0)%Z
  | GT => Ok (v0 <? d)%Z
  | GTE => Ok (v0 <=? d)%Z
  | BET => Ok ((v0 <=? d) && (d <=? v1))%Z
  | SIM | EXS | NUL => Panic
  end.

(** expr_null.go:12-19 *)
Definition is_null (j : json) : bool := match j with JNull => true | _ => false end.

(** The matches methods; [vs] are the values of the field. *)
Definition matches (e : fexpr) (vs : list json) : res bool :=
  let with_string f v := match get_string_val O v with Some s => Ok (f s) | None => Ok false end in
  match e with
  | FExists => Ok (negb (Nat.eqb (length vs) 0))                           (* expr_exists.go:7-9 *)
  | FNull => Ok (forallb is_null vs)                                       (* expr_null.go:12-19 *)
  | FFloat o v0 v1 =>                                                      (* expr_float.go:14-51 *)
    any_res (fun v => match get_number_val O v with
                      | Some f => float_op o f v0 v1
                      | None => Ok false
                      end) (scalar_values vs)
  | FDate o v0 v1 =>                                                       (* expr_datetime.go:14-51 *)
    any_res (fun v => match get_datetime_val O v with
                      | Some d => date_op o d v0 v1
                      | None => Ok false
                      end) (scalar_values vs)
  | FBool x o =>                                                           (* expr_equal_bool.go:14-37 *)
    any_res (fun v => match o with
                      | EQ => match get_bool_val v with Some y => Ok (Bool.eqb y x) | None => Ok false end
                      | _ => Panic
                      end) (scalar_values vs)
  | FRegex pat => any_res (with_string (o_re_match O pat)) (scalar_values vs)     (* expr_regexp.go:11-22 *)
  | FSearch items => any_res (with_string (rx_match O items)) (scalar_values vs)  (* expr_regexp.go:11-22 *)
  | FUnicode pat => any_res (with_string (o_text_search O pat)) (scalar_values vs) (* str_matchers.go:81-89 *)
  | FNet p =>                                                              (* expr_net.go:15-50 *)
    any_res (with_string (fun s => existsb (net_hit p) (find_nets (length s) s))) (scalar_values vs)
  end.

(** ** Nodes *)

(** node_stats.go:16-20 *)
Record node_stats := { ns_name : bytes; ns_checked : Z; ns_matched : Z }.

(** nodes.go:14-17, 32-35, 50-53, 92-96 *)
Inductive mnode :=
| MAnd (l r : mnode) (st : node_stats)
| MOr (l r : mnode) (st : node_stats)
| MNot (e : mnode) (st : node_stats)
| MExpr (path : list bytes) (exprs : list fexpr) (st : node_stats).

(** node_stats.go:22-27 mark; the counters are 64 bit signed *)
Definition mark (st : node_stats) (matched : bool) : node_stats :=
  {| ns_name := ns_name st;
     ns_checked := wrap64 (ns_checked st + 1);
     ns_matched := if matched then wrap64 (ns_matched st + 1) else ns_matched st |}.

(** nodes.go:101-108: the first expression that matches *)
Fixpoint any_expr (es : list fexpr) (vs : list json) : res bool :=
  match es with
  | [] => Ok false
  | e :: es' => bind (matches e vs) (fun r => if r then Ok true else any_expr es' vs)
  end.

(** nodes.go:98-114 without the marking *)
Definition expr_result (path : list bytes) (es : list fexpr) (root : json) : res bool :=
  bind (get_field path root) (fun vs =>
    match vs with
    | [] => Ok false
    | _ => any_expr es vs
    end).

(** nodes.go:19-25, 37-43, 55-61, 98-114: the result and the node with updated counters *)
Fixpoint result (m : mnode) (root : json) : res (bool * mnode) :=
  match m with
  | MAnd l r st =>
    bind (result l root) (fun x =>
      let '(a, l') := x in
      if a then
        bind (result r root) (fun y => let '(c, r') := y in Ok (c, MAnd l' r' (mark st c)))
      else Ok (false, MAnd l' r (mark st false)))
  | MOr l r st =>
    bind (result l root) (fun x =>
      let '(a, l') := x in
      if a then Ok (true, MOr l' r (mark st true))
      else
        bind (result r root) (fun y => let '(c, r') := y in Ok (c, MOr l' r' (mark st c))))
  | MNot e st =>
    bind (result e root) (fun x => let '(a, e') := x in Ok (negb a, MNot e' (mark st (negb a))))
  | MExpr path es st =>
    bind (expr_result path es root) (fun a => Ok (a, MExpr path es (mark st a)))
  end.

(** jsonmatcher.go:37-42 Match: [None] is the error invalid JSON *)
Definition match_doc (m : mnode) (data : bytes) : res (option bool * mnode) :=
  match parse_json data with
  | None => Ok (None, m)
  | Some root => bind (result m root) (fun x => let '(a, m') := x in Ok (Some a, m'))
  end.

(** node_stats.go:5-10 *)
Inductive match_stats := MatchStats (name : bytes) (checked matched : Z) (children : list match_stats).

(** node_stats.go:29-42 toStatsNode *)
Definition to_stats_node (st : node_stats) (children : list match_stats) : match_stats :=
  MatchStats (ns_name st) (ns_checked st) (ns_matched st) children.

(** nodes.go:27-29, 45-47, 63-65, 116-121 and jsonmatcher.go:55-57: all four call
    toStatsNode without children *)
Definition stats (m : mnode) : match_stats :=
  match m with
  | MAnd _ _ st | MOr _ _ st | MNot _ st | MExpr _ _ st => to_stats_node st []
  end.

(** ** Builder *)

(** str_matchers.go:13-24 getStringMatcher *)
Definition string_matcher (s : bytes) : res fexpr :=
  if negb (is_ascii s) && negb (has_wildcard s) then Ok (FUnicode s)
  else match rx_compile (search_source O s) with
       | Some items => Ok (FSearch items)
       | None => Panic
       end.

Definition instant_add (t : instant) (sec : Z) : instant := {| i_sec := i_sec t + sec; i_nsec := i_nsec t |}.

(** expr_eq.go:22-69: one value *)
Definition eq_matcher (v : aval) : res fexpr :=
  match v with
  | AStr s _ => string_matcher s
  | ARegex pat _ _ => Ok (FRegex pat)
  | AFloat f _ _ => Ok (FFloat EQ f f_zero)
  | AInt i _ _ => Ok (FFloat EQ (f_of_Z i) f_zero)
  | ABool x _ => Ok (FBool x EQ)
  | ATime t true _ _ =>
    Ok (FDate BET (unix_nano t) (wrap64 (unix_nano (instant_add t 86400) - 1)))
  | ATime t false _ _ => Ok (FDate EQ (unix_nano t) 0)
  | ANet p _ _ => Ok (FNet p)
  end.

(** expr_eq.go:21-71 *)
Fixpoint eq_matchers (vs : list aval) : res (list fexpr) :=
  match vs with
  | [] => Ok []
  | v :: vs' => bind (eq_matcher v) (fun e => bind (eq_matchers vs') (fun es => Ok (e :: es)))
  end.
Definition expr_eq (vs : list aval) : res (list fexpr) :=
  match vs with [] => Panic | _ => eq_matchers vs end.

(** expr_numeric.go:9-34 *)
Definition expr_numeric (o : op) (vs : list aval) : res fexpr :=
  match vs with
  | [AFloat f _ _] => Ok (FFloat o f f_zero)
  | [AInt i _ _] => Ok (FFloat o (f_of_Z i) f_zero)
  | [ATime t _ _ _] => Ok (FDate o (unix_nano t) 0)
  | _ => Panic
  end.

(** expr_between.go:24-35: a value that is not a number leaves zero *)
Definition between_num (v : aval) : f64 :=
  match v with AFloat f _ _ => f | AInt i _ _ => f_of_Z i | _ => f_zero end.

(** expr_between.go:9-50 *)
Definition expr_between (vs : list aval) : res fexpr :=
  match vs with
  | [v0; v1] =>
    match v0 with
    | AFloat _ _ _ | AInt _ _ _ => Ok (FFloat BET (between_num v0) (between_num v1))
    | ATime t _ _ _ =>
      match v1 with
      | ATime u _ _ _ => Ok (FDate BET (unix_nano t) (unix_nano u))
      | _ => Panic                                  (* 41: failed type assertion *)
      end
    | _ => Panic
    end
  | _ => Panic
  end.

Definition new_stats (name : bytes) : node_stats := {| ns_name := name; ns_checked := 0; ns_matched := 0 |}.

(** build_matcher.go:88-117: the expressions of a comparison *)
Definition build_exprs (o : op) (vs : list aval) : res (list fexpr) :=
  match o with
  | EXS => Ok [FExists]
  | NUL => Ok [FNull]
  | LT | LTE | GT | GTE => bind (expr_numeric o vs) (fun e => Ok [e])
  | BET => bind (expr_between vs) (fun e => Ok [e])
  | EQ | SIM => expr_eq vs
  end.

(** build_matcher.go:27-123 build, with statistics *)
Fixpoint build (n : node) : res mnode :=
  match n with
  | NAnd l r =>
    bind (build l) (fun x => bind (build r) (fun y => Ok (MAnd x y (new_stats (b "AND")))))
  | NOr l r =>
    bind (build l) (fun x => bind (build r) (fun y => Ok (MOr x y (new_stats (b "OR")))))
  | NNot e => bind (build e) (fun x => Ok (MNot x (new_stats (b "NOT"))))
  | NExpr o f vs _ =>
    bind (build_exprs o vs) (fun es => Ok (MExpr f es (new_stats (friendly_string O o f vs))))
  end.
End WithOracles.
