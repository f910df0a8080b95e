(** How often Match compares a value of the document with a literal of the query. *)
From Verif Require Import Bytes Utf8 GoStrconv GoFloat GoTime GoNet Oracles Ast Json Values StrMatch Matcher.

Section WithOracles.
Context (O : oracles).

(** The outcome, and the number of comparisons made until then. *)
Definition counted := (res bool * N)%type.

(** The loops over the values (expr_float.go:15-50, expr_datetime.go:15-50, expr_equal_bool.go:15-36, expr_regexp.go:12-21,
    expr_net.go:16-49, str_matchers.go:81-89): one comparison per value until one succeeds *)
Fixpoint any_count (f : json -> res bool) (vs : list json) : counted :=
  match vs with
  | [] => (Ok false, 0)
  | v :: vs' =>
    match f v with
    | Ok true => (Ok true, 1)
    | Ok false => let '(r, k) := any_count f vs' in (r, 1 + k)
    | Panic => (Panic, 1)
    end
  end.
(** expr_null.go:12-19: until a value is not null *)
Fixpoint nulls_count (vs : list json) : counted :=
  match vs with
  | [] => (Ok true, 0)
  | v :: vs' => if is_null v then let '(r, k) := nulls_count vs' in (r, 1 + k) else (Ok false, 1)
  end.

(** The matches methods (field_expr.go:3-5), as in Matcher.v *)
Definition matches_count (e : fexpr) (vs : list json) : counted :=
  let with_string f v := match get_string_val O v with Some s => Ok (f s) | None => Ok false end in
  match e with
  | FExists => (Ok (negb (Nat.eqb (length vs) 0)), 0)
  | FNull => nulls_count vs
  | FFloat o v0 v1 =>
    any_count (fun v => match get_number_val O v with Some f => float_op o f v0 v1 | None => Ok false end) (scalar_values vs)
  | FDate o v0 v1 =>
    any_count (fun v => match get_datetime_val O v with Some d => date_op o d v0 v1 | None => Ok false end) (scalar_values vs)
  | FBool x o =>
    any_count (fun v => match o with
                        | EQ => match get_bool_val v with Some y => Ok (Bool.eqb y x) | None => Ok false end
                        | _ => Panic
                        end) (scalar_values vs)
  | FRegex pat => any_count (with_string (o_re_match O pat)) (scalar_values vs)
  | FSearch items => any_count (with_string (rx_match O items)) (scalar_values vs)
  | FUnicode pat => any_count (with_string (o_text_search O pat)) (scalar_values vs)
  | FNet p => any_count (with_string (fun s => existsb (net_hit O p) (find_nets (length s) s))) (scalar_values vs)
  end.

(** nodes.go:101-108 *)
Fixpoint any_expr_count (es : list fexpr) (vs : list json) : counted :=
  match es with
  | [] => (Ok false, 0)
  | e :: es' =>
    match matches_count e vs with
    | (Ok false, k) => let '(r, k') := any_expr_count es' vs in (r, k + k')
    | x => x
    end
  end.
(** nodes.go:98-114 *)
Definition expr_count (path : list bytes) (es : list fexpr) (root : json) : counted :=
  match get_field path root with
  | Ok [] => (Ok false, 0)
  | Ok vs => any_expr_count es vs
  | Panic => (Panic, 0)
  end.
(** nodes.go:18-24, 35-41, 52-58, 98-114 *)
Fixpoint result_count (m : mnode) (root : json) : counted :=
  match m with
  | MAnd l r _ =>
    match result_count l root with
    | (Ok true, k) => let '(x, k') := result_count r root in (x, k + k')
    | x => x
    end
  | MOr l r _ =>
    match result_count l root with
    | (Ok false, k) => let '(x, k') := result_count r root in (x, k + k')
    | x => x
    end
  | MNot e _ =>
    match result_count e root with
    | (Ok a, k) => (Ok (negb a), k)
    | x => x
    end
  | MExpr path es _ => expr_count path es root
  end.
(** jsonmatcher.go:37-42 Match: what it does, and the number of comparisons *)
Definition match_count (m : mnode) (data : bytes) : res (option bool) * N :=
  match parse_json data with
  | None => (Ok None, 0)
  | Some root =>
    let '(r, k) := result_count m root in (bind r (fun a => Ok (Some a)), k)
  end.
End WithOracles.
