(** jsonmatcher on bytes: the functions of json_values.go and Match on top of the byte-level
    model of jsonparser.  Values.v and Matcher.v describe the same functions on the tree of the
    document; MatchBytesProofs.v shows that both agree. *)
From Verif Require Import Bytes GoStrconv Oracles Json Values StrMatch Matcher JsonParser.

(** json_values.go:84-112 getValues, called with dataType == Object *)
Fixpoint get_values_b (path : list bytes) (data : bytes) : res (list jvalue) :=
  match path with
  | [] => Panic                                   (* 80: path.current() is vp[0] *)
  | key :: rest =>
    bind (get_key key data) (fun found =>
      match found with
      | None => Ok []
      | Some (v, t) =>
        match rest with
        | [] => Ok [(v, t)]
        | _ =>
          match t with
          | TObject => get_values_b rest v
          | TArray =>
            concat_res (map (fun e => match snd e with TObject => get_values_b rest (fst e) | _ => Ok [] end)
                            (fst (array_each v)))
          | _ => Ok []
          end
        end
      end)
  end.

(** The matches methods of Matcher.v look at the type of a value, at the bytes of strings,
    numbers and booleans (json_values.go:115-171) and, through scalarValues (30-53), at the
    scalar elements of arrays.  [view] presents a value to them accordingly.
    jsonparser.ParseBoolean compares with true. *)
Definition view_scalar (v : jvalue) : json :=
  match snd v with
  | TString => JStr (fst v)
  | TNumber => JNum (fst v)
  | TBoolean => JBool (beqb (fst v) (b "true"))
  | TNull => JNull
  | TArray => JArr []
  | TObject => JObj []
  end.
Definition view (v : jvalue) : json :=
  match snd v with
  | TArray => JArr (map view_scalar (fst (array_each (fst v))))
  | _ => view_scalar v
  end.

Section WithOracles.
Context (O : oracles).

(** nodes.go:98-114 without the marking *)
Definition expr_result_b (path : list bytes) (es : list fexpr) (root : bytes) : res bool :=
  bind (get_values_b path root) (fun vs =>
    match vs with
    | [] => Ok false
    | _ => any_expr O es (map view vs)
    end).

(** nodes.go:19-25, 37-43, 55-61, 98-114 *)
Fixpoint result_b (m : mnode) (root : bytes) : res (bool * mnode) :=
  match m with
  | MAnd l r st =>
    bind (result_b l root) (fun x =>
      let '(a, l') := x in
      if a then
        bind (result_b r root) (fun y => let '(c, r') := y in Ok (c, MAnd l' r' (mark st c)))
      else Ok (false, MAnd l' r (mark st false)))
  | MOr l r st =>
    bind (result_b l root) (fun x =>
      let '(a, l') := x in
      if a then Ok (true, MOr l' r (mark st true))
      else
        bind (result_b r root) (fun y => let '(c, r') := y in Ok (c, MOr l' r' (mark st c))))
  | MNot e st =>
    bind (result_b e root) (fun x => let '(a, e') := x in Ok (negb a, MNot e' (mark st (negb a))))
  | MExpr path es st =>
    bind (expr_result_b path es root) (fun a => Ok (a, MExpr path es (mark st a)))
  end.

(** jsonmatcher.go:37-42 Match *)
Definition match_bytes (m : mnode) (data : bytes) : res (option bool * mnode) :=
  if json_valid data then bind (result_b m data) (fun x => let '(a, m') := x in Ok (Some a, m'))
  else Ok (None, m).
End WithOracles.
