(** Action methods of the generated parser, parser_gen.go:1884-2249 (source: aql.peg). *)
From Verif Require Import Bytes Utf8 GoStrconv Oracles Ast PegSyntax.

Inductive ares :=
| AOk (v : val)                      (** (v, nil) *)
| AErr (v : val) (k : err_kind)      (** (v, err) *)
| APanic.                            (** failed type assertion or index out of range *)

(** stack["label"]: a missing key yields nil. *)
Fixpoint get (l : string) (f : frame) : val :=
  match f with
  | [] => VNil
  | (l', v) :: f' => if String.eqb l l' then v else get l f'
  end.

(** Type assertions. *)
Inductive assertion (A : Type) := Yes (a : A) | Poison | No.
Arguments Yes {A} a. Arguments Poison {A}. Arguments No {A}.

Definition as_node (v : val) : assertion node :=
  match v with VNode n => Yes n | VPoison => Poison | _ => No end.
Definition as_val (v : val) : assertion aval :=
  match v with VVal x => Yes x | VPoison => Poison | _ => No end.
Definition as_vals (v : val) : assertion (list aval) :=
  match v with VVals l => Yes l | VPoison => Poison | _ => No end.
Definition as_strs (v : val) : option (list bytes) :=
  match v with VStrs l => Some l | _ => None end.
Definition as_str (v : val) : option bytes :=
  match v with VStr s => Some s | _ => None end.
Definition as_op (v : val) : option op :=
  match v with VOp o => Some o | _ => None end.

(** aql.peg:112-117 toAny: nil gives the empty slice. *)
Definition to_any (v : val) : option (list val) :=
  match v with VNil => Some [] | VList l => Some l | _ => None end.

(** aql.peg:78-85 getpos *)
Definition getpos (p : position) (text : bytes) : pos :=
  {| p_line := line p; p_col := col p; p_off := off p; p_len := Z.of_nat (rune_count text) |}.

(** aql.peg:156-174 removeStars: repeatedly delete the first element equal to star. *)
Definition is_star (s : bytes) : bool := beqb s (b "*").
Definition remove_stars (ss : list bytes) : list bytes := filter (fun s => negb (is_star s)) ss.

(** bytes.Replace(text, backslash-slash, slash, -1) *)
Fixpoint unescape_slash (s : bytes) : bytes :=
  match s with
  | [] => []
  | c :: r =>
    match r with
    | 47 :: r' => if c =? 92 then 47 :: unescape_slash r' else c :: unescape_slash r
    | _ => c :: unescape_slash r
    end
  end.

(** Elements v[1].(string) of the repeated part of Field (parser_gen.go:1996-1999). *)
Fixpoint field_rest (l : list val) : option (list bytes) :=
  match l with
  | [] => Some []
  | v :: l' =>
    match to_any v with
    | Some (_ :: s :: _) =>
      match as_str s, field_rest l' with
      | Some x, Some xs => Some (x :: xs)
      | _, _ => None
      end
    | _ => None
    end
  end.

(** Elements r[3].(ast.Val) of the repeated part of ValueList (parser_gen.go:2047-2050). *)
Fixpoint vals_rest (l : list val) : assertion (list aval) :=
  match l with
  | [] => Yes []
  | v :: l' =>
    match to_any v with
    | Some (_ :: _ :: _ :: x :: _) =>
      match as_val x, vals_rest l' with
      | No, _ => No
      | _, No => No
      | Yes a, Yes r => Yes (a :: r)
      | _, _ => Poison
      end
    | _ => No
    end
  end.

Definition bind_node (v : val) (k : node -> val) : ares :=
  match as_node v with Yes n => AOk (k n) | Poison => AOk VPoison | No => APanic end.

Section WithOracles.
Context (O : oracles).

(** [run_action a frame pos text]: the action with the current variable set, the start
    position of the match ([c.pos]) and the matched text ([c.text]). *)
Definition run_action (a : act) (f : frame) (p : position) (text : bytes) : ares :=
  match a with
  | AStart1 => AOk (get "query" f)                          (* 1884-1886 *)
  | AQuery1 => AOk (get "clause" f)                         (* 1894-1896 *)
  | AOrClause2 =>                                           (* 1904-1909 *)
    match as_node (get "lhs" f), as_node (get "rhs" f) with
    | No, _ | _, No => APanic
    | Yes l, Yes r => AOk (VNode (NOr l r))
    | _, _ => AOk VPoison
    end
  | AAndClause2 =>                                          (* 1917-1922 *)
    match as_node (get "lhs" f), as_node (get "rhs" f) with
    | No, _ | _, No => APanic
    | Yes l, Yes r => AOk (VNode (NAnd l r))
    | _, _ => AOk VPoison
    end
  | ANotClause2 => bind_node (get "cmp" f) (fun n => VNode (NNot n))   (* 1930-1934 *)
  | AComparison2 => AOk (get "query" f)                     (* 1942-1944 *)
  | AComparison10 =>                                        (* 1952-1958 *)
    match as_op (get "operation" f), as_strs (get "field" f) with
    | Some o, Some fl => AOk (VNode (NExpr o fl [] (getpos p text)))
    | _, _ => APanic
    end
  | AComparison19 =>                                        (* 1966-1980 *)
    match (match get "operation" f with VNil => Some EQ | v => as_op v end) with
    | None => APanic
    | Some o =>
      match as_strs (get "field" f) with
      | None => APanic
      | Some fl =>
        match as_vals (get "values" f) with
        | No => APanic
        | Poison => AOk VPoison
        | Yes vs => AOk (VNode (NExpr o fl vs (getpos p text)))
        end
      end
    end
  | AField1 =>                                              (* 1988-2002 *)
    match to_any (get "pieces" f) with
    | None => APanic
    | Some [] => AErr VNil KEmptyField
    | Some [_] => APanic
    | Some (x :: y :: _) =>
      match as_str x, to_any y with
      | Some s, Some l =>
        match field_rest l with
        | Some r => AOk (VStrs (remove_stars (s :: r)))
        | None => APanic
        end
      | _, _ => APanic
      end
    end
  | AUnquotedFieldPiece1 => AOk (VStr text)                 (* 2010-2012 *)
  | AQuotedFieldPiece1 =>                                   (* 2020-2023 *)
    match get "qv" f with VVal (AStr s _) => AOk (VStr s) | _ => APanic end
  | AStar1 => AOk (VStr (b "*"))                            (* 2031-2033 *)
  | AValueList2 =>                                          (* 2041-2052 *)
    match as_val (get "first" f), to_any (get "rest" f) with
    | No, _ | _, None => APanic
    | x, Some l =>
      match l with
      | [] => AErr VNil KParenSingle
      | _ =>
        match x, vals_rest l with
        | _, No => APanic
        | Yes v, Yes r => AOk (VVals (v :: r))
        | _, _ => AOk VPoison
        end
      end
    end
  | AValueList17 =>                                         (* 2060-2062 *)
    match as_val (get "value" f) with
    | Yes v => AOk (VVals [v]) | Poison => AOk VPoison | No => APanic
    end
  | AValue2 =>                                              (* 2070-2072 *)
    match as_val (get "val" f) with
    | Yes v => AOk (VVal v) | Poison => AOk VPoison | No => APanic
    end
  | AValue8 =>                                              (* 2080-2085 *)
    match text with
    | [] => APanic
    | 41 :: _ => AErr VNil KCloseParen
    | _ => AErr VNil (KUnknownValue text)
    end
  | AQuotedValue2 =>                                        (* 2093-2100 *)
    let ps := getpos p text in
    match unquote text with
    | None => AErr VNil (KBadString (p_len ps))
    | Some s => AOk (VVal (new_string_val s ps))
    end
  | ARegexValue2 =>                                         (* 2108-2116 *)
    let ps := getpos p text in
    match new_regexp_val O (unescape_slash text) ps with
    | None => AErr VNil (KBadRegex (p_len ps) (unescape_slash text))
    | Some v => AOk (VVal v)
    end
  | ABoolValue1 =>                                          (* 2124-2126 *)
    match new_bool_val text (getpos p text) with
    | None => AErr VPoison (KBadBool text)
    | Some v => AOk (VVal v)
    end
  | AFloatValue1 =>                                         (* 2134-2141 *)
    let ps := getpos p text in
    match new_float_val O text ps with
    | None => AErr VNil (KBadFloat (p_len ps) text)
    | Some v => AOk (VVal v)
    end
  | AIntValue1 =>                                           (* 2149-2151 *)
    match new_int_val text (getpos p text) with
    | None => AErr VPoison (KBadInt text)
    | Some v => AOk (VVal v)
    end
  | AIPValue1 =>                                            (* 2159-2166 *)
    let ps := getpos p text in
    match new_net_val O text ps with
    | None => AErr VNil (KBadNet (p_len ps) (net_text text))
    | Some v => AOk (VVal v)
    end
  | ATimestamp1 =>                                          (* 2174-2181 *)
    let ps := getpos p text in
    match new_time_val text ps with
    | None => AErr VNil (KBadTime (p_len ps) text)
    | Some v => AOk (VVal v)
    end
  | AopNoArgs1 =>                                           (* 2189-2198 *)
    if beqb text (b "exists") then AOk (VOp EXS) else AOk (VOp NUL)
  | AopComp1 =>                                             (* 2206-2223 *)
    if beqb text (b "><") then AOk (VOp BET)
    else if beqb text (b "~") then AOk (VOp SIM)
    else if beqb text (b "<") then AOk (VOp LT)
    else if beqb text (b "<=") then AOk (VOp LTE)
    else if beqb text (b ">") then AOk (VOp GT)
    else AOk (VOp GTE)
  end.

(** State code blocks: onErrUntermStr1 (2231-2233), onErrUntermRegex1 (2241-2243). *)
Definition run_code (c : code) : err_kind :=
  match c with CUntermStr => KUntermStr | CUntermRegex => KUntermRegex end.

End WithOracles.
