(** The generated PEG interpreter, parser_gen.go:2618-3540.

    Not modelled: memoization and debugging output (options never set by grammar.Parse's
    callers), statistics other than ExprCnt, and the [state] store (no action uses it).
    The parser's remaining input is kept as the list of bytes from the current offset on. *)
From Verif Require Import Bytes Utf8 Oracles Ast PegSyntax Grammar Actions.

(** savepoint, parser_gen.go:2450-2454: the current rune and its width are those of the
    first rune of [rest]. *)
Record point := { at_ : position; rest : bytes }.

(** The part of [parser] (2702-2743) that is not restored by backtracking:
    recorded errors (newest first), farthest failure, number of expressions evaluated. *)
Record state := {
  pt : point;
  errs : list perr;
  mf_pos : position;
  mf_exp : list string;
  cnt : N }.

Definition set_pt (s : state) (p : point) : state :=
  {| pt := p; errs := errs s; mf_pos := mf_pos s; mf_exp := mf_exp s; cnt := cnt s |}.
Definition add_err (s : state) (k : err_kind) (p : position) : state :=
  {| pt := pt s; errs := {| pe_kind := k; pe_pos := p |} :: errs s;
     mf_pos := mf_pos s; mf_exp := mf_exp s; cnt := cnt s |}.
Definition tick (s : state) : state :=
  {| pt := pt s; errs := errs s; mf_pos := mf_pos s; mf_exp := mf_exp s; cnt := cnt s + 1 |}.

(** current rune and width *)
Definition cur_rune (p : point) : N := fst (decode_rune (rest p)).
Definition cur_width (p : point) : nat := snd (decode_rune (rest p)).
Definition at_eof (p : point) : bool := (cur_rune p =? rune_error) && Nat.eqb (cur_width p) 0.

(** read, 2869-2886 *)
Definition next_point (p : point) : point :=
  let rest' := skipn (cur_width p) (rest p) in
  let off' := (off (at_ p) + Z.of_nat (cur_width p))%Z in
  if fst (decode_rune rest') =? 10
  then {| at_ := {| line := line (at_ p) + 1; col := 0; off := off' |}; rest := rest' |}
  else {| at_ := {| line := line (at_ p); col := col (at_ p) + 1; off := off' |}; rest := rest' |}.
Definition read_at (s : state) (p : point) : state :=
  let s' := set_pt s p in
  if (cur_rune p =? rune_error) && Nat.eqb (cur_width p) 1
  then add_err s' KInvalidEncoding (at_ p) else s'.
Definition read (s : state) : state := read_at s (next_point (pt s)).

(** restore, 2889-2897 *)
Definition restore (s : state) (p : point) : state :=
  if (off (at_ p) =? off (at_ (pt s)))%Z then s else set_pt s p.

(** failAt, 2850-2867; [inv] is p.maxFailInvertExpected *)
Definition fail_at (inv fail : bool) (p : position) (want : string) (s : state) : state :=
  if negb (Bool.eqb fail inv) then s
  else if (off p <? off (mf_pos s))%Z then s
  else
    let w := if inv then String.append "!" want else want in
    if (off (mf_pos s) <? off p)%Z
    then {| pt := pt s; errs := errs s; mf_pos := p; mf_exp := [w]; cnt := cnt s |}
    else {| pt := pt s; errs := errs s; mf_pos := mf_pos s; mf_exp := mf_exp s ++ [w]; cnt := cnt s |}.

(** sliceFrom, 2949-2951 *)
Definition slice (start now : point) : bytes :=
  firstn (length (rest start) - length (rest now)) (rest start).

(** unicode.ToLower, restricted to what can matter: the case-insensitive matchers of the
    grammar only contain ASCII characters, and besides ASCII only U+0130 and U+212A have an
    ASCII lower-case form. *)
Definition to_lower (c : N) : N :=
  if (65 <=? c) && (c <=? 90) then c + 32
  else if c =? 304 then 105
  else if c =? 8490 then 107
  else c.

(** the membership tests of parseCharClassMatcher, 3243-3287 *)
Definition in_class (chars : list N) (ranges : list (N * N)) (c : N) : bool :=
  existsb (fun x => x =? c) chars || existsb (fun '(l, h) => (l <=? c) && (c <=? h)) ranges.

(** Outcome of parseExpr.  The variable set is not returned on failure: every construct
    that continues after a failed sub-expression evaluated it in a fresh variable set
    (the recovery expressions of the grammar are rule references). *)
Inductive res :=
| RVal (v : val) (f : frame) (s : state)
| RFail (s : state)
| RPanic (s : state)
| RFuel.

Definition set_label (l : string) (v : val) (f : frame) : frame := (l, v) :: f.

(** Keep the value, drop the pushed variable set (popV). *)
Definition pop (f : frame) (r : res) : res :=
  match r with RVal v _ s => RVal v f s | _ => r end.

(** parseSeqExpr, 3455-3474; [acc] is reversed *)
Fixpoint seq_loop (ev : expr -> frame -> state -> res) (start : point)
    (es : list expr) (acc : list val) (f : frame) (s : state) : res :=
  match es with
  | [] => RVal (VList (rev acc)) f s
  | e :: es' =>
    match ev e f s with
    | RVal v f' s' => seq_loop ev start es' (v :: acc) f' s'
    | RFail s' => RFail (restore s' start)
    | r => r
    end
  end.

(** parseChoiceExpr, 3309-3331 *)
Fixpoint choice_loop (ev : expr -> frame -> state -> res)
    (es : list expr) (f : frame) (s : state) : res :=
  match es with
  | [] => RFail s
  | e :: es' =>
    match ev e [] s with
    | RFail s' => choice_loop ev es' f s'
    | r => pop f r
    end
  end.

(** parseZeroOrMoreExpr 3504-3520; [k] bounds the number of iterations (running out means
    the Go loop would not terminate) *)
Fixpoint star_loop (ev : expr -> frame -> state -> res) (k : nat)
    (e : expr) (acc : list val) (f : frame) (s : state) : res :=
  match k with
  | O => RFuel
  | S k' =>
    match ev e [] s with
    | RVal v _ s' => star_loop ev k' e (v :: acc) f s'
    | RFail s' => RVal (VList (rev acc)) f s'
    | r => r
    end
  end.

(** parseThrowExpr, 3488-3502 *)
Fixpoint throw_loop (ev : expr -> frame -> state -> res) (l : string)
    (recs : list (list string * expr)) (f : frame) (s : state) : res :=
  match recs with
  | [] => RFail s
  | (ls, e) :: recs' =>
    if existsb (String.eqb l) ls then
      match ev e f s with
      | RFail s' => throw_loop ev l recs' f s'
      | r => r
      end
    else throw_loop ev l recs' f s
  end.

(** parseLitMatcher, 3348-3368 *)
Fixpoint lit_loop (ic : bool) (want : list N) (s : state) : option state * state :=
  match want with
  | [] => (Some s, s)
  | w :: ws =>
    let c := cur_rune (pt s) in
    if (if ic then to_lower c else c) =? w then lit_loop ic ws (read s) else (None, s)
  end.

Section WithOracles.
Context (O : oracles).

(** parseExpr, 3090-3153, and the functions it dispatches to. *)
Fixpoint eval (n : nat) (inv : bool) (recs : list (list string * expr))
    (e : expr) (f : frame) (s0 : state) {struct n} : res :=
  match n with
  | 0%nat => RFuel
  | S n' =>
    let s := tick s0 in
    let ev := eval n' inv recs in
    let start := pt s in
    match e with
    | EAction a e1 =>                                            (* 3155-3177 *)
      match ev e1 f s with
      | RVal _ f' s' =>
        match run_action O a f' (at_ start) (slice start (pt s')) with
        | AOk v => RVal v f' s'
        | AErr v k => RVal v f' (add_err s' k (at_ start))
        | APanic => RPanic s'
        end
      | r => r
      end
    | ESeq es => seq_loop ev start es [] f s                     (* 3455-3474 *)
    | EChoice es => choice_loop ev es f s                        (* 3309-3331 *)
    | ELabel l e1 =>                                             (* 3333-3346 *)
      match ev e1 [] s with
      | RVal v _ s' => RVal v (set_label l v f) s'
      | r => r
      end
    | ERule r => pop f (ev (rules r) [] s)                       (* 3438-3453, 3061-3088 *)
    | ELit w ic want =>                                          (* 3348-3368 *)
      match lit_loop ic w s with
      | (Some s', _) =>
        RVal (VBytes (slice start (pt s'))) f (fail_at inv true (at_ start) want s')
      | (None, s') =>
        RFail (restore (fail_at inv false (at_ start) want s') start)
      end
    | EClass v chars ranges ic invd =>                           (* 3228-3307 *)
      if at_eof start then RFail (fail_at inv false (at_ start) v s)
      else
        let c := if ic then to_lower (cur_rune start) else cur_rune start in
        if xorb invd (in_class chars ranges c)
        then let s' := read s in
             RVal (VBytes (slice start (pt s'))) f (fail_at inv true (at_ start) v s')
        else RFail (fail_at inv false (at_ start) v s)
    | EAny =>                                                    (* 3212-3226 *)
      if at_eof start then RFail (fail_at inv false (at_ start) "." s)
      else
        let s' := read s in
        RVal (VBytes (slice start (pt s'))) f (fail_at inv true (at_ start) "." s')
    | ENot e1 =>                                                 (* 3386-3402 *)
      match eval n' (negb inv) recs e1 [] s with
      | RVal _ _ s' => RFail (restore s' start)
      | RFail s' => RVal VNil f (restore s' start)
      | r => r
      end
    | EStar e1 => star_loop ev (S (length (rest start))) e1 [] f s      (* 3504-3520 *)
    | EPlus e1 =>                                                (* 3404-3424 *)
      match star_loop ev (S (length (rest start))) e1 [] f s with
      | RVal (VList []) _ s' => RFail s'
      | r => r
      end
    | EOpt e1 =>                                                 (* 3522-3534 *)
      match ev e1 [] s with
      | RVal v _ s' => RVal v f s'
      | RFail s' => RVal VNil f s'
      | r => r
      end
    | ERecover e1 r ls => eval n' inv ((ls, r) :: recs) e1 f s   (* 3426-3436 *)
    | EThrow l => throw_loop ev l recs f s                       (* 3488-3502 *)
    | EState c => RVal VNil f (add_err s (run_code c) (at_ start))   (* 3476-3486 *)
    end
  end.

(** newParser, 2635-2661: line 1, column 0, before the first rune *)
Definition init_state (q : bytes) : state :=
  let p0 := if fst (decode_rune q) =? 10
            then {| at_ := {| line := 2; col := 0; off := 0 |}; rest := q |}
            else {| at_ := {| line := 1; col := 1; off := 0 |}; rest := q |} in
  read_at {| pt := p0; errs := []; mf_pos := {| line := 1; col := 1; off := 0 |};
             mf_exp := []; cnt := 0 |} p0.

Inductive presult :=
| PVal (v : val)                       (** no error recorded *)
| PErr (first : perr) (others : list perr)  (** errors, oldest first *)
| PFuel.

Definition finish (v : val) (s : state) : presult :=
  match rev (errs s) with
  | [] => PVal v
  | e :: es => PErr e es
  end.

(** parse, 2984-3048; the start rule is Start (newParser) *)
Definition parse_result (r : res) : presult :=
  match r with
  | RVal v _ s => finish v s
  | RPanic s => finish VNil (add_err s KPanic (at_ (pt s)))
  | RFail s =>
    match errs s with
    | [] => finish VNil (add_err s (KNoMatch (mf_exp s)) (mf_pos s))
    | _ => finish VNil s
    end
  | RFuel => PFuel
  end.

(** Enough fuel for every input (proved in EngineBasics): recursion depth is bounded by
    this constant times the input length. *)
Definition fuel_for (q : bytes) : nat := 400 * S (length q).

Definition run (q : bytes) : res :=
  eval (fuel_for q) false [] (rules RStart) [] (init_state q).

(** grammar.Parse, 2434-2436 *)
Definition parse (q : bytes) : presult := parse_result (run q).

(** aql.peg:36-60 (GetParseError): length reported for the first error *)
Definition err_len (k : err_kind) : Z :=
  match k with
  | KBadString n | KBadRegex n _ | KBadFloat n _ | KBadNet n _ | KBadTime n _ => n
  | _ => 1
  end%Z.
Definition err_pos (e : perr) : pos :=
  {| p_line := line (pe_pos e); p_col := col (pe_pos e); p_off := off (pe_pos e);
     p_len := err_len (pe_kind e) |}.

End WithOracles.
