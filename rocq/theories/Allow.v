(** The option AllowInvalidUTF8 of the generated parser (internal/grammar/parser_gen.go 2360-2372, 2881-2885). *)
From Verif Require Import Bytes Utf8 Oracles Ast PegSyntax Grammar Actions Engine.

(** read with the option, 2869-2886: no error for a byte that is not UTF-8. *)
Definition allow_read (s : state) : state := set_pt s (next_point (pt s)).
(** parseLitMatcher, 3348-3368 *)
Fixpoint allow_lit (ic : bool) (want : list N) (s : state) : option state * state :=
  match want with
  | [] => (Some s, s)
  | w :: ws =>
    let c := cur_rune (pt s) in
    if (if ic then to_lower c else c) =? w then allow_lit ic ws (allow_read s) else (None, s)
  end.

Section WithOracles.
Context (O : oracles).

(** parseExpr, 3090-3153, as [eval] in Engine.v but with [allow_read]. *)
Fixpoint aeval (n : nat) (inv : bool) (recs : list (list string * expr))
    (e : expr) (f : frame) (s0 : state) {struct n} : res :=
  match n with
  | 0%nat => RFuel
  | S n' =>
    let s := tick s0 in
    let ev := aeval n' inv recs in
    let start := pt s in
    match e with
    | EAction a e1 =>
      match ev e1 f s with
      | RVal _ f' s' =>
        match run_action O a f' (at_ start) (slice start (pt s')) with
        | AOk v => RVal v f' s'
        | AErr v k => RVal v f' (add_err s' k (at_ start))
        | APanic => RPanic s'
        end
      | r => r
      end
    | ESeq es => seq_loop ev start es [] f s
    | EChoice es => choice_loop ev es f s
    | ELabel l e1 =>
      match ev e1 [] s with
      | RVal v _ s' => RVal v (set_label l v f) s'
      | r => r
      end
    | ERule r => pop f (ev (rules r) [] s)
    | ELit w ic want =>
      match allow_lit ic w s with
      | (Some s', _) =>
        RVal (VBytes (slice start (pt s'))) f (fail_at inv true (at_ start) want s')
      | (None, s') =>
        RFail (restore (fail_at inv false (at_ start) want s') start)
      end
    | EClass v chars ranges ic invd =>
      if at_eof start then RFail (fail_at inv false (at_ start) v s)
      else
        let c := if ic then to_lower (cur_rune start) else cur_rune start in
        if xorb invd (in_class chars ranges c)
        then let s' := allow_read s in
             RVal (VBytes (slice start (pt s'))) f (fail_at inv true (at_ start) v s')
        else RFail (fail_at inv false (at_ start) v s)
    | EAny =>
      if at_eof start then RFail (fail_at inv false (at_ start) "." s)
      else
        let s' := allow_read s in
        RVal (VBytes (slice start (pt s'))) f (fail_at inv true (at_ start) "." s')
    | ENot e1 =>
      match aeval n' (negb inv) recs e1 [] s with
      | RVal _ _ s' => RFail (restore s' start)
      | RFail s' => RVal VNil f (restore s' start)
      | r => r
      end
    | EStar e1 => star_loop ev (S (length (rest start))) e1 [] f s
    | EPlus e1 =>
      match star_loop ev (S (length (rest start))) e1 [] f s with
      | RVal (VList []) _ s' => RFail s'
      | r => r
      end
    | EOpt e1 =>
      match ev e1 [] s with
      | RVal v _ s' => RVal v f s'
      | RFail s' => RVal VNil f s'
      | r => r
      end
    | ERecover e1 r ls => aeval n' inv ((ls, r) :: recs) e1 f s
    | EThrow l => throw_loop ev l recs f s
    | EState c => RVal VNil f (add_err s (run_code c) (at_ start))
    end
  end.

(** The parser before its first expression: the first read gives no error either. *)
Definition allow_init (q : bytes) : state :=
  let p0 := if fst (decode_rune q) =? 10
            then {| at_ := {| line := 2; col := 0; off := 0 |}; rest := q |}
            else {| at_ := {| line := 1; col := 1; off := 0 |}; rest := q |} in
  {| pt := p0; errs := []; mf_pos := {| line := 1; col := 1; off := 0 |}; mf_exp := []; cnt := 0 |}.
Definition allow_run (q : bytes) : res := aeval (fuel_for q) false [] (rules RStart) [] (allow_init q).
(** grammar.Parse with AllowInvalidUTF8(true) *)
Definition allow_parse (q : bytes) : presult := parse_result (allow_run q).
End WithOracles.
