(** The option MaxExpressions of the generated parser (internal/grammar/parser_gen.go 2272-2283, 2658-2660, 3102-3105). *)
From Verif Require Import Bytes Utf8 Oracles Ast PegSyntax Grammar Actions Engine.

Section WithOracles.
Context (O : oracles) (lim : N).

(** parseExpr with its check of the counter, 3102-3105; otherwise as [eval] in Engine.v. The panic with
    errMaxExprCnt is [RPanic] with a counter above the limit; all other panics have a counter within it. *)
Fixpoint leval (n : nat) (inv : bool) (recs : list (list string * expr))
    (e : expr) (f : frame) (s0 : state) {struct n} : res :=
  match n with
  | 0%nat => RFuel
  | S n' =>
    let s := tick s0 in
    if lim <? cnt s then RPanic s else
    let ev := leval n' inv recs in
    let start := pt s in
    match e with
    | EAction a e1 =>
      match ev e1 f s with
      | RVal _ f' s' =>
        match run_action O a f' (at_ start) (slice start (pt s')) with
        | AOk v => RVal v f' s'
        | AErr v k => RVal v f' (add_err s' k (at_ start))
        | APanic => RPanic s'
        end
      | r => r
      end
    | ESeq es => seq_loop ev start es [] f s
    | EChoice es => choice_loop ev es f s
    | ELabel l e1 =>
      match ev e1 [] s with
      | RVal v _ s' => RVal v (set_label l v f) s'
      | r => r
      end
    | ERule r => pop f (ev (rules r) [] s)
    | ELit w ic want =>
      match lit_loop ic w s with
      | (Some s', _) =>
        RVal (VBytes (slice start (pt s'))) f (fail_at inv true (at_ start) want s')
      | (None, s') =>
        RFail (restore (fail_at inv false (at_ start) want s') start)
      end
    | EClass v chars ranges ic invd =>
      if at_eof start then RFail (fail_at inv false (at_ start) v s)
      else
        let c := if ic then to_lower (cur_rune start) else cur_rune start in
        if xorb invd (in_class chars ranges c)
        then let s' := read s in
             RVal (VBytes (slice start (pt s'))) f (fail_at inv true (at_ start) v s')
        else RFail (fail_at inv false (at_ start) v s)
    | EAny =>
      if at_eof start then RFail (fail_at inv false (at_ start) "." s)
      else
        let s' := read s in
        RVal (VBytes (slice start (pt s'))) f (fail_at inv true (at_ start) "." s')
    | ENot e1 =>
      match leval n' (negb inv) recs e1 [] s with
      | RVal _ _ s' => RFail (restore s' start)
      | RFail s' => RVal VNil f (restore s' start)
      | r => r
      end
    | EStar e1 => star_loop ev (S (length (rest start))) e1 [] f s
    | EPlus e1 =>
      match star_loop ev (S (length (rest start))) e1 [] f s with
      | RVal (VList []) _ s' => RFail s'
      | r => r
      end
    | EOpt e1 =>
      match ev e1 [] s with
      | RVal v _ s' => RVal v f s'
      | RFail s' => RVal VNil f s'
      | r => r
      end
    | ERecover e1 r ls => leval n' inv ((ls, r) :: recs) e1 f s
    | EThrow l => throw_loop ev l recs f s
    | EState c => RVal VNil f (add_err s (run_code c) (at_ start))
    end
  end.
Definition lrun (q : bytes) : res := leval (fuel_for q) false [] (rules RStart) [] (init_state q).
End WithOracles.

(** What grammar.Parse returns: as without the option, or the errors recorded so far, oldest first, and last
    errMaxExprCnt at the place reached (addErr, 2998-3013). *)
Inductive limited :=
| Within (r : presult)
| Exceeded (before : list perr) (place : position).

(** grammar.Parse with MaxExpressions(m). 0 stands for the largest number (2658-2660), and the counter, a uint64
    that wraps around, never exceeds that one. *)
Definition limit_parse (O : oracles) (m : N) (q : bytes) : limited :=
  if (m =? 0) || (2 ^ 64 - 1 <=? m) then Within (parse O q)
  else match lrun O m q with
       | RPanic s => if m <? cnt s then Exceeded (rev (errs s)) (at_ (pt s)) else Within (parse_result (RPanic s))
       | r => Within (parse_result r)
       end.
(** The expressions that were evaluated. *)
Definition limit_count (O : oracles) (m : N) (q : bytes) : N :=
  match (if (m =? 0) || (2 ^ 64 - 1 <=? m) then run O q else lrun O m q) with RVal _ _ s | RFail s | RPanic s => cnt s | RFuel => 0 end.
