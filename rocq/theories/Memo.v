(** internal/grammar/parser_gen.go with the option Memoize (2346-2358).  No caller sets it; it is what the
    generated parser offers against the cost of nested parentheses (C08).  Engine.v is the parser without it. *)
From Verif Require Import Bytes Utf8 Oracles Ast PegSyntax Grammar Actions Engine.

(** The keys of the inner maps (2715-2717) are pointers to rules and expressions: an expression is named by the
    rule it stands in and the way to it from the top, last step first. *)
Inductive key := KRule (r : rname) | KExpr (r : rname) (path : list nat).
Definition key_eq_dec (x y : key) : {x = y} + {x <> y}.
Proof. repeat decide equality. Defined.
(** resultTuple, 2612-2616 *)
Record result := { re_v : val; re_b : bool; re_end : point }.
(** [memo] as a list, the newest entry first *)
Definition table := list ((Z * key) * result).
Record mstate := { ms : state; memo : table }.
Definition with_ms (m : mstate) (s : state) : mstate := {| ms := s; memo := memo m |}.

(** 2953-2963 getMemoized *)
Fixpoint find_entry (t : table) (o : Z) (k : key) : option result :=
  match t with
  | [] => None
  | ((o', k'), r) :: t' => if (o =? o')%Z then if key_eq_dec k k' then Some r else find_entry t' o k else find_entry t' o k
  end.
Definition get_memo (m : mstate) (k : key) : option result := find_entry (memo m) (off (at_ (pt (ms m)))) k.
(** 2965-2975 setMemoized *)
Definition set_memo (p : point) (k : key) (v : val) (ok : bool) (m : mstate) : mstate :=
  {| ms := ms m; memo := ((off (at_ p), k), {| re_v := v; re_b := ok; re_end := pt (ms m) |}) :: memo m |}.

Inductive mres :=
| MVal (v : val) (f : frame) (m : mstate)
| MFail (m : mstate)
| MPanic (m : mstate)
| MFuel.
Definition mpop (f : frame) (r : mres) : mres := match r with MVal v _ m => MVal v f m | _ => r end.
(** The end of parseRule and parseExpr: 3084-3086, 3149-3151 *)
Definition keep (p : point) (k : key) (r : mres) : mres :=
  match r with
  | MVal v f m => MVal v f (set_memo p k v true m)
  | MFail m => MFail (set_memo p k VNil false m)      (* the value of a failed expression is not used *)
  | _ => r
  end.
(** The start of both: 3066-3072, 3093-3099.  An expression that is found does not set labels. *)
Definition found (m : mstate) (f : frame) (r : result) : mres :=
  let m' := with_ms m (restore (ms m) (re_end r)) in
  if re_b r then MVal (re_v r) f m' else MFail m'.

(** The loops of Engine.v *)
Fixpoint mseq (ev : nat -> expr -> frame -> mstate -> mres) (start : point) (i : nat)
    (es : list expr) (acc : list val) (f : frame) (m : mstate) : mres :=
  match es with
  | [] => MVal (VList (rev acc)) f m
  | e :: es' =>
    match ev i e f m with
    | MVal v f' m' => mseq ev start (S i) es' (v :: acc) f' m'
    | MFail m' => MFail (with_ms m' (restore (ms m') start))
    | r => r
    end
  end.
Fixpoint mchoice (ev : nat -> expr -> frame -> mstate -> mres) (i : nat)
    (es : list expr) (f : frame) (m : mstate) : mres :=
  match es with
  | [] => MFail m
  | e :: es' =>
    match ev i e [] m with
    | MFail m' => mchoice ev (S i) es' f m'
    | r => mpop f r
    end
  end.
Fixpoint mstar (ev : expr -> frame -> mstate -> mres) (k : nat)
    (e : expr) (acc : list val) (f : frame) (m : mstate) : mres :=
  match k with
  | O => MFuel
  | S k' =>
    match ev e [] m with
    | MVal v _ m' => mstar ev k' e (v :: acc) f m'
    | MFail m' => MVal (VList (rev acc)) f m'
    | r => r
    end
  end.
(** A recovery expression with its place in the grammar *)
Definition recovery := (list string * (rname * list nat * expr))%type.
Fixpoint mthrow (ev : rname -> list nat -> expr -> frame -> mstate -> mres) (l : string)
    (recs : list recovery) (f : frame) (m : mstate) : mres :=
  match recs with
  | [] => MFail m
  | (ls, (r, path, e)) :: recs' =>
    if existsb (String.eqb l) ls then
      match ev r path e f m with
      | MFail m' => mthrow ev l recs' f m'
      | x => x
      end
    else mthrow ev l recs' f m
  end.

Section WithOracles.
Context (O : oracles).

(** parseExpr (3090-3153), and parseRule (3061-3088) in the case of a reference to a rule; the expression [e]
    stands in the rule [r] at [path]. *)
Fixpoint meval (n : nat) (inv : bool) (recs : list recovery) (r : rname) (path : list nat)
    (e : expr) (f : frame) (m0 : mstate) {struct n} : mres :=
  match n with
  | 0%nat => MFuel
  | S n' =>
    match get_memo m0 (KExpr r path) with
    | Some x => found m0 f x
    | None =>
      let m := with_ms m0 (tick (ms m0)) in
      let s := ms m in
      let start := pt s in
      let ev := fun i e f m => meval n' inv recs r (i :: path) e f m in
      keep start (KExpr r path)
      match e with
      | EAction a e1 =>
        match ev 0%nat e1 f m with
        | MVal _ f' m' =>
          match run_action O a f' (at_ start) (slice start (pt (ms m'))) with
          | AOk v => MVal v f' m'
          | AErr v k => MVal v f' (with_ms m' (add_err (ms m') k (at_ start)))
          | APanic => MPanic m'
          end
        | x => x
        end
      | ESeq es => mseq ev start 0%nat es [] f m
      | EChoice es => mchoice ev 0%nat es f m
      | ELabel l e1 =>
        match ev 0%nat e1 [] m with
        | MVal v _ m' => MVal v (set_label l v f) m'
        | x => x
        end
      | ERule r' =>
        match get_memo m (KRule r') with
        | Some x => found m f x
        | None => keep start (KRule r') (mpop f (meval n' inv recs r' [] (rules r') [] m))
        end
      | ELit w ic want =>
        match lit_loop ic w s with
        | (Some s', _) => MVal (VBytes (slice start (pt s'))) f (with_ms m (fail_at inv true (at_ start) want s'))
        | (None, s') => MFail (with_ms m (restore (fail_at inv false (at_ start) want s') start))
        end
      | EClass v chars ranges ic invd =>
        if at_eof start then MFail (with_ms m (fail_at inv false (at_ start) v s))
        else
          let c := if ic then to_lower (cur_rune start) else cur_rune start in
          if xorb invd (in_class chars ranges c)
          then let s' := read s in
               MVal (VBytes (slice start (pt s'))) f (with_ms m (fail_at inv true (at_ start) v s'))
          else MFail (with_ms m (fail_at inv false (at_ start) v s))
      | EAny =>
        if at_eof start then MFail (with_ms m (fail_at inv false (at_ start) "." s))
        else
          let s' := read s in
          MVal (VBytes (slice start (pt s'))) f (with_ms m (fail_at inv true (at_ start) "." s'))
      | ENot e1 =>
        match meval n' (negb inv) recs r (0%nat :: path) e1 [] m with
        | MVal _ _ m' => MFail (with_ms m' (restore (ms m') start))
        | MFail m' => MVal VNil f (with_ms m' (restore (ms m') start))
        | x => x
        end
      | EStar e1 => mstar (ev 0%nat) (S (length (rest start))) e1 [] f m
      | EPlus e1 =>
        match mstar (ev 0%nat) (S (length (rest start))) e1 [] f m with
        | MVal (VList []) _ m' => MFail m'
        | x => x
        end
      | EOpt e1 =>
        match ev 0%nat e1 [] m with
        | MVal v _ m' => MVal v f m'
        | MFail m' => MVal VNil f m'
        | x => x
        end
      | ERecover e1 e2 ls => meval n' inv ((ls, (r, 1%nat :: path, e2)) :: recs) r (0%nat :: path) e1 f m
      | EThrow l => mthrow (fun r' path' e' => meval n' inv recs r' path' e') l recs f m
      | EState c => MVal VNil f (with_ms m (add_err s (run_code c) (at_ start)))
      end
    end
  end.

(** parse, 2984-3048, calls parseRule with the start rule; its entry in the table is never read *)
Definition mrun (q : bytes) : mres :=
  meval (fuel_for q) false [] RStart [] (rules RStart) [] {| ms := init_state q; memo := [] |}.
Definition plain (r : mres) : res :=
  match r with
  | MVal v f m => RVal v f (ms m)
  | MFail m => RFail (ms m)
  | MPanic m => RPanic (ms m)
  | MFuel => RFuel
  end.
(** grammar.Parse with Memoize(true) *)
Definition mparse (q : bytes) : presult := parse_result (plain (mrun q)).
Definition count_of (r : res) : N := match r with RVal _ _ s | RFail s | RPanic s => cnt s | RFuel => 0 end.
End WithOracles.
