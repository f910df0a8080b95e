(** encoding/json.Marshal and json.MarshalIndent (Go 1.20), as far as the repository uses them:
    cmd/aqltest/main.go:57 on jsonmatcher.MatchStats, wasm/aqlparse/main.go:20 on ast.Node,
    parser/message.go on ParserMessage. *)
From Verif Require Import Bytes Utf8 GoItoa Ast.

(** What encoding/json sees of a Go value: a nil slice or pointer, an integer, a string, a slice,
    a struct with the JSON names of its exported fields. *)
Inductive jtree :=
| TNull
| TInt (z : Z)
| TStr (s : bytes)
| TList (l : list jtree)
| TObj (l : list (string * jtree)).

(** encode.go: the constant hex *)
Definition hex_lower (v : N) : N := if v <? 10 then 48 + v else 87 + v.
(** tables.go htmlSafeSet, for bytes below 128 *)
Definition html_safe (c : N) : bool :=
  (32 <=? c) && negb (c =? 34) && negb (c =? 38) && negb (c =? 60) && negb (c =? 62) && negb (c =? 92).
(** encode.go encodeState.string, the switch for bytes below 128 that are not safe *)
Definition escape_byte (c : N) : bytes :=
  if (c =? 92) || (c =? 34) then [92; c]
  else if c =? 10 then b "\n"
  else if c =? 13 then b "\r"
  else if c =? 9 then b "\t"
  else b "\u00" ++ [hex_lower (c / 16); hex_lower (c mod 16)].
(** encode.go encodeState.string with escapeHTML, without the quotes; fuel is the length. *)
Fixpoint escape_fuel (n : nat) (s : bytes) : bytes :=
  match n, s with
  | O, _ => []
  | _, [] => []
  | S n', c :: s' =>
    if c <? 128 then (if html_safe c then [c] else escape_byte c) ++ escape_fuel n' s'
    else
      let (r, w) := decode_rune s in
      if (r =? rune_error) && Nat.eqb w 1 then b "\uff" ++ b "fd" ++ escape_fuel n' (skipn w s)
      else if (r =? 8232) || (r =? 8233) then b "\u202" ++ [hex_lower (r mod 16)] ++ escape_fuel n' (skipn w s)
      else firstn w s ++ escape_fuel n' (skipn w s)
  end.
Definition json_string (s : bytes) : bytes := [34] ++ escape_fuel (length s) s ++ [34].

(** encode.go intEncoder: strconv.AppendInt *)
Definition json_int (z : Z) : bytes := if (z <? 0)%Z then 45 :: itoa (Z.to_N (- z)) else itoa (Z.to_N z).

(** encode.go: the text of a value *)
Fixpoint marshal (t : jtree) : bytes :=
  match t with
  | TNull => b "null"
  | TInt z => json_int z
  | TStr s => json_string s
  | TList l => b "[" ++ join (b ",") (map marshal l) ++ b "]"
  | TObj l => b "{" ++ join (b ",") (map (fun m => json_string (b (fst m)) ++ b ":" ++ marshal (snd m)) l) ++ b "}"
  end.

(** indent.go newline, with an empty prefix and two blanks (main.go:20, 57) *)
Definition newline (depth : nat) : bytes := 10 :: concat (repeat (b "  ") depth).

Definition put (x : bytes) (r : option bytes) : option bytes := match r with Some y => Some (x ++ y) | None => None end.
(** indent.go Indent (Go 1.20) on a text written by Marshal.  [in_str]: the scanner is inside a
    string (and then bytes are copied), [esc]: after a backslash, [open]: the length of the
    scanner's parseState, limited to maxNestingDepth (scanner.go pushParseState); the other checks
    of the scanner succeed on such a text.  [None] is the error exceeded max depth. *)
Fixpoint indent (in_str esc need : bool) (depth open : nat) (s : bytes) : option bytes :=
  match s with
  | [] => Some []
  | c :: s' =>
    if in_str then
      if esc then put [c] (indent true false need depth open s')
      else if c =? 92 then put [c] (indent true true need depth open s')
      else if c =? 34 then put [c] (indent false false need depth open s')
      else put [c] (indent true false need depth open s')
    else if (c =? 125) || (c =? 93) then
      if need then put [c] (indent false false false depth (open - 1) s')
      else put (newline (depth - 1) ++ [c]) (indent false false false (depth - 1) (open - 1) s')
    else
      let depth := if need then S depth else depth in
      let pre := if need then newline depth else [] in
      if (c =? 123) || (c =? 91) then
        if (N.of_nat (S open) <=? 10000) then put (pre ++ [c]) (indent false false true depth (S open) s') else None
      else if c =? 44 then put (pre ++ [c] ++ newline depth) (indent false false false depth open s')
      else if c =? 58 then put (pre ++ [c; 32]) (indent false false false depth open s')
      else put (pre ++ [c]) (indent (c =? 34) false false depth open s')
  end.
(** encode.go MarshalIndent *)
Definition marshal_indent (t : jtree) : option bytes := indent false false false 0 0 (marshal t).
