(** jsonmatcher/str_matchers.go and the regular expressions it generates. *)
From Verif Require Import Bytes Utf8 GoFloat GoTime Oracles.

(** 91-98 isASCII *)
Definition is_ascii (s : bytes) : bool := forallb (fun c => c <? 128) s.

(** 100-102 hasWildcard *)
Definition has_wildcard (s : bytes) : bool := has_byte 63 s || has_byte 42 s.

(** regexp.QuoteMeta: \.+*?()|[]{}^$ get a backslash *)
Definition is_meta (c : N) : bool := has_byte c (b "\.+*?()|[]{}^$").
Definition quote_meta (s : bytes) : bytes := concat (map (fun c => if is_meta c then [92; c] else [c]) s).

Section WithOracles.
Context (O : oracles).

(** unicode.ToLower *)
Definition to_lower_rune (c : N) : N := if c <? 128 then lower_ascii c else o_to_lower O c.

(** strings.ToLower *)
Definition to_lower (s : bytes) : bytes :=
  if is_ascii s then map lower_ascii s else encode (map to_lower_rune (decode s)).

(** 36-62: the loop over the runes; [accum] is the buffer of ordinary text (in bytes), the
    result is what is appended to buf. *)
Fixpoint wc_loop (rs : list N) (accum : bytes) : bytes :=
  match rs with
  | [] => quote_meta accum                                             (* 64 *)
  | c :: rs' =>
    if c =? 92 then
      match rs' with
      | d :: rs'' =>
        if (d =? 63) || (d =? 42) then wc_loop rs'' (accum ++ encode_rune d)
        else wc_loop rs' (accum ++ encode_rune c)
      | [] => wc_loop rs' (accum ++ encode_rune c)
      end
    else if c =? 63 then quote_meta accum ++ b "." ++ wc_loop rs' []
    else if c =? 42 then quote_meta accum ++ b ".*?" ++ wc_loop rs' []
    else wc_loop rs' (accum ++ encode_rune c)
  end.

(** 27-69 stringSearchRegexp: the source handed to regexp.MustCompile *)
Definition search_source (wc : bytes) : bytes :=
  let w := to_lower wc in
  let bnd := if is_ascii w then b "\b" else [] in
  b "(?i)" ++ bnd ++ wc_loop (decode w) [] ++ bnd.
End WithOracles.

(** ** The part of Go's regexp package those sources need

    Sources of the form (?i) followed by a sequence of \b, escaped punctuation, ordinary
    characters, a dot, or a dot followed by *? .  Anything else is outside the model and
    yields [None]; Prop_Strings.v shows that this never happens. *)
Inductive rx_item := RBound | RChar (c : N) | RAny | RStar.

Definition is_alnum (c : N) : bool :=
  is_digit c || ((65 <=? c) && (c <=? 90)) || ((97 <=? c) && (c <=? 122)).

(** regexp/syntax/parse.go: the characters with a meaning of their own in the parse loop (an
    opening brace only in a repeat count; that case is left out with the others) *)
Definition rx_special (c : N) : bool := existsb (N.eqb c) [92; 46; 43; 42; 63; 40; 41; 124; 91; 123; 94; 36].

(** regexp/syntax/parse.go: parse loop and parseEscape *)
Fixpoint rx_items (s : list N) : option (list rx_item) :=
  match s with
  | [] => Some []
  | c :: r =>
    if c =? 92 then
      match r with
      | [] => None
      | d :: r1 =>
        if d =? 98 then option_map (cons RBound) (rx_items r1)
        else if (d <? 128) && negb (is_alnum d) then option_map (cons (RChar d)) (rx_items r1)
        else None
      end
    else if c =? 46 then
      match r with
      | d :: r1 =>
        if d =? 42 then
          match r1 with
          | e :: r2 => if e =? 63 then option_map (cons RStar) (rx_items r2) else None
          | [] => None
          end
        else option_map (cons RAny) (rx_items r)
      | [] => Some [RAny]
      end
    else if rx_special c then None
    else option_map (cons (RChar c)) (rx_items r)
  end.

(** regexp.MustCompile *)
Definition rx_compile (src : bytes) : option (list rx_item) :=
  if valid_utf8 src && has_prefix (b "(?i)") src then rx_items (decode (skipn 4 src)) else None.

(** regexp/syntax.IsWordChar: the ASCII word characters *)
Definition is_word (c : N) : bool := is_alnum c || (c =? 95).
Definition word_at (o : option N) : bool := match o with Some c => is_word c | None => false end.

Section Matching.
Context (O : oracles).

(** unicode.SimpleFold, as a canonical representative: ASCII letters fold to lower case, the
    Kelvin sign to k and the long s to s; above ASCII otherwise an external table, which
    never leads back to ASCII. *)
Definition fold (c : N) : N :=
  if c <? 128 then lower_ascii c
  else if c =? 8490 then 107
  else if c =? 383 then 115
  else if o_fold O c <? 128 then c else o_fold O c.

(** Does a match of [items] start here?  [prev] is the rune before. *)
Fixpoint rx_here (items : list rx_item) (prev : option N) (t : list N) : bool :=
  match items with
  | [] => true
  | RBound :: is => xorb (word_at prev) (word_at (hd_error t)) && rx_here is prev t
  | RChar c :: is =>
    match t with
    | [] => false
    | d :: t' => (fold c =? fold d) && rx_here is (Some d) t'
    end
  | RAny :: is =>
    match t with
    | [] => false
    | d :: t' => negb (d =? 10) && rx_here is (Some d) t'
    end
  | RStar :: is =>
    (fix star (prev : option N) (t : list N) : bool :=
       rx_here is prev t ||
       match t with
       | [] => false
       | d :: t' => negb (d =? 10) && star (Some d) t'
       end) prev t
  end.

(** Regexp.MatchString: a match starts somewhere *)
Fixpoint rx_search (items : list rx_item) (prev : option N) (t : list N) : bool :=
  rx_here items prev t ||
  match t with
  | [] => false
  | d :: t' => rx_search items (Some d) t'
  end.

Definition rx_match (items : list rx_item) (text : bytes) : bool := rx_search items None (decode text).
End Matching.
