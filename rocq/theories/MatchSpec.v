(** Specification: when a document satisfies a query.  Written without reference to the
    matcher model; of the library models it uses ParseFloat, jsonparser.ParseString (the
    decoding of member names and strings), FormatFloat, regexp, dateparse and x/text. *)
From Verif Require Import Bytes Utf8 GoStrconv GoFloat GoTime GoNet Oracles Ast Json Values StrMatch.

(** ** Paths *)

(** The member selected by a name: the first one so named.  Names before it must be
    decodable, see C26. *)
Definition member (key : bytes) (j child : json) : Prop :=
  exists before raw after, j = JObj (before ++ (raw, child) :: after) /\ unescape raw = Some key /\
    Forall (fun m => exists k, unescape (fst m) = Some k /\ k <> key) before.

(** [resolves path j v]: [v] is one of the values the path refers to, starting at the object
    [j].  Between two segments an array stands for its object elements. *)
Inductive resolves : list bytes -> json -> json -> Prop :=
| rs_last key j v : member key j v -> resolves [key] j v
| rs_object key path j child v :
    member key j child -> resolves path child v -> resolves (key :: path) j v
| rs_array key path j els e v :
    member key j (JArr els) -> In e els -> resolves path e v -> resolves (key :: path) j v.

(** ** Scalars *)
Definition scalar (j : json) : Prop := (forall ms, j <> JObj ms) /\ (forall els, j <> JArr els).

(** [tested path j s]: [s] is a scalar a comparison on the path looks at. *)
Definition tested (path : list bytes) (j s : json) : Prop :=
  scalar s /\ (resolves path j s \/ exists els, resolves path j (JArr els) /\ In s els).

Section WithOracles.
Context (O : oracles).

(** The text of a string or of a number. *)
Inductive text_of : json -> bytes -> Prop :=
| tof_string raw t : unescape raw = Some t -> text_of (JStr raw) t
| tof_number raw f : parse_float (o_float_other O) raw = Some f -> text_of (JNum raw) (o_fmt_float O f).

(** The number a string or number stands for. *)
Definition number_of (s : json) (f : f64) : Prop :=
  exists raw, (s = JStr raw \/ s = JNum raw) /\ parse_float (o_float_other O) raw = Some f.

(** The instant a string or number stands for. *)
Definition instant_of (s : json) (t : instant) : Prop :=
  exists x, text_of s x /\ o_dateparse O x = Some t.

(** ** String search *)
Inductive wtok := WLit (c : N) | WOne | WMany.

(** The search pattern a string stands for: a backslash before ? or * takes away its special
    meaning, any other backslash is an ordinary character. *)
Inductive pattern : list N -> list wtok -> Prop :=
| pt_nil : pattern [] []
| pt_esc c s ts : c = 63 \/ c = 42 -> pattern s ts -> pattern (92 :: c :: s) (WLit c :: ts)
| pt_one s ts : pattern s ts -> pattern (63 :: s) (WOne :: ts)
| pt_many s ts : pattern s ts -> pattern (42 :: s) (WMany :: ts)
| pt_back s ts : hd_error s <> Some 63 -> hd_error s <> Some 42 -> pattern s ts ->
    pattern (92 :: s) (WLit 92 :: ts)
| pt_char c s ts : c <> 92 -> c <> 63 -> c <> 42 -> pattern s ts -> pattern (c :: s) (WLit c :: ts).

(** Equal up to case. *)
Definition same_letter (c d : N) : Prop := fold O c = fold O d.

Definition newline : N := 10.

(** [covers ts seg]: the whole of [seg] fits the pattern. *)
Inductive covers : list wtok -> list N -> Prop :=
| cv_nil : covers [] []
| cv_lit c d ts t : same_letter c d -> covers ts t -> covers (WLit c :: ts) (d :: t)
| cv_one d ts t : d <> newline -> covers ts t -> covers (WOne :: ts) (d :: t)
| cv_many u ts t : ~ In newline u -> covers ts t -> covers (WMany :: ts) (u ++ t).

Definition word_char (c : N) : Prop :=
  48 <= c <= 57 \/ 65 <= c <= 90 \/ 97 <= c <= 122 \/ c = 95.
Definition ends_in_word (t : list N) : Prop := exists u c, t = u ++ [c] /\ word_char c.
Definition starts_with_word (t : list N) : Prop := exists c u, t = c :: u /\ word_char c.
(** A word boundary between two texts: exactly one of the neighbours is a word character. *)
Definition boundary (x y : list N) : Prop :=
  (ends_in_word x /\ ~ starts_with_word y) \/ (~ ends_in_word x /\ starts_with_word y).

(** Whole-word search in a text. *)
Definition word_search (ts : list wtok) (t : list N) : Prop :=
  exists before seg after, t = before ++ seg ++ after /\ covers ts seg /\
    boundary before (seg ++ after) /\ boundary (before ++ seg) after.
(** Search anywhere. *)
Definition substring_search (ts : list wtok) (t : list N) : Prop :=
  exists before seg after, t = before ++ seg ++ after /\ covers ts seg.

Definition ascii (s : list N) : Prop := Forall (fun c => c < 128) s.
Definition wildcard (s : bytes) : Prop := In 63 s \/ In 42 s.

(** The lower-case form the pattern is read from. *)
Definition lowered (s : bytes) : list N := decode (to_lower O s).

(** A string literal against a text (bytes). *)
Definition string_hit (s t : bytes) : Prop :=
  (~ ascii s /\ ~ wildcard s /\ o_text_search O s t = true) \/
  ((ascii s \/ wildcard s) /\ exists ts, pattern (lowered s) ts /\
     (if is_ascii (to_lower O s) then word_search ts (decode t) else substring_search ts (decode t))).

(** ** Networks *)
Definition digit_text (n : nat) (t : bytes) : Prop :=
  t <> [] /\ (length t <= n)%nat /\ Forall (fun c => 48 <= c <= 57) t.

(** What looks like an address or a block. *)
Inductive dotted : bytes -> Prop :=
| dt_addr d1 d2 d3 d4 : digit_text 3 d1 -> digit_text 3 d2 -> digit_text 3 d3 -> digit_text 3 d4 ->
    dotted (d1 ++ 46 :: d2 ++ 46 :: d3 ++ 46 :: d4)
| dt_block d1 d2 d3 d4 n : digit_text 3 d1 -> digit_text 3 d2 -> digit_text 3 d3 -> digit_text 3 d4 ->
    digit_text 2 n -> dotted ((d1 ++ 46 :: d2 ++ 46 :: d3 ++ 46 :: d4) ++ 47 :: n).

Definition starts (c s : bytes) : Prop := exists r, s = c ++ r.

(** Candidates found from left to right, each as long as possible. *)
Inductive candidates : bytes -> list bytes -> Prop :=
| cd_none s : (forall u v c, s = u ++ v -> dotted c -> ~ starts c v) -> candidates s []
| cd_found before c rest cs :
    dotted c -> (forall c', dotted c' -> starts c' (c ++ rest) -> (length c' <= length c)%nat) ->
    (forall u v c', before = u ++ v -> v <> [] -> dotted c' -> ~ starts c' (v ++ c ++ rest)) ->
    candidates rest cs -> candidates (before ++ c ++ rest) (c :: cs).

(** Decimal value. *)
Fixpoint decimal (acc : N) (t : bytes) : N :=
  match t with [] => acc | c :: r => decimal (acc * 10 + (c - 48)) r end.
(** No leading zero. *)
Definition plain (t : bytes) : Prop := t = [48] \/ exists c r, t = c :: r /\ c <> 48.
Definition octet (t : bytes) (v : N) : Prop := plain t /\ v = decimal 0 t /\ v <= 255.

(** The network a candidate denotes. *)
Inductive denotes_net : bytes -> prefix -> Prop :=
| dn_addr d1 d2 d3 d4 v1 v2 v3 v4 :
    digit_text 3 d1 -> digit_text 3 d2 -> digit_text 3 d3 -> digit_text 3 d4 ->
    octet d1 v1 -> octet d2 v2 -> octet d3 v3 -> octet d4 v4 ->
    denotes_net (d1 ++ 46 :: d2 ++ 46 :: d3 ++ 46 :: d4)
      {| p_addr := v1 * 256 ^ 3 + v2 * 256 ^ 2 + v3 * 256 + v4; p_bits := 32 |}
| dn_block d1 d2 d3 d4 n v1 v2 v3 v4 :
    digit_text 3 d1 -> digit_text 3 d2 -> digit_text 3 d3 -> digit_text 3 d4 -> digit_text 2 n ->
    octet d1 v1 -> octet d2 v2 -> octet d3 v3 -> octet d4 v4 ->
    (o_strict_bits O = true -> plain n) -> decimal 0 n <= 32 ->
    denotes_net ((d1 ++ 46 :: d2 ++ 46 :: d3 ++ 46 :: d4) ++ 47 :: n)
      {| p_addr := v1 * 256 ^ 3 + v2 * 256 ^ 2 + v3 * 256 + v4; p_bits := decimal 0 n |}.

(** Addresses of a network: 32-bit numbers with the same first bits. *)
Definition in_net (p : prefix) (a : N) : Prop :=
  a < 2 ^ 32 /\ a / 2 ^ (32 - p_bits p) = p_addr p / 2 ^ (32 - p_bits p).
Definition meets (p q : prefix) : Prop := exists a, in_net p a /\ in_net q a.

Definition net_in_text (p : prefix) (t : bytes) : Prop :=
  exists cs c q, candidates t cs /\ In c cs /\ denotes_net c q /\ meets p q.

(** ** Comparisons with a value *)

(** One scalar equals a literal. *)
Definition equals (v : aval) (s : json) : Prop :=
  match v with
  | AStr p _ => exists t, text_of s t /\ string_hit p t
  | ARegex pat _ _ => exists t, text_of s t /\ o_re_match O pat t = true
  | AInt z _ _ => exists f, number_of s f /\ f_eq f (f_of_Z z) = true
  | AFloat g _ _ => exists f, number_of s f /\ f_eq f g = true
  | ABool x _ => s = JBool x
  | ANet p _ _ => exists t, text_of s t /\ net_in_text p t
  | ATime t false _ _ => exists i, instant_of s i /\ unix_nano i = unix_nano t
  | ATime t true _ _ => exists i, instant_of s i /\
      (unix_nano t <= unix_nano i <= wrap64 (wrap64 (exact_nanos t + 86400 * 1000000000) - 1))%Z
  end.

(** The double a numeric literal is compared as. *)
Definition literal_num (v : aval) : option f64 :=
  match v with AInt z _ _ => Some (f_of_Z z) | AFloat g _ _ => Some g | _ => None end.

Definition float_rel (o : op) (x y : f64) : bool :=
  match o with
  | LT => f_lt x y | LTE => f_le x y | GT => f_gt x y | GTE => f_ge x y | _ => false
  end.
Definition nano_rel (o : op) (x y : Z) : Prop :=
  match o with
  | LT => (x < y)%Z | LTE => (x <= y)%Z | GT => (x > y)%Z | GTE => (x >= y)%Z | _ => False
  end.

(** One scalar is smaller (and so on) than a literal. *)
Definition ordered (o : op) (v : aval) (s : json) : Prop :=
  match v with
  | ATime t _ _ _ => exists i, instant_of s i /\ nano_rel o (unix_nano i) (unix_nano t)
  | _ => exists f g, literal_num v = Some g /\ number_of s f /\ float_rel o f g = true
  end.

(** A value of another kind at the end of a numeric range counts as zero (see C18, C34). *)
Definition range_end (v : aval) : f64 :=
  match literal_num v with Some g => g | None => f_zero end.

(** One scalar lies in a range. *)
Definition in_range (v w : aval) (s : json) : Prop :=
  match v, w with
  | ATime t _ _ _, ATime u _ _ _ =>
    exists i, instant_of s i /\ (unix_nano t <= unix_nano i <= unix_nano u)%Z
  | ATime _ _ _ _, _ => False
  | _, _ => exists f g, literal_num v = Some g /\ number_of s f /\ f_ge f g = true /\ f_le f (range_end w) = true
  end.

(** ** Queries *)
Fixpoint holds (n : node) (j : json) : Prop :=
  match n with
  | NAnd l r => holds l j /\ holds r j
  | NOr l r => holds l j \/ holds r j
  | NNot e => ~ holds e j
  | NExpr EXS path _ _ => exists v, resolves path j v
  | NExpr NUL path _ _ => (exists v, resolves path j v) /\ forall v, resolves path j v -> v = JNull
  | NExpr BET path vs _ => exists v w s, vs = [v; w] /\ tested path j s /\ in_range v w s
  | NExpr EQ path vs _ | NExpr SIM path vs _ => exists v s, In v vs /\ tested path j s /\ equals v s
  | NExpr o path vs _ => exists v s, vs = [v] /\ tested path j s /\ ordered o v s
  end.

(** Situations in which Match panics: a path without segments (only stars), or a top-level
    array and a path whose first segment is empty. *)
Definition path_safe (j : json) (path : list bytes) : Prop :=
  match path with
  | [] => False
  | [] :: _ => forall els, j <> JArr els
  | _ => True
  end.
(** On a top-level array, a first segment of the form [n] is taken for an index. *)
Definition no_index (j : json) (path : list bytes) : Prop :=
  match path with
  | (91 :: _) :: _ => forall els, j <> JArr els
  | _ => True
  end.
End WithOracles.
