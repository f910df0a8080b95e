(** parser/fmtmsg: printing messages about a query.
    Go's int is modelled by unbounded integers; positions and lengths of texts in memory are
    far below 2^63. *)
From Verif Require Import Bytes Utf8 Ast.
Local Open Scope Z_scope.

(** truncate.go 80-92 min, max *)
Definition go_min (x y : Z) : Z := if x <? y then x else y.
Definition go_max (x y : Z) : Z := if y <? x then x else y.

(** truncate.go 16-78 findCenterSubstring; [n] is len(r), the only use of r *)
Definition find_center (n w s e : Z) : Z * Z :=
  let sub := e - s + 1 in
  if w >=? n then (0, n)
  else if sub >=? w then (s, s + w)
  else
    let left := s in
    let right := n - e - 1 in
    let size := go_min w (sub + go_min left right) in
    let center := Z.quot (s + e) 2 in
    let half := Z.quot size 2 in
    let lo := center - half in
    let ro := lo + size - 1 in
    let '(lo, ro) := if lo <? 0 then (0, ro - lo) else (lo, ro) in
    let '(lo, ro) := if ro >=? n then (lo - (ro - n + 1), n - 1) else (lo, ro) in
    let '(lo, ro) :=
      if ro - lo + 1 <? w then
        let lo := center - Z.quot (w - 1) 2 in
        let ro := lo + w in
        let '(lo, ro) := if lo <? 0 then (0, go_min w n) else (lo, ro) in
        if ro >=? n then (go_max (n - w) 0, n) else (lo, ro)
      else (lo, ro) in
    if ro - lo + 1 >? w then (lo, lo + w) else (lo, ro).

(** The dynamic type of a message: *parser.ParseError, *parser.ParserMessage with its Type, or
    another implementation of the interface. *)
Inductive kind := KParseError | KMsgError | KMsgWarning | KMsgHint | KOther.

(** formatter.go 122-130 printData.  The query is a Go slice: its length and its capacity;
    the conversion []rune(string) leaves zeros between the two. *)
Record print_data := {
  pd_kind : kind; pd_query : list N; pd_cap : Z; pd_message : bytes; pd_has_hl : bool;
  pd_pos : pos; pd_lo : Z; pd_ro : Z }.

Definition pos_eqb (p q : pos) : bool :=
  (p_line p =? p_line q) && (p_col p =? p_col q) && (p_off p =? p_off q) && (p_len p =? p_len q).

(** truncate.go 7-14 truncate *)
Definition truncated (pd : print_data) (w : Z) : print_data :=
  let n := Z.of_nat (length (pd_query pd)) in
  if (w <=? 0) || pos_eqb (pd_pos pd) no_position || (n <=? w) then pd
  else
    let '(lo, ro) := find_center n w (p_off (pd_pos pd)) (p_off (pd_pos pd) + p_len (pd_pos pd)) in
    {| pd_kind := pd_kind pd; pd_query := pd_query pd; pd_cap := pd_cap pd; pd_message := pd_message pd;
       pd_has_hl := pd_has_hl pd; pd_pos := pd_pos pd; pd_lo := lo; pd_ro := ro |}.

(** formatter.go 31-34 NewFormatter: negative widths count as none *)
Definition max_width (w : Z) : Z := if w <? 0 then 0 else w.

(** formatter.go 60-66 WithQuery and 86-112 getPrintData; [cap] is the capacity Go gave the slice *)
Definition get_print_data (w : Z) (query : bytes) (cap : Z) (k : kind) (msg : bytes) (p : pos) : print_data :=
  let q := decode query in
  let pd := {| pd_kind := k; pd_query := q; pd_cap := cap; pd_message := msg;
               pd_has_hl := negb (pos_eqb p no_position); pd_pos := p;
               pd_lo := 0; pd_ro := Z.of_nat (length q) |} in
  if max_width w >? 0 then truncated pd (max_width w) else pd.

(** The Go slice expression query[i:j], converted to a string: None when it panics. *)
Definition slice (pd : print_data) (i j : Z) : option bytes :=
  if (0 <=? i) && (i <=? j) && (j <=? pd_cap pd) then
    Some (encode (firstn (Z.to_nat (j - i)) (skipn (Z.to_nat i) (pd_query pd ++ repeat 0%N (Z.to_nat (pd_cap pd) - length (pd_query pd))))))
  else None.

Definition dots (c : bool) : bytes := if c then b "..." else [].

(** formatter.go 132-134 Type *)
Definition type_string (k : kind) : bytes :=
  match k with
  | KParseError | KMsgError => b "error"
  | KMsgWarning => b "warning"
  | KMsgHint => b "info"
  | KOther => []
  end.
(** 136-138 HLLen *)
Definition hl_len (pd : print_data) : Z := p_len (pd_pos pd).
(** 140-146 HLStrOffset *)
Definition hl_str_offset (pd : print_data) : Z :=
  p_off (pd_pos pd) - pd_lo pd + (if pd_lo pd >? 0 then 3 else 0).
Definition query_len (pd : print_data) : Z := Z.of_nat (length (pd_query pd)).
(** 148-161 Query *)
Definition query_string (pd : print_data) : option bytes :=
  if (pd_lo pd =? 0) && (pd_ro pd =? query_len pd) then Some (encode (pd_query pd))
  else match slice pd (pd_lo pd) (pd_ro pd) with
       | Some s => Some (dots (pd_lo pd >? 0) ++ s ++ dots (pd_ro pd <? query_len pd))
       | None => None
       end.
(** 163-173 QueryPre *)
Definition query_pre (pd : print_data) : option bytes :=
  if pd_has_hl pd then
    match slice pd (pd_lo pd) (p_off (pd_pos pd)) with
    | Some s => Some (dots (pd_lo pd >? 0) ++ s)
    | None => None
    end
  else query_string pd.
(** 175-180 QueryHL *)
Definition query_hl (pd : print_data) : option bytes :=
  if pd_has_hl pd then slice pd (p_off (pd_pos pd)) (p_off (pd_pos pd) + p_len (pd_pos pd)) else Some [].
(** 182-193 QueryPost *)
Definition query_post (pd : print_data) : option bytes :=
  if pd_has_hl pd then
    match slice pd (p_off (pd_pos pd) + p_len (pd_pos pd)) (pd_ro pd) with
    | Some s => Some (s ++ dots (pd_ro pd <? query_len pd))
    | None => None
    end
  else Some [].

(** strings.Repeat of one byte: panics for a negative count; functions.go 5-7 pad *)
Definition repeat_byte (c : N) (n : Z) : option bytes :=
  if n <? 0 then None else Some (repeat c (Z.to_nat n)).

(** What is printed; a panic in a method called by the template makes Execute return an error,
    which is printed after what was already written. *)
Inductive printed := Printed (out : bytes) | PrintError (out : bytes).
Definition then_print (p : printed) (x : option bytes) : printed :=
  match p with
  | Printed out => match x with Some s => Printed (out ++ s) | None => PrintError out end
  | PrintError out => PrintError out
  end.

(** formatter.go 195-207 terminalTmpl, NewTerminalFormatter, 75-86 Fprint, Sprint *)
Definition terminal (w : Z) (query : bytes) (cap : Z) (k : kind) (msg : bytes) (p : pos) : printed :=
  let pd := get_print_data w query cap k msg p in
  let head := Printed (map (fun c => if (97 <=? c)%N && (c <=? 122)%N then (c - 32)%N else c) (type_string k) ++ b ": " ++ msg) in
  if pd_has_hl pd then
    let p1 := then_print head (Some (b "
    ")) in
    let p2 := then_print p1 (query_string pd) in
    let p3 := then_print p2 (Some (b "
    ")) in
    let p4 := then_print p3 (repeat_byte 32 (hl_str_offset pd)) in
    let p5 := then_print p4 (repeat_byte 94 (hl_len pd)) in
    then_print p5 (Some [10%N])
  else head.
