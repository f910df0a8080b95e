(** C60-C62, C85, C86: printing messages about a query. *)
From Verif Require Import Bytes Utf8 Utf8Proofs Oracles Ast AstSpec GrammarSpec ParseQuery Fmtmsg FmtProofs.
From Verif Require Prop_Grammar.
From Coq Require Import ZifyBool ZifyN ZifyNat.
Local Open Scope Z_scope.

(** ** C60 *)
(** The window can end one place behind the query: what is printed then is a zero character,
    or an error, depending on the capacity of the slice. *)
Theorem C60_window_refuted : exists pre t w msg p, let q := encode (pre ++ t) in
  position_of p pre t /\ Z.of_nat (length t) <= w /\ w < Z.of_nat (length (pre ++ t)) /\
  pd_ro (get_print_data w q 12 KMsgHint msg p) > Z.of_nat (length (pre ++ t)) /\
  query_string (get_print_data w q 12 KMsgHint msg p) = Some (b "..." ++ encode t ++ [0%N]) /\
  query_string (get_print_data w q 10 KMsgHint msg p) = None /\
  terminal w q 10 KMsgHint msg p = PrintError (b "INFO: x
    ").
Proof.
  exists (tx "b:2 OR"), (tx " a:1"), 5, (b "x"), {| p_line := 1; p_col := 7; p_off := 6; p_len := 4 |}.
  cbn zeta. split; [split; [discriminate|split; reflexivity]|]. split; [vm_compute; discriminate|]. repeat split; vm_compute; reflexivity.
Qed.
Print Assumptions C60_window_refuted.

(** ** C85: apart from that case the window is as it should be *)
Theorem C85_window n w s e lo ro : 0 < w < n -> 0 <= s <= e -> e <= n -> find_center n w s e = (lo, ro) ->
  0 <= lo <= s /\ lo <= ro /\ w - 1 <= ro - lo <= w /\ (e - s <= w -> e <= ro) /\
  (ro <= n <-> ~ (e = n /\ e - s + 1 = w)).
Proof.
  intros W S E F. pose proof (window n w s e lo ro W S E F) as (A & B & C & D & G).
  split; [lia|]. split; [lia|]. split; [lia|]. split; [exact C|]. split.
  - intros R [E1 E2]. unfold find_center in F. replace (w >=? n) with false in F by lia. replace (e - s + 1 >=? w) with true in F by lia.
    injection F as <- <-. lia.
  - intros N. destruct D as [D|(E1 & E2 & _)]; [exact D|]. now destruct N.
Qed.
Print Assumptions C85_window.
(** The window has [w] code points exactly if the highlight nearly fills it or is near an end of the query, and the
    highlight is in the middle of it as far as the ends of the query allow. *)
Theorem C85_center n w s e lo ro : 0 < w < n -> 0 <= s <= e -> e <= n -> e - s + 1 < w -> find_center n w s e = (lo, ro) ->
  (ro - lo = w <-> s + (e - s + 1) < w \/ (n - e - 1) + (e - s + 1) < w) /\
  (0 < lo -> lo + ro <= s + e + 2) /\ (ro < n -> s + e - 2 <= lo + ro).
Proof.
  intros W S E Sm. unfold find_center. rewrite !go_min_min, !go_max_max. rewrite !Z.quot_div_nonneg by lia.
  replace (w >=? n) with false by lia. replace (e - s + 1 >=? w) with false by lia.
  set (size := Z.min w (e - s + 1 + Z.min s (n - e - 1))).
  assert (Hsz : size = Z.min w (e - s + 1 + Z.min s (n - e - 1))) by reflexivity. clearbody size.
  assert (0 <= size) by lia.
  repeat match goal with
  | |- context[if ?c then _ else _] => let E := fresh "E" in destruct c eqn:E
  end; intros [= <- <-]; Z.to_euclidean_division_equations; repeat split; lia.
Qed.
Print Assumptions C85_center.
(** If the highlight and one more code point fill the window, it begins with the highlight and is full. *)
Theorem C85_filled n w s e lo ro : 0 < w < n -> 0 <= s <= e -> e <= n -> w <= e - s + 1 -> find_center n w s e = (lo, ro) -> lo = s /\ ro - lo = w.
Proof.
  intros W S E Sm. unfold find_center. replace (w >=? n) with false by lia. replace (e - s + 1 >=? w) with true by lia. intros [= <- <-]. lia.
Qed.
Print Assumptions C85_filled.
Example C85_filled_example : find_center 40 10 20 29 = (20, 30) /\ find_center 40 10 20 28 <> (20, 30).
Proof. split; [reflexivity|vm_compute; discriminate]. Qed.
Example C85_example : find_center 40 10 20 24 = (17, 26) /\ find_center 40 10 33 36 = (30, 40) /\ find_center 40 10 2 4 = (0, 10).
Proof. repeat split. Qed.

(** ** C86: the printed lines when the text before the highlighted part is ASCII *)
Definition line_start : bytes := b "
    ".
Definition upper_type (k : kind) : bytes :=
  match k with
  | KParseError | KMsgError => b "ERROR" | KMsgWarning => b "WARNING" | KMsgHint => b "INFO" | KOther => []
  end.

(** The query line shows the highlighted part with text around it, dots where text was left
    out; on the next line carets are below the highlighted part and nowhere else. *)
Theorem C86_terminal w pre t post cap k msg p : scalars (pre ++ t ++ post) -> Z.of_nat (length (pre ++ t ++ post)) <= cap ->
  position_of p pre t -> (0 < w -> Z.of_nat (length t) <= w) ->
  ~ (post = [] /\ Z.of_nat (length t) + 1 = w /\ w < Z.of_nat (length (pre ++ t ++ post))) ->
  exists u before after v, view_of w pre t post u before after v /\
    terminal w (encode (pre ++ t ++ post)) cap k msg p =
      Printed (upper_type k ++ b ": " ++ msg ++
               line_start ++ encode (ellipsis u ++ before ++ t ++ after ++ ellipsis v) ++
               line_start ++ repeat 32%N (length (ellipsis u ++ before)) ++ repeat 94%N (length t) ++ [10%N]).
Proof.
  intros Sc C P Fit Edge. destruct (print_data_view w pre t post cap k msg p Sc C P Fit Edge) as (u & before & after & v & Vi & V).
  exists u, before, after, v. split; [exact Vi|]. unfold terminal.
  rewrite (view_query _ _ _ _ _ _ _ _ V), (view_offset _ _ _ _ _ _ _ _ V), (view_carets _ _ _ _ _ _ _ _ V).
  destruct V as (_ & -> & _). cbn [then_print]. fold line_start.
  replace (map _ (type_string k)) with (upper_type k) by (now destruct k).
  assert (El : forall l, encode (ellipsis l) = ellipsis l) by (now destruct l).
  rewrite !encode_app, !El. now rewrite <- !app_assoc.
Qed.
Print Assumptions C86_terminal.

(** The three parts for other templates put together are the displayed query. *)
Theorem C86_parts w pre t post cap k msg p : scalars (pre ++ t ++ post) -> Z.of_nat (length (pre ++ t ++ post)) <= cap ->
  position_of p pre t -> (0 < w -> Z.of_nat (length t) <= w) ->
  ~ (post = [] /\ Z.of_nat (length t) + 1 = w /\ w < Z.of_nat (length (pre ++ t ++ post))) ->
  let pd := get_print_data w (encode (pre ++ t ++ post)) cap k msg p in
  exists x y z, query_pre pd = Some x /\ query_hl pd = Some y /\ query_post pd = Some z /\
    y = encode t /\ query_string pd = Some (x ++ y ++ z).
Proof.
  intros Sc C P Fit Edge pd. destruct (print_data_view w pre t post cap k msg p Sc C P Fit Edge) as (u & before & after & v & Vi & V).
  unfold pd. rewrite (view_query _ _ _ _ _ _ _ _ V), (view_pre _ _ _ _ _ _ _ _ V), (view_hl _ _ _ _ _ _ _ _ V), (view_post _ _ _ _ _ _ _ _ V).
  do 3 eexists. do 4 (split; [reflexivity|]). rewrite !encode_app. now rewrite <- !app_assoc.
Qed.
Print Assumptions C86_parts.

(** Positions of literals and comparisons of an accepted query are of this kind when the text
    before them is ASCII; the others are not, see C61. *)
Theorem C86_positions O q n o f vs ps v : parse_plain O q = QOk n -> subnode (NExpr o f vs ps) n -> In v vs ->
  exists pre t post, q = encode (pre ++ t ++ post) /\ literal O t (val_pos v) v /\
    (Forall (fun c => (c < 128)%N) pre -> position_of (val_pos v) pre t).
Proof.
  intros P S I. destruct (Prop_Grammar.C06_literal_positions _ _ _ _ _ _ _ _ P S I) as (pre & t & post & E & L & Ep).
  exists pre, t, post. split; [exact E|]. split; [now rewrite Ep|]. intros A. rewrite Ep. unfold position_of, pos_of. cbn [p_line p_off p_len].
  split; [lia|]. split; [|reflexivity]. now rewrite (encode_ascii pre A).
Qed.
Print Assumptions C86_positions.

Example C86_example : let pre := tx "alpha:1 AND beta:(2,3) AND gamma:" in let t := tx "4" in let post := tx " AND delta:5" in
  let p := {| p_line := 1; p_col := 34; p_off := 33; p_len := 1 |} in
  position_of p pre t /\
  terminal 12 (encode (pre ++ t ++ post)) 48 KMsgWarning (b "odd") p = Printed (b "WARNING: odd
    ...gamma:4 AND...
             ^
").
Proof. cbn zeta. split; [split; [discriminate|split; reflexivity]|]. vm_compute. reflexivity. Qed.

(** ** C61: offsets are in bytes, the query is indexed by code points *)
Theorem C61_marker_refuted : exists q pre t, forall O, exists n f vs ps v,
  q = encode (pre ++ t) /\ parse_plain O q = QOk n /\ subnode (NExpr EQ f vs ps) n /\ In v vs /\ literal O t (val_pos v) v /\
  length (pre ++ t) = 5%nat /\ length pre = 4%nat /\
  terminal 0 q 6 KMsgHint (b "x") (val_pos v) = Printed (b "INFO: x" ++ line_start ++ q ++ line_start ++ repeat 32%N 5 ++ [94%N; 10%N]).
Proof.
  exists (encode ([34; 233; 34; 58]%N ++ tx "1")), [34; 233; 34; 58]%N, (tx "1"). intros O.
  set (v := AInt 1 (b "1") {| p_line := 1; p_col := 5; p_off := 5; p_len := 1 |}).
  set (ps := {| p_line := 1; p_col := 1; p_off := 0; p_len := 5 |}).
  assert (P : parse_plain O (encode ([34; 233; 34; 58]%N ++ tx "1")) = QOk (NExpr EQ [[195; 169]%N] [v] ps)) by (vm_compute; reflexivity).
  exists (NExpr EQ [[195; 169]%N] [v] ps), [[195; 169]%N], [v], ps, v.
  split; [reflexivity|]. split; [exact P|]. split; [constructor|]. split; [now left|]. clear P.
  assert (L : literal O (tx "1") (val_pos v) v); [|split; [exact L|]; clear L; split; [reflexivity|]; split; [reflexivity|]; vm_compute; reflexivity].
  apply lit_int; [|reflexivity]. exists [], (tx "1"). split; [reflexivity|]. split; [now left|].
  split; [repeat constructor; unfold digit; cbn; lia|discriminate].
Qed.
Print Assumptions C61_marker_refuted.

(** A highlighted part longer than the width: more carets than there is text. *)
Theorem C61_long_refuted : exists q p w, p_off p = 0 /\ p_len p = 11 /\ length (decode q) = 11%nat /\
  terminal w q 12 KMsgHint (b "x") p = Printed (b "INFO: x" ++ line_start ++ b "a:1 ..." ++ line_start ++ repeat 94%N 11 ++ [10%N]).
Proof.
  exists (b "a:1 AND b:2"), {| p_line := 1; p_col := 1; p_off := 0; p_len := 11 |}, 4. repeat split; vm_compute; reflexivity.
Qed.
Print Assumptions C61_long_refuted.

(** ** C62 *)
Theorem C62_parts_refuted : exists q p w, let pd := get_print_data w q 12 KMsgHint (b "x") p in
  p_off p = 0 /\ p_len p = 11 /\ length (decode q) = 11%nat /\
  query_string pd = Some (b "a:1 ...") /\ query_hl pd = Some q /\ query_post pd = None.
Proof.
  exists (b "a:1 AND b:2"), {| p_line := 1; p_col := 1; p_off := 0; p_len := 11 |}, 4. repeat split; vm_compute; reflexivity.
Qed.
Print Assumptions C62_parts_refuted.
