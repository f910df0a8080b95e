(** C09-C13: what literals denote. *)
From Verif Require Import Bytes Utf8 Utf8Proofs GoStrconv GoTime Oracles Ast AstSpec PegSyntax Engine GrammarSpec GrammarFacts LiteralSpec
  StringProofs LiteralProofs RegexLitProofs SimpleQuery ParseQuery Prop_Grammar TestOracle.
From Coq Require Import ZifyBool ZifyN ZifyNat.

(** ** C09 *)
Definition int64 (z : Z) : Prop := (-9223372036854775808 <= z <= 9223372036854775807)%Z.

(** Wherever the grammar reads an integer literal. *)
Theorem C09_integer_literal O t p v : int_lit t ->
  (literal O t p v <-> int64 (int_value t) /\ v = AInt (int_value t) t p).
Proof. apply int_literal. Qed.
Print Assumptions C09_integer_literal.

(** Every integer of an accepted query is the value of its text. *)
Theorem C09_integer_value O q t o f vs p z s p' :
  parse_plain O q = QOk t -> subnode (NExpr o f vs p) t -> In (AInt z s p') vs ->
  exists before own after, q = encode (before ++ own ++ after) /\ p' = pos_of before own /\
    int_lit own /\ z = int_value own /\ int64 z.
Proof.
  intros P S I. destruct (C06_literal_positions _ _ _ _ _ _ _ _ P S I) as (a & k & r & E & L & Ep).
  exists a, k, r. cbn in Ep. split; auto. split; auto.
  assert (IL : int_lit k).
  { inversion L as [t' s' p1 Q U|t' v' p1 R N|t' v' p1 R N|t' v' p1 R N|t' v' p1 R N|t' v' p1 R N|p1 E1|p1 E1]; subst; auto; exfalso.
    - unfold new_regexp_val in N. cbv zeta in N. destruct (o_re_parse O _); discriminate.
    - unfold new_time_val in N. destruct (Nat.eqb _ _); [destruct (parse_date _)|destruct (parse_rfc3339 _)]; discriminate.
    - unfold new_net_val in N. cbv zeta in N. destruct (GoNet.parse_prefix _ _); discriminate.
    - unfold new_float_val in N. destruct (GoFloat.parse_float _ _) as [[]|]; discriminate. }
  apply C09_integer_literal in L as [R [= -> _ _]]; auto.
Qed.
Print Assumptions C09_integer_value.

(** Rejected exactly when out of range. *)
Theorem C09_integer_range O t : int_lit t ->
  (exists x, parse_plain O (encode (tx "a:" ++ t)) = QOk x) <-> int64 (int_value t).
Proof.
  intros I. pose proof (int_lit_ascii _ I) as A.
  assert (P : Forall plain t).
  { apply Forall_forall. intros c Ic. apply (int_lit_no c) in I; auto. unfold digit, plain, ws_char in *. lia. }
  split.
  - intros (x & H). apply parse_a_number in H as (v & p & L & _); auto using ascii_scalars.
    + now apply C09_integer_literal in L.
    + apply int_lit_cases in I as [(d & -> & _)|[_ (c & d & -> & Hc)]]; cbn; auto.
  - intros R. eexists. apply (accept_one O (tx "a") [b "a"]); [apply field_a|repeat constructor|now apply ascii_scalars|].
    now apply C09_integer_literal.
Qed.
Print Assumptions C09_integer_range.

Example C09_example : int_lit (tx "-9223372036854775808") /\ int64 (int_value (tx "-9223372036854775808")) /\
  int_lit (tx "9223372036854775808") /\ ~ int64 (int_value (tx "9223372036854775808")) /\
  exists p p', parse_plain test_oracle (b "a:-007") = QOk (NExpr EQ [b "a"] [AInt (-7) (b "-007") p] p').
Proof.
  assert (D : forall s, forallb is_digit s = true -> digits s).
  { intros s H. apply Forall_forall. intros c I. rewrite forallb_forall in H. apply H in I. unfold is_digit, digit in *. lia. }
  split; [|split; [|split; [|split]]].
  - exists (tx "-"), (tx "9223372036854775808"). split; [reflexivity|]. split; [now right|]. split; [now apply D|discriminate].
  - vm_compute. split; discriminate.
  - exists [], (tx "9223372036854775808"). split; [reflexivity|]. split; [now left|]. split; [now apply D|discriminate].
  - intros [_ H]. vm_compute in H. now apply H.
  - vm_compute. do 2 eexists. reflexivity.
Qed.

(** ** C10 *)
(** A quoted literal is accepted iff its body denotes some text, and then has that value. *)
Theorem C10_string_literal O body p v : quoted_body body -> scalars body ->
  let t := [34] ++ body ++ [34] in
  literal O t p v <-> exists u, denotes_string body u /\ v = AStr (encode u) p.
Proof.
  intros Q S t. assert (Qt : quoted t) by (exists body; auto).
  assert (St : scalars t) by (apply Forall_app; split; [repeat constructor|apply Forall_app; split; [auto|repeat constructor]]).
  pose proof (unquote_spec t Qt St) as U.
  assert (INJ : forall b' u, t = [34] ++ b' ++ [34] -> denotes_string b' u -> denotes_string body u).
  { intros b' u E D. unfold t in E. apply app_inv_head in E. apply app_inv_tail in E. now subst. }
  split.
  - intros L. apply literal_quote in L as (s & _ & U' & ->); [|reflexivity].
    apply U in U' as (b' & u & E & D & ->). exists u. split; eauto.
  - intros (u & D & ->). apply lit_string; auto. apply U. exists body, u. auto.
Qed.
Print Assumptions C10_string_literal.

(** Every text has a literal, as a value and as a field name. *)
Theorem C10_every_text O u : scalars u ->
  parse_plain O (encode (tx "a:" ++ quote_text u)) =
    QOk (NExpr EQ [b "a"] [AStr (encode u) (pos_of (tx "a:") (quote_text u))] (pos_of [] (tx "a:" ++ quote_text u))).
Proof.
  intros S. apply (accept_one O (tx "a") [b "a"]); [apply field_a|repeat constructor|now apply quote_text_scalars|].
  apply lit_string; [apply quote_text_quoted|now apply unquote_quote_text].
Qed.
Print Assumptions C10_every_text.

Theorem C10_every_field_name O u : scalars u -> u <> tx "*" ->
  parse_plain O (encode (quote_text u ++ tx ":exists")) =
    QOk (NExpr EXS [encode u] [] (pos_of [] (quote_text u ++ tx ":exists"))).
Proof.
  intros S N. apply accept_exists; [|now apply quote_text_scalars]. exists [encode u]. split.
  - apply pcs_one, pc_quoted; [apply quote_text_quoted|now apply unquote_quote_text].
  - cbn. destruct (beqb (encode u) [42]) eqn:E; [|reflexivity]. exfalso. apply N. apply beqb_eq in E.
    change [42] with (encode (tx "*")) in E. apply encode_inj in E; auto. repeat constructor.
Qed.
Print Assumptions C10_every_field_name.

(** No literal without surrogate escapes is rejected. *)
Inductive no_surrogate_escape : text -> Prop :=
| ns_nil : no_surrogate_escape []
| ns_char c t : 32 <= c -> c <> 34 -> c <> 92 -> no_surrogate_escape t -> no_surrogate_escape (c :: t)
| ns_esc c t : In c (tx """\bfnrt") -> no_surrogate_escape t -> no_surrogate_escape (92 :: c :: t)
| ns_uni h1 h2 h3 h4 t : hex h1 -> hex h2 -> hex h3 -> hex h4 ->
    ~ surrogate (hex_num h1 * 4096 + hex_num h2 * 256 + hex_num h3 * 16 + hex_num h4) ->
    no_surrogate_escape t -> no_surrogate_escape (92 :: 117 :: h1 :: h2 :: h3 :: h4 :: t).
Theorem C10_never_rejected O body : no_surrogate_escape body -> scalars body ->
  exists x, parse_plain O (encode (tx "a:" ++ [34] ++ body ++ [34])) = QOk x.
Proof.
  intros N S.
  assert (D : exists u, denotes_string body u).
  { clear S. induction N as [|c t H1 H2 H3 N [u D]|c t H N [u D]|h1 h2 h3 h4 t H1 H2 H3 H4 Hs N [u D]].
    - eexists. constructor.
    - eexists. constructor; eauto.
    - destruct (escape_cases c [] H) as (e & _ & _ & E). eexists. eauto.
    - eexists. apply ds_uni; eauto. }
  destruct D as (u & D). eexists. apply (accept_one O (tx "a") [b "a"]); [apply field_a|repeat constructor| |].
  - apply Forall_app; split; [repeat constructor|apply Forall_app; split; [auto|repeat constructor]].
  - apply C10_string_literal; auto; [eapply denotes_body; eauto|]. eauto.
Qed.
Print Assumptions C10_never_rejected.

(** A tab, a quote, a backslash, an e with acute accent and an emoji. *)
Example C10_example :
  quote_text [9; 34; 92; 233; 128512] = tx """\u0009\""\\" ++ [233; 128512] ++ tx """" /\
  scalars [9; 34; 92; 233; 128512] /\ no_surrogate_escape (tx "x\n\u00e9") /\
  exists p p', parse_plain test_oracle (encode (tx "a:" ++ quote_text [9; 34; 92; 233; 128512])) =
    QOk (NExpr EQ [b "a"] [AStr [9; 34; 92; 195; 169; 240; 159; 152; 128] p] p').
Proof.
  split; [reflexivity|]. split; [repeat constructor|]. split.
  - cbn. apply ns_char; [lia..|]. apply ns_esc; [cbn; tauto|]. apply ns_uni; try (unfold hex; lia); [|constructor]. unfold surrogate, hex_num. cbn. lia.
  - vm_compute. do 2 eexists. reflexivity.
Qed.
(** Surrogate escapes are rejected. *)
Example C10_surrogate : exists e, parse_plain test_oracle (b "a:""\ud83d\ude00""") = QErr e.
Proof. vm_compute. eauto. Qed.

(** ** C11 *)
(** The pattern of /a\\/ (the letter a and an escaped backslash) is a single backslash short:
    the closing slash is taken for an escaped one.  Leading and trailing escaped slashes are lost. *)
Theorem C11_regex_body_refuted : exists body u,
  regex_denotes body u /\
  forall O, (forall s, exists r, o_re_parse O s = Some r) ->
    exists pat sv p p', parse_plain O (encode (tx "a:/" ++ body ++ tx "/")) = QOk (NExpr EQ [b "a"] [ARegex pat sv p] p') /\
      pat <> encode u.
Proof.
  exists (tx "a\\"), (tx "a\\"). split.
  - cbn. apply rd_char; [lia..|]. apply rd_esc; [lia..|]. constructor.
  - intros O H. destruct (H (b "a\")) as (r & E).
    assert (L : literal O (tx "/a\\/") (pos_of (tx "a:") (tx "/a\\/")) (ARegex (b "a\") (b "/a\/") (pos_of (tx "a:") (tx "/a\\/")))).
    { apply lit_regex.
      - exists (tx "a\\"). split; [reflexivity|]. cbn. apply rb_char; [lia..|]. apply rb_esc; [lia|]. constructor.
      - unfold new_regexp_val. cbv zeta. change (trim_slash _) with (b "a\"). rewrite E. reflexivity. }
    do 4 eexists. split; [apply (accept_one O (tx "a") [b "a"]); [apply field_a|repeat constructor|repeat constructor|exact L]|].
    vm_compute. discriminate.
Qed.
Print Assumptions C11_regex_body_refuted.

Theorem C11_edge_slash_refuted : exists body u,
  regex_denotes body u /\
  forall O, (forall s, exists r, o_re_parse O s = Some r) ->
    exists pat sv p p', parse_plain O (encode (tx "a:/" ++ body ++ tx "/")) = QOk (NExpr EQ [b "a"] [ARegex pat sv p] p') /\
      pat <> encode u.
Proof.
  exists (tx "\/tmp"), (tx "/tmp"). split.
  - cbn. apply (rd_slash (tx "tmp") (tx "tmp")). cbn. repeat (apply rd_char; [lia..|]). constructor.
  - intros O H. destruct (H (b "tmp")) as (r & E).
    assert (L : literal O (tx "/\/tmp/") (pos_of (tx "a:") (tx "/\/tmp/")) (ARegex (b "tmp") (b "//tmp/") (pos_of (tx "a:") (tx "/\/tmp/")))).
    { apply lit_regex.
      - exists (tx "\/tmp"). split; [reflexivity|]. cbn. apply rb_esc; [lia|]. repeat (apply rb_char; [lia..|]). constructor.
      - unfold new_regexp_val. cbv zeta. change (trim_slash _) with (b "tmp"). rewrite E. reflexivity. }
    do 4 eexists. split; [apply (accept_one O (tx "a") [b "a"]); [apply field_a|repeat constructor|repeat constructor|exact L]|].
    vm_compute. discriminate.
Qed.
Print Assumptions C11_edge_slash_refuted.

(** C69: otherwise the body is kept. *)
Theorem C69_regex_body O body u p v :
  regex_denotes body u -> scalars body ->
  last body 0 <> 92 ->                       (* does not end in an escaped backslash *)
  hd 0 u <> 47 -> last u 0 <> 47 ->          (* no escaped slash at either end *)
  (literal O ([47] ++ body ++ [47]) p v <->
     (exists r, o_re_parse O (encode u) = Some r) /\ v = ARegex (encode u) ([47] ++ encode u ++ [47]) p).
Proof.
  intros D S L H1 H2. pose proof (regex_pattern O body u p D L H1 H2) as P. split.
  - intros Li. apply literal_slash in Li as [_ N]; [|reflexivity].
    rewrite P in N. destruct (o_re_parse O (encode u)) as [r|]; [|discriminate]. injection N as <-. eauto.
  - intros [(r & E) ->]. apply lit_regex; [exists body; split; auto; eapply regex_denotes_body; eauto|]. now rewrite P, E.
Qed.
Print Assumptions C69_regex_body.

Example C69_example : regex_denotes (tx "^a\/b\\c$") (tx "^a/b\\c$") /\
  exists p p', parse_plain test_oracle (b "x:/^a\/b\\c$/") = QOk (NExpr EQ [b "x"] [ARegex (b "^a/b\\c$") (b "/^a/b\\c$/") p] p').
Proof.
  split.
  - cbn. do 2 (apply rd_char; [lia..|]). apply (rd_slash (tx "b\\c$") (tx "b\\c$")). cbn. apply rd_char; [lia..|]. apply rd_esc; [lia..|]. do 2 (apply rd_char; [lia..|]). constructor.
  - vm_compute. do 2 eexists. reflexivity.
Qed.

(** ** C12 *)
Theorem C12_date_literal O t p v : date_lit t ->
  (literal O t p v <-> exists n, date_denotes t n /\ v = ATime {| i_sec := n * 86400; i_nsec := 0 |} true t p).
Proof. apply date_literal. Qed.
Print Assumptions C12_date_literal.

Theorem C12_timestamp_literal O t p v : datetime_lit t ->
  (literal O t p v <-> exists s ns, timestamp_denotes t s ns /\ v = ATime {| i_sec := s; i_nsec := ns |} false t p).
Proof. apply timestamp_literal. Qed.
Print Assumptions C12_timestamp_literal.

(** The day number is unique, so a literal has one value. *)
Theorem C12_day_number_unique d m n : (0 <= yr d)%Z -> valid_date d -> day_number d m -> day_number d n -> m = n.
Proof. intros Y V M N. apply (day_number_spec d m Y V) in M. apply (day_number_spec d n Y V) in N. congruence. Qed.
Print Assumptions C12_day_number_unique.

Lemma date_plain t : date_lit t -> Forall plain t.
Proof.
  intros (y & m & d & -> & [Y _] & [M _] & [D _]).
  assert (P : forall x, digits x -> Forall plain x) by (intros x X; eapply Forall_impl; [|exact X]; intros c; unfold digit, plain, ws_char; lia).
  repeat (apply Forall_app; split; auto); repeat constructor; unfold ws_char; cbn; lia.
Qed.
Theorem C12_date_accepted O t : date_lit t ->
  (exists x, parse_plain O (encode (tx "a:" ++ t)) = QOk x) <-> exists n, date_denotes t n.
Proof.
  intros D. pose proof (date_ascii _ D) as A. split.
  - intros (x & H). apply parse_a_number in H as (v & p & L & _); auto using ascii_scalars, date_plain.
    + apply C12_date_literal in L as (n & Dn & _); eauto.
    + right. pose proof (date_prefix_hd t [] D) as H0. now rewrite app_nil_r in H0.
  - intros (n & Dn). eexists. apply (accept_one O (tx "a") [b "a"]); [apply field_a|repeat constructor|now apply ascii_scalars|].
    apply C12_date_literal; eauto.
Qed.
Print Assumptions C12_date_accepted.

(** 29 February only in leap years; one instant written with two offsets. *)
Example C12_example :
  (exists p p', parse_plain test_oracle (b "a:2000-02-29") = QOk (NExpr EQ [b "a"] [ATime {| i_sec := 951782400; i_nsec := 0 |} true (b "2000-02-29") p] p')) /\
  (exists e, parse_plain test_oracle (b "a:1900-02-29") = QErr e) /\
  (exists p p', parse_plain test_oracle (b "a:2021-12-31T23:30:00.25-01:30") =
    QOk (NExpr EQ [b "a"] [ATime {| i_sec := 1640998800; i_nsec := 250000000 |} false (b "2021-12-31T23:30:00.25-01:30") p] p')) /\
  (exists p p', parse_plain test_oracle (b "a:2022-01-01T01:00:00.25Z") =
    QOk (NExpr EQ [b "a"] [ATime {| i_sec := 1640998800; i_nsec := 250000000 |} false (b "2022-01-01T01:00:00.25Z") p] p')).
Proof. repeat split; vm_compute; do 2 eexists; reflexivity. Qed.
Example C12_example_date : date_lit (tx "1969-12-31") /\ date_denotes (tx "1969-12-31") (-1).
Proof.
  assert (N4 : ndigits 4 (tx "1969")) by (split; [repeat constructor; cbn; lia|reflexivity]).
  assert (N2 : ndigits 2 (tx "12")) by (split; [repeat constructor; cbn; lia|reflexivity]).
  assert (N2' : ndigits 2 (tx "31")) by (split; [repeat constructor; cbn; lia|reflexivity]).
  split; [exists (tx "1969"), (tx "12"), (tx "31"); auto|].
  apply (dt (tx "1969") (tx "12") (tx "31")); auto.
  - unfold valid_date. vm_compute. repeat split; discriminate.
  - right. split; [lia|]. reflexivity.
Qed.

(** ** C13 *)
(** In-range lower-case t, lower-case z and the blank are admitted by the grammar and rejected. *)
Theorem C13_timestamp_forms_refuted : exists t,
  datetime_lit t /\
  (exists d h m s z, t = d ++ tx "t" ++ h ++ tx ":" ++ m ++ tx ":" ++ s ++ z /\ date_denotes d 0 /\
     ndigits 2 h /\ ndigits 2 m /\ ndigits 2 s /\ (dec_num h <= 23 /\ dec_num m <= 59 /\ dec_num s <= 59)%Z /\ zone_denotes z 0) /\
  forall O x, parse_plain O (encode (tx "a:" ++ t)) <> QOk x.
Proof.
  exists (tx "1970-01-01t00:00:00Z").
  assert (Y : ndigits 4 (tx "1970")) by (split; [repeat constructor; cbn; lia|reflexivity]).
  assert (M : ndigits 2 (tx "01")) by (split; [repeat constructor; cbn; lia|reflexivity]).
  assert (Z0 : ndigits 2 (tx "00")) by (split; [repeat constructor; cbn; lia|reflexivity]).
  split; [|split].
  - exists (tx "1970-01-01"), (tx "t"), (tx "00:00:00Z"). split; [reflexivity|]. split; [exists (tx "1970"), (tx "01"), (tx "01"); auto|]. split; [tauto|].
    exists (tx "00"), (tx "00"), (tx "00"), [], (tx "Z"). split; [reflexivity|]. repeat (split; [assumption|]). split; now left.
  - exists (tx "1970-01-01"), (tx "00"), (tx "00"), (tx "00"), (tx "Z"). split; [reflexivity|]. split; [|repeat (split; [assumption|]); split; [vm_compute; repeat split; discriminate|constructor]].
    apply (dt (tx "1970") (tx "01") (tx "01") 0); auto; [unfold valid_date; vm_compute; repeat split; discriminate|]. left. split; [lia|reflexivity].
  - intros O x. vm_compute. discriminate.
Qed.
Print Assumptions C13_timestamp_forms_refuted.

(** C70: the forms that are accepted: separator T, zone Z or offset, fields in range. *)
Theorem C70_accepted_timestamps O d s u p : date_lit d -> (s = tx "T" \/ s = tx "t" \/ s = tx " ") -> time_lit u ->
  (exists v, literal O (d ++ s ++ u) p v) <->
  s = tx "T" /\ (exists n, date_denotes d n) /\
  exists h m se f ns z off, u = h ++ tx ":" ++ m ++ tx ":" ++ se ++ f ++ z /\ ndigits 2 h /\ ndigits 2 m /\ ndigits 2 se /\
    (dec_num h <= 23 /\ dec_num m <= 59 /\ dec_num se <= 59)%Z /\ frac_denotes f ns /\ zone_denotes z off.
Proof.
  intros D S U. assert (T : datetime_lit (d ++ s ++ u)) by (exists d, s, u; auto). split.
  - intros (v & L). apply C12_timestamp_literal in L as (sec & ns & TD & ->); auto. inversion TD as [d' n h m se f ns' z off Dn H M Se R1 R2 R3 F Z E1 E2 E3].
    assert (Ld : length d' = length d). { destruct Dn as [y m' d'' n Y M' D'' x _ _]. rewrite (date_len d D), !app_length. destruct Y as [_ ->], M' as [_ ->], D'' as [_ ->]. reflexivity. }
    assert (d' = d /\ tx "T" = s /\ h ++ tx ":" ++ m ++ tx ":" ++ se ++ f ++ z = u) as (-> & <- & <-).
    { assert (G : forall (a c x y : text), length a = length c -> a ++ x = c ++ y -> a = c /\ x = y).
      { induction a as [|? a IH]; intros [|? c] x y Hl He; try discriminate; auto. cbn in He. injection He as -> He. injection Hl as Hl. destruct (IH _ _ _ Hl He) as [-> ->]; auto. }
      destruct (G _ _ _ _ Ld E1) as [-> E1']. destruct S as [->|[->| ->]]; cbn [app tx] in E1'; vm_compute in E1'; try discriminate. injection E1' as <-. auto. }
    split; [reflexivity|]. split; [eauto|]. exists h, m, se, f, ns', z, off. repeat (split; [first [reflexivity|assumption]|]). subst ns'. auto 10.
  - intros (-> & (n & Dn) & (h & m & se & f & ns & z & off & -> & H & M & Se & (R1 & R2 & R3) & F & Z)).
    eexists. apply C12_timestamp_literal; auto. do 2 eexists. split; [|reflexivity]. apply ts; eauto.
Qed.
Print Assumptions C70_accepted_timestamps.
Example C70_example : date_lit (tx "1969-12-31") /\ time_lit (tx "23:30:00.25-01:30") /\ datetime_lit (tx "1969-12-31" ++ tx "T" ++ tx "23:30:00.25-01:30") /\
  timestamp_denotes (tx "1969-12-31" ++ tx "T" ++ tx "23:30:00.25-01:30") 3600 250000000 /\
  (forall p, exists v, literal test_oracle (tx "1969-12-31" ++ tx "T" ++ tx "23:30:00.25-01:30") p v) /\
  (forall p v, ~ literal test_oracle (tx "1969-12-31" ++ tx "t" ++ tx "23:30:00.25-01:30") p v).
Proof.
  assert (Nd : forall s, forallb is_digit s = true -> ndigits (length s) s).
  { intros s H. split; [|reflexivity]. apply Forall_forall. intros c I. rewrite forallb_forall in H. apply H in I. unfold is_digit, digit in *. lia. }
  assert (Dl : date_lit (tx "1969-12-31")).
  { exists (tx "1969"), (tx "12"), (tx "31"). split; [reflexivity|]. split; [now apply (Nd (tx "1969"))|]. split; [now apply (Nd (tx "12"))|now apply (Nd (tx "31"))]. }
  assert (Fr : digits1 (tx "25")) by (split; [apply (Nd (tx "25")); reflexivity|discriminate]).
  assert (Tl : time_lit (tx "23:30:00.25-01:30")).
  { exists (tx "23"), (tx "30"), (tx "00"), (tx ".25"), (tx "-01:30"). split; [reflexivity|]. do 3 (split; [now apply (Nd (_ :: _ :: nil))|]).
    split; [right; exists (tx "25"); now split|]. right. right. exists (tx "-"), (tx "01"), (tx "30"). split; [reflexivity|]. split; [now right|].
    split; now apply (Nd (_ :: _ :: nil)). }
  assert (Dd : date_denotes (tx "1969-12-31") (-1)) by apply C12_example_date.
  split; [exact Dl|]. split; [exact Tl|]. split; [exists (tx "1969-12-31"), (tx "T"), (tx "23:30:00.25-01:30"); auto|]. split.
  - apply (ts (tx "1969-12-31") (-1) (tx "23") (tx "30") (tx "00") (tx ".25") 250000000 (tx "-01:30") (- (dec_num (tx "01") * 3600 + dec_num (tx "30") * 60)) Dd);
      try (now apply (Nd (_ :: _ :: nil))); try (vm_compute; discriminate).
    + apply (fr_some (tx "25")); [exact Fr|]. vm_compute. repeat split; first [reflexivity|discriminate].
    + apply (zn_minus (tx "01") (tx "30")); try (now apply (Nd (_ :: _ :: nil))); vm_compute; discriminate.
  - split.
    + intros p. eexists. apply lit_time; [left; exists (tx "1969-12-31"), (tx "T"), (tx "23:30:00.25-01:30"); auto|vm_compute; reflexivity].
    + intros p v L. destruct (proj1 (C70_accepted_timestamps test_oracle _ _ _ p Dl (or_intror (or_introl eq_refl)) Tl) (ex_intro _ v L)) as [E _]. discriminate.
Qed.
