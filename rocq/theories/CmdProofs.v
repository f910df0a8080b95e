(** Lemmas about the command-line program. *)
From Verif Require Import Bytes Utf8 Utf8Proofs GoStrconv GoNet Oracles Ast AstSpec Actions PegSyntax Engine EnginePositions GrammarSpec GrammarFacts ParserTop Validators ValidatorProofs Visitors VisitorProofs ParseQuery
  StrMatch Values Json JsonSpec Matcher QueryMessages MatcherTop MessageSpec MessageProofs RegexLitProofs QuoteProofs Fmtmsg Marshal MarshalSpec MarshalProofs WasmProofs CmdTest.
From Verif Require Prop_Grammar Prop_Friendly.
From Coq Require Import ZifyBool ZifyN ZifyNat.

(** ** Names in the statistics are UTF-8 *)
Lemma utf8_app x y : is_utf8 x -> is_utf8 y -> is_utf8 (x ++ y).
Proof. intros (u & Su & ->) (v & Sv & ->). exists (u ++ v). split; [now apply Forall_app|]. now rewrite encode_app. Qed.
Lemma utf8_nil : is_utf8 [].
Proof. exists []. split; [constructor|reflexivity]. Qed.
Lemma utf8_rune c : is_scalar c = true -> is_utf8 (encode_rune c).
Proof. intros H. exists [c]. split; [now constructor|]. rewrite encode_cons. cbn. now rewrite app_nil_r. Qed.
Lemma hex_digit_ascii v : v < 16 -> hex_digit v < 128.
Proof. unfold hex_digit. destruct (v <? 10) eqn:E; lia. Qed.
Lemma utf8_quote_rune isprint c : is_scalar c = true -> is_utf8 (quote_rune isprint c).
Proof.
  intros Sc. unfold quote_rune. destruct ((c =? 34) || (c =? 92)) eqn:E; [apply ascii_utf8; repeat constructor; lia|].
  destruct (if c <? 128 then _ else _); [now apply utf8_rune|]. pose proof (proj1 (scalar_spec c) Sc) as B.
  repeat match goal with |- context [if ?x then [_; _] else _] => destruct x; [apply ascii_utf8; repeat constructor; lia|] end.
  assert (D : forall k, k <> 0 -> (c / k) mod 16 < 16) by (intros; apply N.mod_lt; lia).
  destruct ((c <? 32) || (c =? 127)) eqn:E1; [|destruct (c <? 65536) eqn:E2]; apply ascii_utf8; repeat constructor; try lia; try (apply hex_digit_ascii); try (apply N.mod_lt; lia); apply N.div_lt_upper_bound; lia.
Qed.
Lemma utf8_quote isprint u : scalars u -> is_utf8 (quote isprint (encode u)).
Proof.
  intros Su. unfold quote. change (34 :: quote_loop isprint (length (encode u)) (encode u) ++ [34]) with ([34] ++ quote_loop isprint (length (encode u)) (encode u) ++ [34]).
  assert (Q : is_utf8 [34]) by (apply ascii_utf8; repeat constructor). apply utf8_app; [exact Q|]. apply utf8_app; [|exact Q]. clear Q.
  generalize (length (encode u)). induction Su as [|c u Sc Su IH]; intros [|n]; try apply utf8_nil. rewrite quote_loop_cons by exact Sc. apply utf8_app; [now apply utf8_quote_rune|apply IH].
Qed.

Lemma utf8_unescape n : forall t, (length t <= n)%nat -> scalars t -> is_utf8 (unescape_slash (encode t)).
Proof.
  assert (C : forall c x, is_scalar c = true -> is_utf8 x -> is_utf8 (encode_rune c ++ x)) by (intros; apply utf8_app; [now apply utf8_rune|assumption]).
  induction n as [|n IH]; intros t L Sc; [destruct t; [apply utf8_nil|cbn in L; lia]|]. destruct t as [|c t]; [apply utf8_nil|]. inversion Sc as [|? ? Hc Ht]; subst. cbn in L.
  rewrite encode_cons. destruct (N.eq_dec c 92) as [->|Nc].
  - rewrite encode_rune_ascii by lia. cbn [app]. destruct t as [|d t].
    + apply (C 92); [reflexivity|apply utf8_nil].
    + inversion Ht as [|? ? Hd Ht']; subst. cbn in L. rewrite encode_cons. destruct (N.eq_dec d 47) as [->|Nd].
      * rewrite encode_rune_ascii by lia. cbn [app]. change (is_utf8 (encode_rune 47 ++ unescape_slash (encode t))). apply C; [reflexivity|]. apply IH; [lia|exact Ht'].
      * pose proof (encode_rune_no d 47 Nd ltac:(lia)) as F. destruct (encode_rune_split d) as (x & y & E). rewrite E in *. inversion F; subst. cbn [app]. rewrite unescape_bs by assumption.
        change (x :: y ++ encode t) with ((x :: y) ++ encode t). rewrite <- E, <- encode_cons. apply (C 92); [reflexivity|]. apply IH; [cbn; lia|now constructor].
  - rewrite unescape_app by (apply encode_rune_no; lia). apply C; [exact Hc|]. apply IH; [lia|exact Ht].
Qed.

Section WithOracles.
Context (O : oracles).
Definition prints_ascii : Prop := forall f, Forall (fun c => c < 128) (o_fmt_float O f).

Lemma literal_utf8 t p v : prints_ascii -> scalars t -> literal O t p v -> is_utf8 (val_string O v).
Proof.
  intros Fm Sc L. assert (T : is_utf8 (encode t)) by (exists t; now split).
  destruct L as [t s p Q U|t v p R E|t v p R E|t v p R E|t v p R E|t v p R E|p|p]; try (apply ascii_utf8; cbn; repeat constructor; fail).
  - apply (proj1 (StringProofs.unquote_spec t Q Sc s)) in U as (body & u & -> & D & ->). apply utf8_quote. eapply string_scalars; [exact D|].
    inversion Sc; subst. match goal with H : Forall _ (body ++ _) |- _ => now apply Forall_app in H as [H _] end.
  - unfold new_regexp_val in E. destruct (o_re_parse O _); [|discriminate]. injection E as <-. cbn [val_string]. now apply (utf8_unescape (length t)).
  - unfold new_time_val in E. destruct (Nat.eqb _ 10); [destruct (GoTime.parse_date _); [|discriminate]|destruct (GoTime.parse_rfc3339 _); [|discriminate]]; injection E as <-; exact T.
  - unfold new_net_val, net_text in E. cbv zeta in E. destruct (parse_prefix _ _); [|discriminate]. injection E as <-. cbn [val_string]. destruct (has_byte 47 (encode t)); [exact T|].
    apply utf8_app; [exact T|]. apply ascii_utf8. cbn. repeat constructor.
  - unfold new_float_val in E. destruct (GoFloat.parse_float _ _) as [f|]; [|discriminate]. destruct f; try discriminate E; injection E as <-; apply ascii_utf8, Fm.
  - unfold new_int_val in E. destruct (parse_int _); [|discriminate]. injection E as <-. exact T.
Qed.
Lemma accepted_val_utf8 q t o f vs p v : prints_ascii -> parse_plain O q = QOk t -> subnode (NExpr o f vs p) t -> In v vs -> is_utf8 (val_string O v).
Proof.
  intros Fm P S0 J. apply Prop_Grammar.C03_language in P as (rs & Hs & -> & (w1 & a & w2 & -> & W1 & W2 & D) & C).
  destruct (derives_expr O _ _ _ _ _ _ _ _ D S0) as (a' & k & z & E & -> & K).
  destruct (comparison_value_in O _ _ _ _ _ _ K J) as (a'' & k' & z' & E' & L).
  assert (Sk : scalars (w1 ++ a)) by (rewrite app_assoc in Hs; now apply Forall_app in Hs as [Hs _]).
  rewrite E, app_assoc in Sk. apply Forall_app in Sk as [Sk _]. rewrite E' in Sk. apply Forall_app in Sk as [_ Sk]. apply Forall_app in Sk as [Sk _].
  eapply literal_utf8; eauto.
Qed.
Lemma utf8_field_string f : Forall is_utf8 f -> is_utf8 (field_string O f).
Proof.
  assert (Pc : forall x, is_utf8 x -> is_utf8 (field_piece_string O x)).
  { intros x H. unfold field_piece_string. destruct (needs_quote x); [|exact H]. destruct H as (u & Su & ->). now apply utf8_quote. }
  induction 1 as [|x f Hx F IH]; [apply utf8_nil|]. destruct f as [|y f]; [now apply Pc|].
  change (field_string O (x :: y :: f)) with (field_piece_string O x ++ b "." ++ field_string O (y :: f)). apply utf8_app; [now apply Pc|].
  apply utf8_app; [apply ascii_utf8; cbn; repeat constructor|exact IH].
Qed.
Lemma utf8_join sep l : is_utf8 sep -> Forall is_utf8 l -> is_utf8 (join sep l).
Proof.
  intros Hs. induction 1 as [|x l Hx F IH]; [apply utf8_nil|]. destruct l as [|y l]; [exact Hx|].
  change (join sep (x :: y :: l)) with (x ++ sep ++ join sep (y :: l)). apply utf8_app; [exact Hx|]. now apply utf8_app.
Qed.
Lemma label_utf8 q t : prints_ascii -> parse_plain O q = QOk t -> is_utf8 (Prop_Friendly.label O t).
Proof.
  intros Fm P. assert (A : forall s, Forall (fun c => c < 128) s -> is_utf8 s) by apply ascii_utf8.
  destruct t as [l r|l r|e|o f vs p]; cbn [Prop_Friendly.label]; try (apply A; cbn; repeat constructor; fail).
  assert (Fv : Forall is_utf8 (map (val_string O) vs)).
  { rewrite Forall_map. apply Forall_forall. intros v J. eapply accepted_val_utf8; eauto. apply sub_refl. }
  assert (Ff : Forall is_utf8 f).
  { apply Prop_Grammar.C03_language in P as (rs & Hs & -> & (w1 & a & w2 & -> & W1 & W2 & D) & C). eapply derives_fields; [exact D| |apply sub_refl].
    apply Forall_app in Hs as [_ Hs]. now apply Forall_app in Hs. }
  unfold friendly_string. apply utf8_app; [now apply utf8_field_string|]. apply utf8_app; [apply A; cbn; repeat constructor|].
  apply utf8_app; [destruct o; apply A; cbn; repeat constructor|]. apply utf8_app; [apply A; cbn; repeat constructor|].
  destruct vs as [|v [|v' vs]]; [apply utf8_nil|now inversion Fv|]. apply utf8_app; [apply A; cbn; repeat constructor|]. apply utf8_app; [|apply A; cbn; repeat constructor].
  apply utf8_join; [apply A; cbn; repeat constructor|exact Fv].
Qed.

(** ** Places of messages and errors *)
Lemma tree_values_in t : forall o f v, In (o, f, v) (tree_values t) -> exists vs p, subnode (NExpr o f vs p) t /\ In v vs.
Proof.
  induction t as [l IHl r IHr|l IHl r IHr|e IHe|o f vs p]; intros o' f' v' I; cbn [tree_values] in I.
  - apply in_app_iff in I as [I|I]; [destruct (IHl _ _ _ I) as (vs & p & Sb & J)|destruct (IHr _ _ _ I) as (vs & p & Sb & J)]; exists vs, p; split; auto; [now apply sub_and_l|now apply sub_and_r].
  - apply in_app_iff in I as [I|I]; [destruct (IHl _ _ _ I) as (vs & p & Sb & J)|destruct (IHr _ _ _ I) as (vs & p & Sb & J)]; exists vs, p; split; auto; [now apply sub_or_l|now apply sub_or_r].
  - destruct (IHe _ _ _ I) as (vs & p & Sb & J). exists vs, p. split; [now apply sub_not|exact J].
  - apply in_map_iff in I as (v & [= <- <- <-] & J). exists vs, p. split; [apply sub_refl|exact J].
Qed.
Lemma message_place q t x : parse_plain O q = QOk t -> In x (flat_map (node_msgs O) (preorder t)) -> pos_inside q (m_pos x).
Proof.
  intros P I. destruct (messages_blocks O q t P) as (bl & E & F). rewrite E in I. apply in_concat in I as (ms & Ib & I).
  destruct (Forall2_in_r _ _ _ F _ Ib) as ([[o f] v] & Iv & (M1 & _)). rewrite (M1 x I). apply tree_values_in in Iv as (vs & p & Sb & Iv).
  apply Prop_Grammar.C03_language in P as (text & _ & -> & Q & _). now apply (tree_pos_inside O text t o f vs p Q Sb).
Qed.
Lemma error_place q e : new_matcher O q = NewErr e -> (0 <= p_off (qerr_pos e) /\ 0 <= p_len (qerr_pos e))%Z.
Proof.
  intros N. destruct (new_matcher_cases O q) as [(t & r & _ & _ & E)|(e0 & e' & P0 & E)]; [congruence|]. clear E e'.
  destruct (new_matcher_rejected O q e0 P0) as (e' & E & H). assert (e' = e) as -> by congruence. clear E N P0 e0.
  unfold parse_query in H. pose proof (parse_spec O q) as P. destruct (parse O q) as [v|e1 es|] eqn:Pe; [| |contradiction].
  - destruct P as (rs & x & Hs & -> & -> & Q). pose proof (walk_validator_no_panic O x) as NP.
    destruct (walk_validator O x) as [|k p|] eqn:W; cbn in H; [discriminate| |congruence]. injection H as <-. pose proof (walk_validator_err O _ _ _ _ Q W) as (P1 & P2 & _). cbn. lia.
  - cbn in H. injection H as <-. cbn. pose proof (parse_err_positions O q _ _ Pe) as Ps. inversion Ps as [|? ? (pr & sf & Eq & Ho & _) _]; subst.
    split; [lia|]. destruct (parse_err_inside O _ _ _ Pe) as [[In'|[In'|In']]|[(l & In')|In']]; [lia|rewrite In'; cbn; lia|rewrite In'; cbn; lia|rewrite In'; cbn; lia|].
    tauto.
Qed.

(** ** Statistics after one call of Match *)
Lemma result_stats t m root a m' : build O t = Ok m -> result O m root = Ok (a, m') ->
  stats m' = MatchStats (Prop_Friendly.label O t) 1 (if a then 1 else 0) [].
Proof.
  assert (K : forall nm a, to_stats_node (mark (new_stats nm) a) [] = MatchStats nm 1 (if a then 1 else 0) []) by (intros nm []; reflexivity).
  destruct t as [l r|l r|e|o f vs p]; cbn [build bind Prop_Friendly.label].
  - destruct (build O l); [|discriminate]. destruct (build O r); [|discriminate]. intros [= <-]. cbn [result bind]. destruct (result O _ root) as [[[] l']|]; [| |discriminate]; cbn [bind].
    + destruct (result O _ root) as [[c r']|]; [|discriminate]. intros [= <- <-]. apply K.
    + intros [= <- <-]. apply (K _ false).
  - destruct (build O l); [|discriminate]. destruct (build O r); [|discriminate]. intros [= <-]. cbn [result bind]. destruct (result O _ root) as [[[] l']|]; [| |discriminate]; cbn [bind].
    + intros [= <- <-]. apply (K _ true).
    + destruct (result O _ root) as [[c r']|]; [|discriminate]. intros [= <- <-]. apply K.
  - destruct (build O e); [|discriminate]. intros [= <-]. cbn [result bind]. destruct (result O _ root) as [[c e']|]; [|discriminate]. intros [= <- <-]. apply K.
  - destruct (build_exprs O o vs); [|discriminate]. intros [= <-]. cbn [result bind]. destruct (expr_result O _ _ root) as [c|]; [|discriminate]. intros [= <- <-]. apply K.
Qed.
End WithOracles.

(** ** A query does not end in .aql *)
Definition ends_ql (t : list N) : Prop := exists x, t = x ++ [113; 108].
Lemma app_end {A} (x y : list A) c d e : x ++ [c; d] = y ++ [e] -> e = d.
Proof. intros H. change [c; d] with ([c] ++ [d]) in H. rewrite app_assoc in H. apply app_inj_tail in H. now symmetry. Qed.
Lemma not_end t e : e <> 108 -> ~ ends_ql (t ++ [e]).
Proof. intros H (x & E). symmetry in E. apply app_end in E. congruence. Qed.
Lemma ends_tail t u : u <> [] -> (length u = 1%nat -> hd 0 u <> 108) -> ends_ql (t ++ u) -> ends_ql u.
Proof.
  intros Ne L (x & E). destruct u as [|c [|d u]]; [congruence| |].
  - symmetry in E. apply app_end in E. exfalso. now apply L.
  - assert (H : exists k, x = t ++ k /\ c :: d :: u = k ++ [113; 108]).
    { assert (Len : (length t <= length x)%nat) by (apply (f_equal (@length N)) in E; rewrite !app_length in E; cbn in E; lia).
      exists (skipn (length t) x). assert (E' : skipn (length t) (t ++ c :: d :: u) = skipn (length t) (x ++ [113; 108])) by now rewrite E.
      rewrite skipn_app_exact in E'. rewrite skipn_app in E'. replace (length t - length x)%nat with 0%nat in E' by lia. cbn [skipn] in E'. split; [|exact E'].
      assert (F : firstn (length t) (t ++ c :: d :: u) = firstn (length t) (x ++ [113; 108])) by now rewrite E. rewrite firstn_app, firstn_all, Nat.sub_diag in F. cbn in F. rewrite app_nil_r in F.
      rewrite firstn_app in F. replace (length t - length x)%nat with 0%nat in F by lia. cbn in F. rewrite app_nil_r in F. transitivity (firstn (length t) x ++ skipn (length t) x); [now rewrite firstn_skipn|now rewrite <- F]. }
    destruct H as (k & _ & H). exists k. exact H.
Qed.
Lemma digits_end t u : digits1 u -> ~ ends_ql (t ++ u).
Proof.
  intros (D & Ne). destruct (exists_last Ne) as (u' & c & ->). rewrite app_assoc. apply not_end. apply Forall_app in D as [_ D]. inversion D; subst. unfold GrammarSpec.digit in *. lia.
Qed.
Lemma ndigits_end n t u : ndigits (S n) u -> ~ ends_ql (t ++ u).
Proof. intros (D & L). apply digits_end. split; [exact D|]. intros ->. discriminate. Qed.
Lemma date_end t u : date_lit u -> ~ ends_ql (t ++ u).
Proof. intros (y & m & d & -> & _ & _ & D). rewrite !app_assoc. now apply (ndigits_end 1). Qed.
Section Ends.
Context (O : oracles).
Lemma literal_end t u p v : literal O u p v -> ~ ends_ql (t ++ u).
Proof.
  intros [u' s q (body & -> & _) _|u' v' q (body & -> & _) _|u' v' q R _|u' v' q R _|u' v' q R _|u' v' q R _|q|q].
  - rewrite !app_assoc. apply not_end. lia.
  - rewrite !app_assoc. apply not_end. lia.
  - destruct R as [(d & s & w & -> & _ & _ & (h & m & s' & f & z & -> & _ & _ & _ & _ & Z))|R]; [|now apply date_end].
    destruct Z as [->|[->|(sg & hh & mm & -> & _ & _ & M)]]; rewrite !app_assoc; [apply not_end; cbn; lia|apply not_end; cbn; lia|now apply (ndigits_end 1)].
  - destruct R as (o1 & o2 & o3 & o4 & m & -> & _ & _ & _ & (D & _) & [->|(d & -> & D' & _)]); rewrite !app_assoc; [rewrite app_nil_r|]; now apply digits_end.
  - destruct R as (s & d & e & -> & _ & _ & D). rewrite !app_assoc. now apply digits_end.
  - destruct R as (s & d & -> & _ & D). rewrite !app_assoc. now apply digits_end.
  - change (tx "true") with ([116; 114; 117] ++ [101]). rewrite app_assoc. apply not_end. lia.
  - change (tx "false") with ([102; 97; 108; 115] ++ [101]). rewrite app_assoc. apply not_end. lia.
Qed.
Lemma derives_end l pre u n : derives O l pre u n -> forall t, ~ ends_ql (t ++ u).
Proof.
  induction 1 as [pre a w1 w2 c x y W1 W2 Dx IHx Dy IHy|pre a x Dx IHx|pre a w1 w2 c x y W1 W2 Dx IHx Dy IHy|pre a x Dx IHx|pre n a x Nn Dx IHx|pre a x Dx IHx|pre w1 w2 a x W1 W2 Dx IHx|pre f l w1 w2 k o F W1 W2 K u|pre f l w1 w2 k o w3 v vs F W1 W2 K W3 V u];
    intros t; auto.
  - rewrite !app_assoc. apply IHy.
  - rewrite !app_assoc. apply IHy.
  - rewrite !app_assoc. apply IHx.
  - rewrite !app_assoc. apply not_end. cbn. lia.
  - unfold u. rewrite !app_assoc. inversion K; subst.
    + change (tx "exists") with ([101; 120; 105; 115; 116] ++ [115]). rewrite app_assoc. apply not_end. lia.
    + change (tx "null") with ([110; 117] ++ [108; 108]). rewrite app_assoc. intros H. apply ends_tail in H; [|discriminate|discriminate]. destruct H as (x & H). destruct x as [|c x]; [discriminate H|]. apply (f_equal (@length N)) in H. cbn in H. rewrite app_length in H. cbn in H. lia.
  - unfold u. rewrite !app_assoc. inversion V; subst; [eapply literal_end; eauto|]. rewrite !app_assoc. apply not_end. cbn. lia.
Qed.
End Ends.
