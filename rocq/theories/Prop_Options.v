(** C144: the options Recover and Entrypoint of the generated parser. *)
From Verif Require Import Bytes Utf8 Utf8Proofs Oracles Ast PegSyntax Grammar Actions Engine EngineBasics CleanEval Bridge GrammarSpec ClauseProofs
  ParserTop Options TestOracle.

(** Without the two options, or with their default values, nothing changes. *)
Theorem C144_default O q : option_parse O true "" q = Returned (parse O q) /\ option_parse O true "Start" q = Returned (parse O q).
Proof. unfold option_parse, parse, run, entry_run. cbn. destruct (eval _ _ _ _ _ _ _); auto. Qed.
Print Assumptions C144_default.

(** Whatever the entry point, the parse ends. *)
Lemma entry_fuel O r q : entry_run O r q <> RFuel.
Proof.
  apply (eval_fuel O (first_point q)); [apply wf_rules|constructor|apply adv_refl|].
  unfold fuel_for. rewrite pt_init. cbn [rest]. assert (depth (rules r) <= 100)%nat by (destruct r; apply Nat.leb_le; vm_compute; reflexivity).
  unfold slack. lia.
Qed.
Theorem C144_ends O rec entry q : option_parse O rec entry q <> Returned PFuel.
Proof.
  unfold option_parse. destruct (entry_rule entry) as [r|]; [|discriminate]. pose proof (entry_fuel O r q) as E.
  destruct (entry_run O r q) as [v f s|s|s|]; try congruence; cbn [parse_result]; try (destruct rec; [|discriminate]).
  - unfold finish. destruct (rev _); discriminate.
  - destruct (errs s); unfold finish; destruct (rev _); discriminate.
  - unfold finish. destruct (rev _); discriminate.
Qed.
Print Assumptions C144_ends.

(** The names of the rules, as they are defined in internal/grammar/aql.peg:183-493. *)
Definition peg_rules : list string :=
  ["Start"; "Query"; "OrClause"; "AndClause"; "NotClause"; "Comparison"; "Field"; "FieldPiece"; "UnquotedFieldPiece"; "QuotedFieldPiece"; "Star"; "ValueList"; "Value"; "QuotedValue"; "EndingQuote"; "EscapedChar"; "EscapeSequence"; "SingleCharEscape"; "UnicodeEscape"; "HexDigit"; "ValueChars"; "RegexValue"; "RegexChar"; "RegexEscape"; "EndingSlash"; "BareValue"; "BoolValue"; "FloatValue"; "IntValue"; "IPValue"; "Octet"; "CIDRBlock"; "Timestamp"; "dateTime"; "fullDate"; "dateFullyear"; "dateMonth"; "dateMday"; "timeHour"; "timeMinute"; "timeSecond"; "timeSecfrac"; "timeNumoffset"; "timeOffset"; "partialTime"; "fullTime"; "Digit4"; "Digit2"; "logicalOR"; "logicalAND"; "logicalNOT"; "opNoArgs"; "opComp"; "_"; "space"; "EOL"; "EOF"; "ErrUntermStr"; "ErrUntermRegex"]%string.

(** Exactly the names of no rule are refused, and every rule can be entered. *)
Theorem C144_unknown O rec entry q : option_parse O rec entry q = NoEntry <-> entry <> ""%string /\ ~ In entry peg_rules.
Proof.
  change peg_rules with (map fst rule_table).
  unfold option_parse, entry_rule, rule_named. split.
  - destruct (String.eqb_spec entry "") as [->|Ne].
    { change (find _ _) with (Some ("Start"%string, RStart)). cbn [option_map snd]. intros E. destruct (entry_run O RStart q), rec; discriminate. }
    destruct (find _ _) as [x|] eqn:F; cbn [option_map].
    { intros E. destruct (entry_run O (snd x) q), rec; discriminate. }
    intros _. split; [exact Ne|]. intros H. apply in_map_iff in H as (x & <- & H). apply (find_none _ _ F) in H. cbn in H. now rewrite String.eqb_refl in H.
  - intros [Ne H]. destruct (String.eqb_spec entry "") as [->|_]; [congruence|].
    destruct (find _ _) as [x|] eqn:F; [|reflexivity]. apply find_some in F as [F1 F2]. apply String.eqb_eq in F2. subst entry.
    destruct H. now apply in_map.
Qed.
Print Assumptions C144_unknown.
Theorem C144_entered r : exists entry, In entry peg_rules /\ entry_rule entry = Some r.
Proof.
  assert (H : forall x, In x rule_table -> entry_rule (fst x) = Some (snd x)) by (apply Forall_forall; repeat (constructor; [reflexivity|]); constructor).
  assert (A : In r (map snd rule_table)) by (destruct r; cbn; tauto).
  apply in_map_iff in A as (x & <- & A). exists (fst x). split; [|now apply H]. change peg_rules with (map fst rule_table). now apply in_map.
Qed.
Print Assumptions C144_entered.

(** Without recovery: an accepted text is accepted with the same value, and no panic is the first thing that goes wrong. *)
Theorem C144_accepted O q v : parse O q = PVal v -> option_parse O false "" q = Returned (PVal v).
Proof.
  unfold option_parse. change (entry_rule "") with (Some RStart). cbv beta iota. change (entry_run O RStart q) with (run O q). unfold parse.
  destruct (run O q) as [x f s|s|s|] eqn:R; intros E; rewrite ?E; auto.
  exfalso. unfold parse_result, finish, add_err in E. cbn in E. destruct (rev (errs s)); cbn in E; discriminate.
Qed.
Print Assumptions C144_accepted.

Theorem C144_panic O q before : option_parse O false "" q = Panicked before ->
  exists e es place, before = e :: es /\ pe_kind e <> KPanic /\ parse O q = PErr e (es ++ [{| pe_kind := KPanic; pe_pos := place |}]).
Proof.
  unfold option_parse. change (entry_rule "") with (Some RStart). cbv beta iota. change (entry_run O RStart q) with (run O q). pose proof (parse_spec O q) as P. unfold parse in *.
  destruct (run O q) as [x f s|s|s|] eqn:R; try discriminate. intros [= <-].
  unfold parse_result, finish, add_err in *. cbn in *. destruct (rev (errs s)) as [|e es] eqn:E; cbn in *.
  - destruct P as [P _]. congruence.
  - destruct P as [P _]. eauto 8.
Qed.
Print Assumptions C144_panic.

Theorem C144_returned O q r : option_parse O false "" q = Returned r -> r = parse O q.
Proof.
  unfold option_parse. change (entry_rule "") with (Some RStart). cbv beta iota. change (entry_run O RStart q) with (run O q). unfold parse.
  destruct (run O q) as [x f s|s|s|] eqn:R; congruence.
Qed.
Print Assumptions C144_returned.

(** So the recovery is needed: texts that are refused by ParseQuery would crash its caller without it. *)
Theorem C144_no_panic_refuted : exists q before, option_parse test_oracle false "" q = Panicked before.
Proof. exists (b "a:1.2.3.4/99"). vm_compute. eauto. Qed.
Print Assumptions C144_no_panic_refuted.

(** Entering at Query accepts what Start accepts, with the same value. *)
Theorem C144_query O rec q v : parse O q = PVal v -> option_parse O rec "Query" q = Returned (PVal v).
Proof.
  intros P. pose proof (parse_spec O q) as S. rewrite P in S. destruct S as (rs & x & Hs & -> & -> & Q).
  destruct (start_complete O rs x Q) as (f & c' & E & _). unfold cstart in E.
  unfold option_parse. change (entry_rule "Query") with (Some RQuery). unfold entry_run.
  pose proof (entry_fuel O RQuery (encode rs)) as NF. unfold entry_run in NF.
  assert (R : Rel [] (init_state (encode rs)) {| pre := []; crs := rs |}).
  { pose proof (init_rel rs [] Hs (or_introl eq_refl)) as R. cbn in R. rewrite !app_nil_r in R. apply R. congruence. }
  assert (L : (length rs <= length (encode rs))%nat).
  { clear. induction rs as [|r rs IH]; [cbn; lia|]. rewrite encode_cons, app_length. pose proof (encode_rune_len r). cbn. lia. }
  pose proof (bridge O [] (or_introl eq_refl) (fuel_for (encode rs)) false [] (rules RQuery) [] _ _ (wf_rules RQuery) (Forall_nil _) R) as B.
  assert (C : exists f2 c2, ceval O (fuel_for (encode rs)) [] (rules RQuery) [] {| pre := []; crs := rs |} = COk (VNode x) f2 c2).
  { set (c := {| pre := []; crs := rs |}) in *.
    assert (W : ceval O (fuel_for (encode rs) + 4) [] (rules RStart) [] c = COk (VNode x) f c').
    { rewrite cev_ceval; [exact E|apply (wf_rules RStart)|constructor|]. unfold need, fuel_for. cbn [crs c].
      assert (depth (rules RStart) <= 100)%nat by (apply Nat.leb_le; vm_compute; reflexivity). unfold slack. lia. }
    replace (fuel_for (encode rs) + 4)%nat with (S (S (S (S (fuel_for (encode rs)))))) in W by lia.
    set (n := fuel_for (encode rs)) in *. clearbody n. clear -W.
    change (rules RStart) with (EAction AStart1 (ESeq [ELabel "query"%string (ERule RQuery); ERule REOF])) in W.
    assert (Q : exists f2 c2, ceval O n [] (rules RQuery) [] c = COk (VNode x) f2 c2).
    { remember (S n) as n1. remember (S n1) as n2. remember (S n2) as n3. cbn [ceval] in W. subst n3. cbn [ceval cseq] in W. subst n2. cbn [ceval] in W. subst n1. cbn [ceval] in W.
      destruct (ceval O n [] (rules RQuery) [] c) as [v2 f2 c2| | | |]; cbn [cpop] in W; try discriminate.
      destruct (cpop _ _) as [v3 f3 c3| | | |] eqn:E3 in W; try discriminate.
      assert (f3 = set_label "query"%string v2 []) as ->.
      { match type of E3 with cpop _ ?r = _ => destruct r end; cbn [cpop] in E3; congruence. }
      cbn in W. injection W as -> _ _. eauto. }
    exact Q. }
  destruct C as (f2 & c2 & C). rewrite C in B. destruct B as [B|[(e & _ & [B|[B _]])|B]]; try congruence.
  destruct (eval O (fuel_for (encode rs)) false [] (rules RQuery) [] (init_state (encode rs))) as [v3 f3 s3|s3|s3|]; try contradiction.
  destruct B as (-> & _ & B). cbn [parse_result]. rewrite finish_clean by apply B. reflexivity.
Qed.
Print Assumptions C144_query.

(** But a text is then read only as far as the rule goes: the rest is ignored without an error. *)
Theorem C144_query_only_refuted : exists q v, option_parse test_oracle true "Query" q = Returned (PVal v) /\ forall w, parse test_oracle q <> PVal w.
Proof.
  exists (b "a:1 b"). eexists. split; [vm_compute; reflexivity|]. intros w H. vm_compute in H. discriminate.
Qed.
Print Assumptions C144_query_only_refuted.

Example C144_example :
  option_parse test_oracle false "" (b "a:exists") = Returned (parse test_oracle (b "a:exists")) /\
  (exists v, parse test_oracle (b "a:exists") = PVal v) /\
  (exists e, option_parse test_oracle false "" (b "a:") = Returned (PErr e [])) /\
  (exists e1 e2, option_parse test_oracle false "" ([34] ++ b "x\z" ++ [34] ++ b ":exists") = Panicked [e1; e2]) /\
  option_parse test_oracle true "opComp" (b "<=") = Returned (PVal (VOp LTE)) /\
  option_parse test_oracle true "opcomp" (b "<=") = NoEntry.
Proof.
  split; [vm_compute; reflexivity|]. split; [eexists; vm_compute; reflexivity|]. split; [eexists; vm_compute; reflexivity|].
  split; [do 2 eexists; vm_compute; reflexivity|]. split; vm_compute; reflexivity.
Qed.
