(** C133: the option MaxExpressions. *)
From Verif Require Import Bytes Utf8 Utf8Proofs Oracles Ast PegSyntax Grammar Engine EngineBasics GrammarSpec CostProofs NestSpec NestCost Limit LimitProofs TestOracle.

Section V.
Context (O : oracles).
Lemma limit_off m q : m = 0 \/ 2 ^ 64 - 1 <= m -> limit_parse O m q = Within (parse O q).
Proof.
  intros H. unfold limit_parse. replace ((m =? 0) || (2 ^ 64 - 1 <=? m)) with true; [reflexivity|]. symmetry. apply orb_true_iff. destruct H as [->|H]; [now left|right; now apply N.leb_le].
Qed.
Lemma limit_on m : 0 < m < 2 ^ 64 - 1 -> (m =? 0) || (2 ^ 64 - 1 <=? m) = false.
Proof. intros H. apply orb_false_iff. split; [apply N.eqb_neq; lia|apply N.leb_gt; lia]. Qed.
Lemma lrun_sim m q : 0 < m -> lsim m (init_state q) (run O q) (lrun O m q).
Proof. intros H. apply leval_sim. unfold init_state, read_at. repeat match goal with |- context [if ?x then _ else _] => destruct x end; cbn; lia. Qed.
End V.

(** The errors a parse returns, oldest first. *)
Definition errors_of (r : presult) : list perr := match r with PErr e es => e :: es | _ => [] end.
Lemma errors_result s l r : rst r = Some s -> errs s = l -> exists more, errors_of (parse_result r) = rev l ++ more.
Proof.
  intros A C. assert (F : forall v s', errors_of (finish v s') = rev (errs s')) by (intros v s'; unfold finish; now destruct (rev (errs s'))).
  destruct r as [v f s'|s'|s'|]; cbn in A; try discriminate; injection A as ->; cbn [parse_result].
  - exists []. now rewrite F, C, app_nil_r.
  - destruct (errs s) as [|e es] eqn:E; [exists [{| pe_kind := KNoMatch (mf_exp s); pe_pos := mf_pos s |}]|exists []]; rewrite F; subst l; cbn; rewrite ?E, ?app_nil_r; reflexivity.
  - exists [{| pe_kind := KPanic; pe_pos := at_ (pt s) |}]. rewrite F. cbn. now rewrite C.
Qed.

(** A limit that the evaluations of the parse do not exceed changes nothing. *)
Theorem C133_within O m q : rcnt (run O q) <= m -> limit_parse O m q = Within (parse O q) /\ limit_count O m q = rcnt (run O q).
Proof.
  intros H. destruct ((m =? 0) || (2 ^ 64 - 1 <=? m)) eqn:E; [unfold limit_parse, limit_count; rewrite E; auto|].
  apply orb_false_iff in E as E2. destruct E2 as [E1 _]. apply N.eqb_neq in E1.
  pose proof (run_no_fuel O q) as Nf. destruct (lrun_sim O m q) as [[A C]|(s & A & C & _ & G)]; [lia| |].
  - unfold limit_parse, limit_count. rewrite E, A. split; [|reflexivity]. unfold parse. destruct (run O q) as [v f s'|s'|s'|]; try reflexivity. cbn in C. apply N.ltb_ge in C. now rewrite C.
  - exfalso. unfold grows in G. destruct (run O q) as [v f s'|s'|s'|]; try contradiction; cbn in *; destruct G; lia.
Qed.
Print Assumptions C133_within.

(** A limit that they exceed ends the parse at the first evaluation beyond it. The errors returned before that one are the
    first ones of the parse without the limit, so the one reported is the same if there is any. *)
Theorem C133_exceeded O m q : 0 < m < 2 ^ 64 - 1 -> m < rcnt (run O q) ->
  exists before place more, limit_parse O m q = Exceeded before place /\ limit_count O m q = m + 1 /\
    errors_of (parse O q) = before ++ more.
Proof.
  intros Hm H. apply limit_on in Hm as E.
  pose proof (run_no_fuel O q) as Nf. destruct (lrun_sim O m q) as [[A C]|(s & A & C & _ & G)]; [lia| |].
  - exfalso. destruct (run O q) as [v f s'|s'|s'|]; cbn in *; try lia.
  - unfold limit_parse, limit_count. rewrite E, A. assert (L : (m <? cnt s) = true) by (apply N.ltb_lt; lia). rewrite L.
    assert (exists more, errors_of (parse O q) = rev (errs s) ++ more) as (more & M).
    { unfold grows in G. destruct (rst (run O q)) as [s'|] eqn:R; [|destruct (run O q); try discriminate; contradiction]. destruct G as [_ [l Hl]].
      destruct (errors_result s' _ (run O q) R Hl) as (more & M). unfold parse. rewrite M, rev_app_distr, <- app_assoc. eauto. }
    exists (rev (errs s)), (at_ (pt s)), more. auto.
Qed.
Print Assumptions C133_exceeded.

(** No limit is ever overrun by more than the evaluation that finds it reached. *)
Theorem C133_bound O m q : 0 < m < 2 ^ 64 - 1 -> limit_count O m q <= m + 1.
Proof.
  intros Hm. destruct (N.le_gt_cases (rcnt (run O q)) m) as [H|H].
  - destruct (C133_within O m q H) as [_ ->]. lia.
  - destruct (C133_exceeded O m q Hm H) as (? & ? & ? & _ & -> & _). lia.
Qed.
Print Assumptions C133_bound.

(** Without the option, with 0 and with the largest number there is no limit. *)
Theorem C133_off O m q : m = 0 \/ 2 ^ 64 - 1 <= m -> limit_parse O m q = Within (parse O q).
Proof. apply limit_off. Qed.
Print Assumptions C133_off.

(** A limit that admits every query of at most n bytes whose groups are nested at most d deep. *)
Theorem C133_depth O n d t : scalars t -> nested_query O d t -> (length (encode t) <= n)%nat ->
  limit_parse O (8400 * (1 + N.of_nat n) ^ 3 * 4 ^ N.of_nat d) (encode t) = Within (parse O (encode t)).
Proof.
  intros S Q L. apply C133_within. etransitivity; [apply (nested_run O d t S Q)|]. apply N.mul_le_mono_r, N.mul_le_mono_l, N.pow_le_mono_l. lia.
Qed.
Print Assumptions C133_depth.

(** And one that refuses the deeply nested: any limit of 4^d - 1 or less refuses d pairs of parentheses around a
    comparison. *)
Theorem C133_refuses O m d : 0 < m < 2 ^ 64 - 1 -> m < 4 ^ N.of_nat d ->
  exists before place, limit_parse O m (encode (parens d)) = Exceeded before place.
Proof.
  intros Hm H. destruct (C133_exceeded O m (encode (parens d)) Hm) as (x & y & _ & E & _); [|eauto]. pose proof (parens_run O d). lia.
Qed.
Print Assumptions C133_refuses.

(** Finding a:exists takes 248 evaluations; with one less the parse ends at the end of the text, without another
    error. An error recorded before is kept. *)
Example C133_example :
  rcnt (run test_oracle (b "a:exists")) = 248 /\
  limit_parse test_oracle 248 (b "a:exists") = Within (parse test_oracle (b "a:exists")) /\
  limit_parse test_oracle 247 (b "a:exists") = Exceeded [] {| line := 1; col := 9; off := 8 |} /\
  limit_count test_oracle 247 (b "a:exists") = 248 /\
  limit_parse test_oracle 150 (b "a:" ++ [255] ++ b "b") =
    (let e := {| pe_kind := KInvalidEncoding; pe_pos := {| line := 1; col := 3; off := 2 |} |} in Exceeded [e; e] {| line := 1; col := 3; off := 2 |}).
Proof. repeat split; vm_compute; reflexivity. Qed.
