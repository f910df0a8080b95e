(** C08: the number of grammar expressions evaluated (the counter ExprCnt of the parser). *)
From Verif Require Import Bytes Utf8 Oracles PegSyntax Engine GrammarSpec CostProofs CostUpper ParseQuery Ast AstSpec Prop_Grammar TestOracle.

(** Accepted queries of length 2n+8 that take at least 4^n evaluations: n pairs of parentheses
    around one comparison. *)
Theorem C08_nested_parentheses O n : exists q,
  length q = (2 * n + 8)%nat /\ 4 ^ N.of_nat n <= rcnt (run O q).
Proof. exists (encode (parens n)). split; [apply parens_length|apply parens_run]. Qed.
Print Assumptions C08_nested_parentheses.

(** No polynomial bounds the cost. *)
Theorem C08_polynomial_refuted O : forall c k : N, exists q,
  c * (1 + N.of_nat (length q)) ^ k < rcnt (run O q).
Proof.
  intros c k. destruct (exp_beats_poly c k) as (n & H). exists (encode (parens n)). rewrite parens_length.
  apply N.lt_le_trans with (4 ^ N.of_nat n); [|apply parens_run].
  replace (1 + N.of_nat (2 * n + 8)) with (2 * N.of_nat n + 9) by lia. exact H.
Qed.
Print Assumptions C08_polynomial_refuted.

(** The queries are ordinary ones, and the counter does count. *)
Example C08_example : encode (parens 2) = b "((a:exists))" /\
  (exists t, parse_plain test_oracle (encode (parens 2)) = QOk t) /\
  rcnt (run test_oracle (encode (parens 0))) = 248 /\ rcnt (run test_oracle (encode (parens 1))) = 1060.
Proof. split; [reflexivity|]. split; [vm_compute; eauto|]. split; vm_compute; reflexivity. Qed.

(** ** C96: what holds instead of C08 *)
(** The number of evaluations is bounded by a polynomial whose degree grows with the number of
    opening parentheses of the text (inside quotes or not), whether the query is accepted or not. *)
Theorem C96_bound O q : let n := 1 + N.of_nat (length q) in
  rcnt (run O q) <= 2100 * n ^ 2 * (23 * n ^ 2) ^ (N.of_nat (count_occ N.eq_dec q 40) + 1).
Proof. exact (run_closed O q). Qed.
Print Assumptions C96_bound.

(** Queries with at most k opening parentheses are parsed in polynomial time. *)
Theorem C96_polynomial k : exists c d, forall O q, (count_occ N.eq_dec q 40%N <= k)%nat ->
  rcnt (run O q) <= c * (1 + N.of_nat (length q)) ^ d.
Proof.
  exists (2100 * 23 ^ (N.of_nat k + 1)), (2 + 2 * (N.of_nat k + 1)). intros O q Hk.
  eapply N.le_trans; [exact (run_closed O q)|]. set (n := 1 + N.of_nat (length q)). fold (parens_in q) in Hk.
  assert (1 <= n) by (unfold n; lia). destruct (sq n H) as (S1 & S2).
  transitivity (2100 * n ^ 2 * (23 * n ^ 2) ^ (N.of_nat k + 1)).
  - apply N.mul_le_mono_l. apply N.pow_le_mono_r; lia.
  - rewrite N.pow_mul_l, (N.pow_add_r n 2), <- N.pow_mul_r. generalize (n ^ (2 * (N.of_nat k + 1))) (23 ^ (N.of_nat k + 1)) (n ^ 2). intros. lia.
Qed.
Print Assumptions C96_polynomial.

(** Without parentheses: degree four. *)
Corollary C96_flat O q : ~ In 40 q -> rcnt (run O q) <= 48300 * (1 + N.of_nat (length q)) ^ 4.
Proof.
  intros H. pose proof (run_closed O q) as R. cbn zeta in R. unfold parens_in in R. apply (count_occ_not_In N.eq_dec) in H. rewrite H in R.
  change (N.of_nat 0 + 1) with 1 in R. rewrite N.pow_1_r in R. replace ((1 + N.of_nat (length q)) ^ 4) with ((1 + N.of_nat (length q)) ^ 2 * (1 + N.of_nat (length q)) ^ 2) by (rewrite <- N.pow_add_r; reflexivity). lia.
Qed.
Print Assumptions C96_flat.

Example C96_example : ~ In 40 (b "a:1 AND b:""x"" OR !c:<2") /\ rcnt (run test_oracle (b "a:1 AND b:""x"" OR !c:<2")) = 1220.
Proof. split; [vm_compute; intuition discriminate|vm_compute; reflexivity]. Qed.
