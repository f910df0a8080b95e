(** C132: the cost of accepted queries by the nesting of their groups. *)
From Verif Require Import Bytes Utf8 Utf8Proofs Oracles Ast PegSyntax Engine GrammarSpec ListProofs FieldProofs ClauseProofs CostProofs CostUpper NestSpec NestCost ParseQuery Prop_Grammar TestOracle.

Section V.
Context (O : oracles).
Lemma nested_mono d l p t : nested O d l p t -> forall d', (d <= d')%nat -> nested O d' l p t.
Proof.
  induction 1 as [d p a w1 w2 t W1 W2 D1 IH1 D2 IH2|d p a D IH|d p a w1 w2 t W1 W2 D1 IH1 D2 IH2|d p a D IH|d p nt a Hnt D IH|d p a D IH|d p w1 w2 a W1 W2 D IH|d p t x D Hh]; intros d' L.
  - apply ns_or; auto.
  - apply ns_or1; auto.
  - apply ns_and; auto.
  - apply ns_and1; auto.
  - apply ns_not; auto.
  - apply ns_not1; auto.
  - destruct d' as [|d']; [lia|]. apply ns_group; auto. apply IH. lia.
  - eapply ns_single; eauto.
Qed.
Lemma derives_nested l p t x : derives O l p t x -> nested O (count_occ N.eq_dec t 40) l p t.
Proof.
  assert (Fd : forall f l0 u, field f l0 -> hd_error (f ++ u) <> Some 40).
  { intros f l0 u F. apply field_hd in F as (y & v & -> & Hy). cbn. intros [= ->]. apply piece_char_facts in Hy. tauto. }
  induction 1 as [p a w1 w2 c x y W1 W2 D1 IH1 D2 IH2|p a x D IH|p a w1 w2 c x y W1 W2 D1 IH1 D2 IH2|p a x D IH|p n a x Hn D IH|p a x D IH|p w1 w2 a x W1 W2 D IH|p f l w1 w2 k o F W1 W2 K t|p f l w1 w2 k o w3 v vs F W1 W2 K W3 V t].
  - apply ns_or; auto; (eapply nested_mono; [eassumption|]); rewrite !count_occ_app; lia.
  - now apply ns_or1.
  - apply ns_and; auto; (eapply nested_mono; [eassumption|]); rewrite !count_occ_app; lia.
  - now apply ns_and1.
  - apply ns_not; auto. eapply nested_mono; [eassumption|]. rewrite count_occ_app. lia.
  - now apply ns_not1.
  - change (tx "(" ++ ?x) with (40 :: x). rewrite count_occ_cons_eq by reflexivity. apply (ns_group O _ p w1 w2 a W1 W2). eapply nested_mono; [eassumption|]. rewrite !count_occ_app. lia.
  - eapply ns_single; [apply d_noarg; eauto|]. unfold t. eapply Fd; eauto.
  - eapply ns_single; [apply d_values; eauto|]. unfold t. eapply Fd; eauto.
Qed.
Lemma count_encode t : (count_occ N.eq_dec t 40%N <= count_occ N.eq_dec (encode t) 40%N)%nat.
Proof.
  induction t as [|x t IH]; [cbn; lia|]. rewrite encode_cons, count_occ_app. cbn [count_occ].
  destruct (N.eq_dec x 40) as [->|]; [|lia]. change (encode_rune 40) with [40]. cbn [count_occ]. destruct (N.eq_dec 40 40); [lia|congruence].
Qed.
End V.

(** However many groups stand side by side: a query whose comparisons stand inside at most [d] pairs of
    parentheses is parsed with a number of evaluations of degree three in its length, times 4^d. *)
Theorem C132_depth O d t : scalars t -> nested_query O d t -> let n := 1 + N.of_nat (length (encode t)) in
  rcnt (run O (encode t)) <= 8400 * n ^ 3 * 4 ^ N.of_nat d.
Proof. apply nested_run. Qed.
Print Assumptions C132_depth.

(** Every accepted query has such a depth, at most the number of its opening parentheses. *)
Theorem C132_accepted O q x : parse_plain O q = QOk x -> exists d t, scalars t /\ q = encode t /\ nested_query O d t /\
  (d <= count_occ N.eq_dec q 40%N)%nat /\
  rcnt (run O q) <= 8400 * (1 + N.of_nat (length q)) ^ 3 * 4 ^ N.of_nat d.
Proof.
  intros H. apply C03_language in H as (t & Hs & -> & (w1 & a & w2 & -> & W1 & W2 & D) & _).
  assert (Q : nested_query O (count_occ N.eq_dec a 40) (w1 ++ a ++ w2)) by (exists w1, a, w2; repeat split; auto; now apply (derives_nested O LOr w1 a x)).
  exists (count_occ N.eq_dec a 40), (w1 ++ a ++ w2). split; [exact Hs|]. split; [reflexivity|]. split; [exact Q|]. split; [|now apply nested_run].
  transitivity (count_occ N.eq_dec (encode a) 40); [apply count_encode|]. rewrite !encode_app, !count_occ_app. lia.
Qed.
Print Assumptions C132_accepted.

(** The factor 4 for each level cannot be made smaller: for each depth there is a query of length 2d+8 that takes
    4^d evaluations. *)
Theorem C132_factor O d : exists t, scalars t /\ nested_query O d t /\ length (encode t) = (2 * d + 8)%nat /\
  4 ^ N.of_nat d <= rcnt (run O (encode t)).
Proof.
  exists (parens d). split; [apply parens_scalars|]. split; [|split; [apply parens_length|apply parens_run]].
  exists [], (parens d), []. split; [now rewrite app_nil_r|]. split; [constructor|]. split; [constructor|].
  destruct (parens_derives O d LOr []) as (x & D). apply derives_nested in D. replace (count_occ N.eq_dec (parens d) 40) with d in D; [exact D|].
  clear. induction d as [|d IH]; [reflexivity|]. cbn [parens]. change (tx "(" ++ ?x) with (40 :: x). rewrite count_occ_cons_eq by reflexivity. rewrite count_occ_app, <- IH. cbn. lia.
Qed.
Print Assumptions C132_factor.

(** Two groups side by side have depth one. *)
Example C132_example : nested_query test_oracle 1 (tx "(a:exists) AND (a:exists)") /\
  rcnt (run test_oracle (b "(a:exists) AND (a:exists)")) = 1602.
Proof.
  split; [|vm_compute; reflexivity].
  assert (F : field (tx "a") [b "a"]) by (exists [b "a"]; split; [|reflexivity]; apply pcs_one, (pc_plain (tx "a")); [|discriminate]; constructor; [left; cbn; lia|constructor]).
  assert (S : forall p, nested test_oracle 0 LOr p (tx "a:exists")).
  { intros p. apply ns_or1, ns_and1, ns_not1. eapply ns_single; [|discriminate]. apply (d_noarg test_oracle p (tx "a") [b "a"] [] [] (tx "exists") EXS); auto; constructor. }
  assert (G : forall p, nested test_oracle 1 LCmp p (tx "(a:exists)")) by (intros p; apply (ns_group test_oracle 0 p [] [] (tx "a:exists")); [constructor|constructor|apply S]).
  exists [], (tx "(a:exists) AND (a:exists)"), []. split; [reflexivity|]. split; [constructor|]. split; [constructor|]. apply ns_or1.
  apply (ns_and test_oracle 1 [] (tx "(a:exists)") [32] [32] (tx "(a:exists)")).
  - split; [repeat constructor|discriminate].
  - split; [repeat constructor|discriminate].
  - apply ns_not1, G.
  - apply ns_and1, ns_not1, G.
Qed.
