(** C01, C07: totality of the parser and positions of its errors. *)
From Verif Require Import Bytes Utf8 Oracles Ast PegSyntax Engine EnginePositions Validators ValidatorProofs
  Visitors VisitorProofs ParseQuery TestOracle.
From Coq Require Import ZifyBool ZifyN ZifyNat.

(** ** C01 *)
(** For every byte string, every oracle and every list of (well-behaved or not) visitors the
    call ends in a tree or in an error: no panic leaves it and the step bound of the model is
    never reached. *)
Theorem C01_total {W E T : Type} O (vs : list (visitor W E T * tape T)) (q : bytes) (w : W) :
  (exists t, fst (fst (parse_query O vs q w)) = QOk t) \/
  (exists e, fst (fst (parse_query O vs q w)) = QErr e).
Proof.
  unfold parse_query. pose proof (parse_no_fuel O q) as HF. destruct (parse O q) as [v|e es|]; cbn [fst]; [|eauto|congruence].
  destruct v; cbn [fst]; eauto.
  pose proof (walk_validator_no_panic O n) as HP.
  destruct (walk_validator O n); cbn [fst]; eauto; [|congruence].
  destruct (run_visitors vs n w) as [[[e|] w'] ts]; cbn [fst]; eauto.
Qed.
Print Assumptions C01_total.

Example C01_example_tree : exists t, parse_plain test_oracle (b "a:1 AND NOT (b:>2 OR c:exists)") = QOk t.
Proof. vm_compute. eauto. Qed.
Example C01_example_error : exists e, parse_plain test_oracle ([255; 0; 40] ++ b "a:1") = QErr e.
Proof. vm_compute. eauto. Qed.

(** ** C07 *)
(** Offset inside the text; line number the one of that offset (a position on a line feed may
    already be counted on the next line, as pigeon does). *)
Definition inside (q : bytes) (p : pos) : Prop :=
  (0 <= p_off p <= Z.of_nat (length q))%Z /\ (1 <= p_line p)%Z /\
  let before := firstn (Z.to_nat (p_off p)) q in
  let upto := firstn (S (Z.to_nat (p_off p))) q in
  (1 + Z.of_nat (count_occ N.eq_dec before 10%N) <= p_line p <= 1 + Z.of_nat (count_occ N.eq_dec upto 10%N))%Z.

Theorem C07_error_positions O (q : bytes) e :
  parse_plain O q = QErr (QSyntax e) -> inside q (qerr_pos (E := unit) (T := unit) (QSyntax e)).
Proof.
  unfold parse_plain, parse_query. destruct (parse O q) as [v|e' es|] eqn:P; cbn [fst].
  - destruct v; cbn [fst]; try discriminate. destruct (walk_validator O n); cbn; discriminate.
  - intros [= ->]. apply parse_err_positions in P. inversion P as [|? ? H _]; subst. clear P.
    destruct H as (pr & suf & -> & H1 & H2 & H3). unfold inside, qerr_pos, err_pos. cbn [p_off p_line].
    rewrite H1, Nat2Z.id. rewrite firstn_app, Nat.sub_diag, firstn_all, firstn_O, app_nil_r.
    rewrite firstn_app, firstn_all2 by lia. replace (S (length pr) - length pr)%nat with 1%nat by lia.
    unfold newlines, nl_at in *. rewrite app_length, count_occ_app.
    destruct suf as [|c suf]; cbn [firstn count_occ length]; [lia|].
    destruct (N.eq_dec c 10) as [->|]; [rewrite N.eqb_refl in H3; lia|]. replace (c =? 10) with false in H3 by lia. lia.
  - discriminate.
Qed.
Print Assumptions C07_error_positions.

(** On the second line. *)
Example C07_example : exists e, parse_plain test_oracle (b "a:1 AND" ++ [10] ++ b " b:") = QErr (QSyntax e) /\
  p_line (err_pos e) = 2%Z /\ p_off (err_pos e) = 11%Z.
Proof. vm_compute. eauto. Qed.
