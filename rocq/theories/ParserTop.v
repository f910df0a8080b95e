(** What grammar.Parse and ParseQuery return, in terms of the grammar specification. *)
From Verif Require Import Bytes Utf8 Utf8Proofs Oracles Ast AstSpec PegSyntax Grammar Engine EngineBasics CleanEval Bridge GrammarSpec ClauseProofs
  Validators ValidatorProofs Visitors VisitorProofs ParseQuery.

Lemma finish_clean v s : errs s = [] -> finish v s = PVal v.
Proof. intros E. unfold finish. now rewrite E. Qed.
Lemma finish_dirty v s : errs s <> [] -> exists e es, finish v s = PErr e es /\ In e (errs s).
Proof.
  intros H. unfold finish. destruct (rev (errs s)) as [|e es] eqn:E.
  - exfalso. apply H. rewrite <- (rev_involutive (errs s)), E. reflexivity.
  - exists e, es. split; auto. apply in_rev. rewrite E. now left.
Qed.

Lemma step_kinds p0 s s' : step p0 s s' -> Forall (fun e => pe_kind e <> KPanic) (errs s) -> Forall (fun e => pe_kind e <> KPanic) (errs s').
Proof.
  destruct 1; cbn; auto.
  - unfold read, read_at. destruct (_ && _); cbn; auto. intros; constructor; auto. discriminate.
  - now rewrite errs_fail.
Qed.
Lemma steps_kinds p0 s s' : steps p0 s s' -> Forall (fun e => pe_kind e <> KPanic) (errs s) -> Forall (fun e => pe_kind e <> KPanic) (errs s').
Proof. induction 1; auto. intros. eapply step_kinds; eauto. Qed.
Lemma init_kinds q : Forall (fun e => pe_kind e <> KPanic) (errs (init_state q)).
Proof. unfold init_state, read_at. destruct (_ && _); cbn; repeat constructor. discriminate. Qed.

Section T.
Context (O : oracles).

Lemma parse_dirty q : dirty (run O q) -> exists e es, parse O q = PErr e es /\ pe_kind e <> KPanic.
Proof.
  unfold parse. pose proof (run_good O q) as G. pose proof (init_kinds q) as K0.
  destruct (run O q) as [v f s|s|s|]; cbn [dirty parse_result]; intros D; [| | |contradiction].
  - destruct G as (_ & G & _). apply steps_kinds in G; auto. destruct (finish_dirty v s D) as (e & es & -> & H).
    exists e, es. split; auto. eapply Forall_forall in G; eauto.
  - destruct G as (_ & G). apply steps_kinds in G; auto. destruct (errs s) as [|e0 l] eqn:Es; [congruence|].
    destruct (finish_dirty VNil s) as (e & es & -> & H); [congruence|].
    exists e, es. split; auto. rewrite <- Es in G. eapply Forall_forall in G; eauto.
  - destruct G as (_ & G). apply steps_kinds in G; auto. unfold finish, add_err. cbn [errs]. cbn [rev].
    destruct (rev (errs s)) as [|e es] eqn:E.
    + exfalso. apply D. rewrite <- (rev_involutive (errs s)), E. reflexivity.
    + cbn. exists e. eexists. split; [reflexivity|]. eapply Forall_forall in G; eauto. apply in_rev. rewrite E. now left.
Qed.

Theorem parse_spec q :
  match parse O q with
  | PVal v => exists rs x, scalars rs /\ q = encode rs /\ v = VNode x /\ query O rs x
  | PErr e _ => pe_kind e <> KPanic /\ forall rs x, scalars rs -> q = encode rs -> ~ query O rs x
  | PFuel => False
  end.
Proof.
  destruct (valid_utf8 q) eqn:V.
  - apply valid_utf8_spec in V as (rs & Hs & ->).
    pose proof (run_valid O rs Hs) as R. pose proof (start_sound O rs) as S.
    assert (U : forall rs' x, scalars rs' -> encode rs = encode rs' -> query O rs' x -> query O rs x).
    { intros rs' x Hs' E Q. apply encode_inj in E; auto. now subst. }
    assert (C : (forall x, ~ query O rs x) -> forall rs' x, scalars rs' -> encode rs = encode rs' -> ~ query O rs' x) by (intros H rs' x A B Q; apply (H x); eauto).
    unfold cstart in S. fold (ctop O rs) in S.
    pose proof (fun x => start_complete O rs x) as SC. unfold cstart in SC. fold (ctop O rs) in SC.
    destruct (ctop O rs) as [v f c'| | | |]; try contradiction.
    + destruct R as (s' & R & Rl). destruct S as (x & -> & _ & Q). unfold parse. rewrite R. cbn [parse_result].
      rewrite finish_clean by apply Rl. exists rs, x. auto.
    + destruct R as (s' & R & Rl). unfold parse. rewrite R. cbn [parse_result]. rewrite Rl.
      unfold finish, add_err. cbn. rewrite Rl. cbn. split; [discriminate|]. apply C. intros x Q. destruct (SC x Q) as (? & ? & ? & _). discriminate.
    + destruct (parse_dirty _ (dirtyw_dirty _ _ R)) as (e0 & es & -> & K). split; auto. apply C. intros x Q. destruct (SC x Q) as (? & ? & ? & _). discriminate.
  - assert (N : forall rs x, scalars rs -> q = encode rs -> ~ query O rs x).
    { intros rs x Hs E _. assert (valid_utf8 q = true) by (apply valid_utf8_spec; eauto). congruence. }
    destruct (run_invalid O q V) as [D|(rs & R)].
    + destruct (parse_dirty _ D) as (e & es & -> & K). auto.
    + pose proof (start_sound O rs) as S. unfold cstart in S. fold (ctop O rs) in S. unfold parse.
      destruct (run O q) as [v f s'|s'|s'|]; destruct (ctop O rs) as [v' f' c'| | | |]; try contradiction.
      * destruct R as [_ R]. destruct S as (x & _ & R' & _). congruence.
      * cbn [parse_result]. rewrite R. unfold finish, add_err. cbn. rewrite R. cbn. split; [discriminate|auto].
Qed.

Lemma parse_query_iff rs x : scalars rs -> (parse O (encode rs) = PVal (VNode x) <-> query O rs x).
Proof.
  intros Hs. pose proof (parse_spec (encode rs)) as P. split.
  - intros E. rewrite E in P. destruct P as (rs' & x' & Hs' & Ee & [= <-] & Q). apply encode_inj in Ee; auto. now subst.
  - intros Q. destruct (parse O (encode rs)) as [v|e es|]; [|exfalso; eapply P; eauto|contradiction].
    destruct P as (rs' & x' & Hs' & Ee & -> & Q'). apply encode_inj in Ee; auto. subst rs'. do 2 f_equal. eapply query_unique; eauto.
Qed.
End T.
