(** Lower bounds on the number of expressions the parser evaluates. *)
From Verif Require Import Bytes Utf8 Utf8Proofs GoStrconv Oracles Ast PegSyntax Grammar Actions Engine EngineBasics CleanEval Bridge
  Lexer GrammarSpec TokenProofs TokenProofs2 ValueProofs FieldProofs ListProofs ClauseProofs.
From Coq Require Import ZifyBool ZifyN ZifyNat.

Section V.
Context (O : oracles).
Notation cv := (cev O []).

(** The number of expressions evaluated when the result was produced. *)
Definition rcnt (r : res) : N := match r with RVal _ _ s | RFail s | RPanic s => cnt s | RFuel => 0 end.

(** ** The counter never decreases *)
Definition ge_cnt (s : state) (r : res) : Prop := r = RFuel \/ cnt s <= rcnt r.
Lemma cnt_restore s p : cnt (restore s p) = cnt s.
Proof. unfold restore. destruct (_ =? _)%Z; reflexivity. Qed.
Lemma lit_loop_cnt ic w : forall s, cnt (snd (lit_loop ic w s)) = cnt s /\ (forall s', fst (lit_loop ic w s) = Some s' -> cnt s' = cnt s).
Proof.
  induction w as [|x w IH]; intros s; cbn [lit_loop]; [split; [auto|intros s' [= <-]; auto]|].
  destruct (_ =? x); [|split; [auto|discriminate]]. destruct (IH (read s)) as [H1 H2]. rewrite cnt_read in *. auto.
Qed.
Section Loops.
Variable ev : expr -> frame -> state -> res.
Hypothesis Hev : forall e f s, ge_cnt s (ev e f s).
Lemma seq_cnt start es : forall acc f s, ge_cnt s (seq_loop ev start es acc f s).
Proof.
  induction es as [|e es IH]; intros acc f s; cbn [seq_loop]; [right; cbn; lia|].
  pose proof (Hev e f s) as H. destruct (ev e f s) as [v f' s'|s'|s'|]; destruct H as [H|H]; try discriminate; cbn in H.
  - destruct (IH (v :: acc) f' s') as [->|G]; [now left|right; lia].
  - right. cbn. rewrite cnt_restore. lia.
  - right. cbn. lia.
  - now left.
  - now left.
Qed.
Lemma choice_cnt es : forall f s, ge_cnt s (choice_loop ev es f s).
Proof.
  induction es as [|e es IH]; intros f s; cbn [choice_loop]; [right; cbn; lia|].
  pose proof (Hev e [] s) as H. destruct (ev e [] s) as [v f' s'|s'|s'|]; destruct H as [H|H]; try discriminate; cbn in H.
  - right. cbn. lia.
  - destruct (IH f s') as [->|G]; [now left|right; lia].
  - right. cbn. lia.
  - now left.
  - now left.
Qed.
Lemma star_cnt e k : forall acc f s, ge_cnt s (star_loop ev k e acc f s).
Proof.
  induction k as [|k IH]; intros acc f s; cbn [star_loop]; [now left|].
  pose proof (Hev e [] s) as H. destruct (ev e [] s) as [v f' s'|s'|s'|]; destruct H as [H|H]; try discriminate; cbn in H.
  - destruct (IH (v :: acc) f s') as [->|G]; [now left|right; lia].
  - right. cbn. lia.
  - right. cbn. lia.
  - now left.
  - now left.
Qed.
Lemma throw_cnt l recs : forall f s, ge_cnt s (throw_loop ev l recs f s).
Proof.
  induction recs as [|[ls e] recs IH]; intros f s; cbn [throw_loop]; [right; cbn; lia|].
  destruct (existsb _ ls); auto.
  pose proof (Hev e f s) as H. destruct (ev e f s) as [v f' s'|s'|s'|]; destruct H as [H|H]; try discriminate; cbn in H.
  - right. cbn. lia.
  - destruct (IH f s') as [->|G]; [now left|right; lia].
  - right. cbn. lia.
  - now left.
  - now left.
Qed.
End Loops.
Lemma ge_tick s r : ge_cnt (tick s) r -> r = RFuel \/ cnt s + 1 <= rcnt r.
Proof. intros [->|H]; auto. Qed.
Lemma eval_cnt n : forall inv recs e f s, eval O n inv recs e f s = RFuel \/ cnt s + 1 <= rcnt (eval O n inv recs e f s).
Proof.
  induction n as [|n IH]; intros inv recs e f s0; [now left|]. apply ge_tick. cbn [eval]. set (s := tick s0).
  assert (Hev : forall inv recs e f s, ge_cnt s (eval O n inv recs e f s)).
  { intros i r e' f' s'. destruct (IH i r e' f' s') as [->|H]; [now left|right; lia]. }
  destruct e as [a e|l|l|l e|r|w ic want|v chars ranges ic invd| |e|e|e|e|e rc ls|l|cd].
  - pose proof (Hev inv recs e f s) as H. destruct (eval O n inv recs e f s) as [v f' s'|s'|s'|]; auto.
    destruct H as [H|H]; [discriminate|]. cbn in H. destruct (run_action _ _ _ _ _); right; cbn; lia.
  - apply seq_cnt; auto.
  - apply choice_cnt; auto.
  - pose proof (Hev inv recs e [] s) as H. destruct (eval O n inv recs e [] s) as [v f' s'|s'|s'|]; auto; (destruct H as [H|H]; [discriminate|right; exact H]).
  - pose proof (Hev inv recs (rules r) [] s) as H. destruct (eval O n inv recs (rules r) [] s) as [v f' s'|s'|s'|]; auto; (destruct H as [H|H]; [discriminate|right; exact H]).
  - destruct (lit_loop_cnt ic w s) as [H1 H2]. destruct (lit_loop ic w s) as [[s'|] s2]; cbn in *.
    + right. cbn. rewrite cnt_fail, (H2 s') by auto. lia.
    + right. cbn. rewrite cnt_restore, cnt_fail. lia.
  - destruct (at_eof _); [right; cbn; rewrite cnt_fail; cbn; lia|]. destruct (xorb _ _); right; cbn; rewrite cnt_fail, ?cnt_read; cbn; lia.
  - destruct (at_eof _); [right; cbn; rewrite cnt_fail; cbn; lia|]. right; cbn; rewrite cnt_fail, ?cnt_read; cbn; lia.
  - pose proof (Hev (negb inv) recs e [] s) as H. destruct (eval O n (negb inv) recs e [] s) as [v f' s'|s'|s'|]; auto;
      (destruct H as [H|H]; [discriminate|]; right; cbn in *; rewrite ?cnt_restore; lia).
  - apply star_cnt; auto.
  - pose proof (star_cnt _ (Hev inv recs) e (S (length (rest (pt s)))) [] f s) as H.
    destruct (star_loop _ _ _ _ _ _) as [v f' s'|s'|s'|]; auto. destruct v as [| |[|]| | | | | | |]; auto; (destruct H as [H|H]; [discriminate|right; exact H]).
  - pose proof (Hev inv recs e [] s) as H. destruct (eval O n inv recs e [] s) as [v f' s'|s'|s'|]; auto; (destruct H as [H|H]; [discriminate|right; exact H]).
  - apply Hev.
  - apply throw_cnt; auto.
  - right. cbn. lia.
Qed.

(** ** Lower bounds at a position *)
Notation Rel0 := (Rel []).
Definition K (e : expr) (c : cursor) (k : N) : Prop :=
  forall n inv f s, Rel0 s c -> eval O n inv [] e f s = RFuel \/ cnt s + k <= rcnt (eval O n inv [] e f s).
Definition Kseq (es : list expr) (c : cursor) (k : N) : Prop :=
  forall n inv start acc f s, Rel0 s c ->
    seq_loop (eval O n inv []) start es acc f s = RFuel \/ cnt s + k <= rcnt (seq_loop (eval O n inv []) start es acc f s).

Lemma rel_tick s c : Rel0 s c -> Rel0 (tick s) c.
Proof. intros H. exact H. Qed.
Lemma bridge0 n inv e f s c : wf e = true -> Rel0 s c -> eval O n inv [] e f s = RFuel \/
  match cv e f c with
  | COk v f' c' => exists s', eval O n inv [] e f s = RVal v f' s' /\ Rel0 s' c'
  | CNo => exists s', eval O n inv [] e f s = RFail s' /\ Rel0 s' c
  | _ => True
  end.
Proof.
  intros W R. pose proof (bridge O [] (or_introl eq_refl) n inv [] e f s c W ok_nil R) as [B|[(e1 & B1 & B2)|B]]; auto.
  - destruct B2 as [B2|[B2 _]]; [|congruence]. right. rewrite <- (ceval_cev O n) by (auto using ok_nil; rewrite B2; discriminate). now rewrite B2.
  - right. destruct (ceval O n [] e f c) eqn:E; try (destruct (eval O n inv [] e f s); contradiction);
      (rewrite <- (ceval_cev O n) by (auto using ok_nil; rewrite E; discriminate)); rewrite E; auto;
      destruct (eval O n inv [] e f s); try contradiction.
    + destruct B as (-> & -> & R'). eauto.
    + eauto.
Qed.
Ltac ev1 := match goal with |- context [eval O ?n ?inv [] ?e ?f ?s] =>
  destruct n as [|n]; [now left|]; cbn [eval] end.
Lemma K_weaken e c k k' : k' <= k -> K e c k -> K e c k'.
Proof. intros L H n inv f s R. destruct (H n inv f s R) as [->|G]; auto. right. lia. Qed.
Lemma K_one e c : K e c 1.
Proof. intros n inv f s _. apply eval_cnt. Qed.
Lemma K_rule r c k : K (rules r) c k -> K (ERule r) c k.
Proof.
  intros H n inv f s R. destruct n as [|n]; [now left|]. cbn [eval]. destruct (H n inv [] (tick s) (rel_tick _ _ R)) as [->|G]; [now left|].
  right. cbn [tick cnt] in G. destruct (eval O n inv [] (rules r) [] (tick s)); cbn in *; lia.
Qed.
Lemma K_label l e c k : K e c k -> K (ELabel l e) c k.
Proof.
  intros H n inv f s R. destruct n as [|n]; [now left|]. cbn [eval]. destruct (H n inv [] (tick s) (rel_tick _ _ R)) as [->|G]; [now left|].
  right. cbn [tick cnt] in G. destruct (eval O n inv [] e [] (tick s)); cbn in *; lia.
Qed.
Lemma K_action a e c k : K e c k -> K (EAction a e) c k.
Proof.
  intros H n inv f s R. destruct n as [|n]; [now left|]. cbn [eval]. destruct (H n inv f (tick s) (rel_tick _ _ R)) as [->|G]; [now left|].
  right. cbn [tick cnt] in G. destruct (eval O n inv [] e f (tick s)); cbn in *; try lia. destruct (run_action _ _ _ _ _); cbn in *; lia.
Qed.
Lemma K_seq es c k : Kseq es c k -> K (ESeq es) c k.
Proof.
  intros H n inv f s R. destruct n as [|n]; [now left|]. cbn [eval]. destruct (H n inv (pt (tick s)) [] f (tick s) (rel_tick _ _ R)) as [->|G]; [now left|].
  right. cbn [tick cnt] in G. cbn zeta. lia.
Qed.
Lemma ev_ge n inv : forall e f s, ge_cnt s (eval O n inv [] e f s).
Proof. intros e f s. destruct (eval_cnt n inv [] e f s) as [->|H]; [now left|right; lia]. Qed.
Lemma Kseq_hd e es c k : K e c k -> Kseq (e :: es) c k.
Proof.
  intros H n inv start acc f s R. cbn [seq_loop]. destruct (H n inv f s R) as [->|G]; [now left|].
  destruct (eval O n inv [] e f s) as [v f' s'|s'|s'|] eqn:E; cbn in G.
  - destruct (seq_cnt _ (ev_ge n inv) start es (v :: acc) f' s') as [->|G']; [now left|right; lia].
  - right. cbn. rewrite cnt_restore. lia.
  - right. cbn. lia.
  - now left.
Qed.
Lemma Kseq_tl e es c c' k : wf e = true -> (forall f, exists v f', cv e f c = COk v f' c') -> Kseq es c' k -> Kseq (e :: es) c k.
Proof.
  intros W E H n inv start acc f s R. cbn [seq_loop]. destruct (E f) as (v & f' & Ev).
  pose proof (bridge0 n inv e f s c W R) as B. rewrite Ev in B. destruct B as [->|(s' & Es & R')]; [now left|].
  destruct (eval_cnt n inv [] e f s) as [Hc|Hc]; [now rewrite Hc; left|]. rewrite Es in *. cbn in Hc.
  destruct (H n inv start (v :: acc) f' s' R') as [->|G]; [now left|right; lia].
Qed.
Definition Kch (es : list expr) (c : cursor) (k : N) : Prop :=
  forall n inv f s, Rel0 s c ->
    choice_loop (eval O n inv []) es f s = RFuel \/ cnt s + k <= rcnt (choice_loop (eval O n inv []) es f s).
Lemma K_choice es c k : Kch es c k -> K (EChoice es) c k.
Proof.
  intros H n inv f s R. destruct n as [|n]; [now left|]. cbn [eval]. destruct (H n inv f (tick s) (rel_tick _ _ R)) as [->|G]; [now left|].
  right. cbn [tick cnt] in G. cbn zeta. lia.
Qed.
Lemma K_weaken_ch es c k k' : k' <= k -> Kch es c k -> Kch es c k'.
Proof. intros L H n inv f s R. destruct (H n inv f s R) as [->|G]; auto. right. lia. Qed.
Lemma Kch_hd e es c k : K e c k -> Kch (e :: es) c k.
Proof.
  intros H n inv f s R. cbn [choice_loop]. destruct (H n inv [] s R) as [->|G]; [now left|].
  destruct (eval O n inv [] e [] s) as [v f' s'|s'|s'|] eqn:E; cbn in G; try (right; cbn; lia).
  destruct (choice_cnt _ (ev_ge n inv) es f s') as [->|G']; [now left|right; lia].
Qed.
Lemma Kch_both e es c k1 k2 : wf e = true -> cv e [] c = CNo -> K e c k1 -> Kch es c k2 -> Kch (e :: es) c (k1 + k2).
Proof.
  intros W E H1 H2 n inv f s R. cbn [choice_loop]. destruct (H1 n inv [] s R) as [->|G]; [now left|].
  pose proof (bridge0 n inv e [] s c W R) as B. rewrite E in B. destruct B as [B|(s' & Es & R')]; [now rewrite B; left|].
  rewrite Es in *. cbn in G. destruct (H2 n inv f s' R') as [->|G']; [now left|right; lia].
Qed.

(** ** Nested parentheses *)
Fixpoint parens (n : nat) : text := match n with 0%nat => tx "a:exists" | S n => tx "(" ++ parens n ++ tx ")" end.
Definition inner (p : text) : text := p.

Lemma parens_derives n : forall l p, exists x, derives O l p (parens n) x.
Proof.
  assert (U : forall p t x, derives O LCmp p t x -> forall l, derives O l p t x).
  { intros p t x D []; auto; repeat first [exact D | apply d_or1 | apply d_and1 | apply d_not1]. }
  induction n as [|n IH]; intros l p.
  - eexists. apply U. cbn [parens]. apply (d_noarg O p (tx "a") [b "a"] [] [] (tx "exists") EXS); try constructor.
    exists [b "a"]. split; [|reflexivity]. apply pcs_one, (pc_plain (tx "a")); [|discriminate]. constructor; [left; cbn; lia|constructor].
  - destruct (IH LOr (p ++ tx "(" ++ [])) as (x & D). exists x. apply U. cbn [parens].
    apply (d_paren O p [] [] (parens n) x); auto; constructor.
Qed.

Lemma after_close r : after LOr (41 :: r).
Proof. exists [], (41 :: r). repeat split; auto; try constructor. cbn. auto. Qed.
Lemma after_nil : after LOr [].
Proof. exists [], []. repeat split; auto; try constructor. exact I. Qed.

Section Chain.
(** One level of AND or OR: the operand is evaluated twice. *)
Variables (rl : rname) (a : act) (lo lo' : level) (kw : string) (c0 : N) (kw' : text).
Hypothesis Hkw : forall f d, cv (ERule rl) f d = match slit false (tx kw) (crs d) with Some (t, r) => COk (VBytes (encode t)) f (cmove d t r) | None => CNo end.
Hypothesis Ek : tx kw = c0 :: kw'.
Hypothesis Hc0 : c0 = 65 \/ c0 = 79.
Variable r0 : rname.
Hypothesis Er : rules r0 = EChoice [EAction a (ESeq [ELabel "lhs"%string (ERule (rule_of lo)); ERule Rspace; ERule rl; ERule Rspace; ELabel "rhs"%string (ERule (rule_of lo'))]); ERule (rule_of lo)].
Lemma K_double p t x c r k : derives O lo p t x -> p = rev (pre c) -> crs c = t ++ r -> after lo r -> (forall w r', ws w -> r <> w ++ c0 :: r') ->
  K (ERule (rule_of lo)) c k -> K (ERule r0) c (k + k).
Proof.
  intros D Ep E Hr Hn HK. apply K_rule. rewrite Er. apply K_choice.
  pose proof (wf_rules r0) as W. rewrite Er in W.
  assert (W1 : wf (EAction a (ESeq [ELabel "lhs"%string (ERule (rule_of lo)); ERule Rspace; ERule rl; ERule Rspace; ELabel "rhs"%string (ERule (rule_of lo'))])) = true).
  { cbn [wf forallb] in W. apply andb_true_iff in W as [_ W]. cbn [forallb] in W. apply andb_true_iff in W as [W _]. exact W. }
  apply Kch_both.
  - exact W1.
  - pose proof (chain_no O rl a lo lo' kw c0 kw' p t x c r Hkw Ek Hc0 (clause_complete O _ _ _ _ D) Ep E Hr Hn) as X.
    assert (W2 : wf (ESeq [ELabel "lhs"%string (ERule (rule_of lo)); ERule Rspace; ERule rl; ERule Rspace; ELabel "rhs"%string (ERule (rule_of lo'))]) = true).
    { cbn [wf] in W1. apply andb_true_iff in W1 as [_ W1]. exact W1. }
    rewrite (cev_unfold O _ ok_nil (EAction _ _)) by exact W1. rewrite (cev_unfold O _ ok_nil (ESeq _)) by exact W2. unfold cact in X.
    destruct (cseq cv _ [] [] c) as [v f' c'| | | |]; try congruence. destruct (run_action _ _ _ _ _); congruence.
  - apply K_action, K_seq, Kseq_hd, K_label, HK.
  - apply Kch_hd, HK.
Qed.
End Chain.

Lemma after_no_kw l r c0 : after l r -> (c0 = 65 \/ c0 = 79) -> match l with LOr => True | LAnd => c0 = 65 | _ => False end ->
  forall w r', ws w -> r <> w ++ c0 :: r'.
Proof.
  intros A Hc Hl w r' W E. pose proof (after_no l r c0 w r' A Hc W E) as H. destruct l; try contradiction. lia.
Qed.

(** The expressions evaluated for an OR clause of [n] nested parentheses. *)
Lemma parens_cost n : forall c r, crs c = parens n ++ r -> after LOr r -> K (ERule ROrClause) c (4 ^ N.of_nat n).
Proof.
  induction n as [|n IH]; intros c r E Hr; [apply K_one|].
  assert (KC : K (ERule RComparison) c (4 ^ N.of_nat n)).
  { apply K_rule. cbn [rules]. apply K_choice, Kch_hd, K_action, K_seq.
    cbn [parens] in E.
    assert (Ec : crs c = 40 :: parens n ++ 41 :: r) by (rewrite E; cbn; rewrite <- app_assoc; reflexivity).
    set (c1 := cmove c [40] (parens n ++ 41 :: r)).
    apply (Kseq_tl _ _ c c1); [reflexivity| |].
    { intros f. rewrite cev_lit1 by discriminate. rewrite Ec. do 2 eexists. reflexivity. }
    apply (Kseq_tl _ _ c1 c1); [reflexivity| |].
    { intros f. destruct (cev_ws O f c1 [] (parens n ++ 41 :: r)) as [v Ev]; [|do 2 eexists; rewrite Ev; reflexivity].
      destruct n; reflexivity. }
    apply Kseq_hd, K_label. apply (IH c1 (41 :: r)); [reflexivity|apply after_close]. }
  assert (KN : K (ERule RNotClause) c (4 ^ N.of_nat n)).
  { apply K_rule. cbn [rules]. apply K_choice. apply (K_weaken_ch _ _ (1 + 4 ^ N.of_nat n)); [lia|]. apply Kch_both; [reflexivity| |apply K_one|now apply Kch_hd].
    assert (Ec : exists u, crs c = 40 :: u) by (rewrite E; eexists; reflexivity). destruct Ec as (u & Ec).
    pose proof (cev_NOT O [] c) as X. replace (not_scan (crs c)) with (@None (list N * list N)) in X by (rewrite Ec; reflexivity). cbv beta iota in X.
    change (EAction ANotClause2 _) with (EAction ANotClause2 (ESeq SNot)).
    rewrite (cev_unfold O _ ok_nil (EAction _ _)) by reflexivity. rewrite (cev_unfold O _ ok_nil (ESeq _)) by reflexivity. unfold SNot. cbn [cseq]. now rewrite X. }
  destruct (parens_derives (S n) LNot (rev (pre c))) as (x & Dn). destruct (parens_derives (S n) LAnd (rev (pre c))) as (y & Da).
  assert (KA : K (ERule RAndClause) c (4 ^ N.of_nat n + 4 ^ N.of_nat n)).
  { apply (K_double RlogicalAND AAndClause2 LNot LAnd "AND" 65 (tx "ND") ltac:(intros; apply cev_AND) eq_refl (or_introl eq_refl) RAndClause eq_refl (rev (pre c)) _ _ c r _ Dn eq_refl E); auto.
    - now apply after_weaken.
    - apply (after_no_kw LOr); auto. }
  replace (4 ^ N.of_nat (S n)) with ((4 ^ N.of_nat n + 4 ^ N.of_nat n) + (4 ^ N.of_nat n + 4 ^ N.of_nat n)) by (rewrite Nat2N.inj_succ, N.pow_succ_r'; lia).
  apply (K_double RlogicalOR AOrClause2 LAnd LOr "OR" 79 (tx "R") ltac:(intros; apply cev_OR) eq_refl (or_intror eq_refl) ROrClause eq_refl (rev (pre c)) _ _ c r _ Da eq_refl E); auto.
  - now apply after_weaken.
  - apply (after_no_kw LOr); auto.
Qed.

Lemma parens_scalars n : scalars (parens n).
Proof.
  induction n as [|n IH]; [repeat constructor|]. cbn [parens]. unfold scalars in *. rewrite !Forall_app. repeat split; auto; repeat constructor.
Qed.
Lemma parens_length n : length (encode (parens n)) = (2 * n + 8)%nat.
Proof.
  induction n as [|n IH]; [reflexivity|]. cbn [parens]. rewrite !encode_app, !app_length, IH. cbn. lia.
Qed.
Lemma parens_run n : 4 ^ N.of_nat n <= rcnt (run O (encode (parens n))).
Proof.
  assert (R : Rel0 (init_state (encode (parens n))) {| pre := []; crs := parens n |}).
  { pose proof (init_rel (parens n) [] (parens_scalars n) (or_introl eq_refl)) as X.
    cbn [ext] in X. rewrite !app_nil_r in X. apply X. congruence. }
  set (c := {| pre := []; crs := parens n |}) in *.
  assert (X : K (rules RStart) c (4 ^ N.of_nat n)).
  { cbn [rules]. apply K_action, K_seq, Kseq_hd, K_label, K_rule. cbn [rules]. apply K_action, K_seq.
    apply (Kseq_tl _ _ c c); [reflexivity| |].
    { intros f. destruct (cev_ws O f c [] (parens n)) as [v Ev]; [destruct n; reflexivity|]. do 2 eexists. rewrite Ev. reflexivity. }
    apply Kseq_hd, K_label, (parens_cost n c []); [now rewrite app_nil_r|apply after_nil]. }
  destruct (X (fuel_for (encode (parens n))) false [] _ R) as [E|G]; [now apply run_no_fuel in E|]. unfold run. lia.
Qed.
End V.

(** Exponentials outgrow polynomials. *)
Lemma pow2_gt n : N.of_nat n < 2 ^ N.of_nat n.
Proof. apply N.pow_gt_lin_r. lia. Qed.
Lemma exp_beats_poly (c k : N) : exists n, c * (2 * N.of_nat n + 9) ^ k < 4 ^ N.of_nat n.
Proof.
  set (j := c + k + 3).
  assert (H1 : forall i, 3 <= i -> i + 5 <= 2 ^ i).
  { intros i. apply (N.peano_ind (fun i => 3 <= i -> i + 5 <= 2 ^ i)); [lia|]. intros m IH Hm.
    destruct (N.eq_dec m 2) as [->|]; [vm_compute; discriminate|]. rewrite N.pow_succ_r'. lia. }
  assert (Hj : j + 5 <= 2 ^ j) by (apply H1; lia).
  set (n := N.to_nat (4 ^ j)). exists n. unfold n. rewrite N2Nat.id.
  assert (E4 : 4 ^ j = 2 ^ j * 2 ^ j) by (change 4 with (2 * 2); apply N.pow_mul_l).
  assert (A : 2 * 4 ^ j + 9 <= 2 ^ (2 * j + 2)).
  { rewrite N.pow_add_r. replace (2 * j) with (j + j) by lia. rewrite N.pow_add_r, <- E4. change (2 ^ 2) with 4.
    assert (64 <= 4 ^ j) by (change 64 with (4 ^ 3); apply N.pow_le_mono_r; lia). lia. }
  apply N.le_lt_trans with (2 ^ c * (2 ^ (2 * j + 2)) ^ k).
  { apply N.mul_le_mono; [apply N.lt_le_incl, N.pow_gt_lin_r; lia|]. apply N.pow_le_mono_l. exact A. }
  rewrite <- N.pow_mul_r, <- N.pow_add_r. change (4 ^ 4 ^ j) with ((2 ^ 2) ^ (4 ^ j)). rewrite <- N.pow_mul_r.
  apply N.pow_lt_mono_r; [lia|].
  assert (B : (2 * j + 2) * k <= (2 * j + 2) * j) by (apply N.mul_le_mono_l; lia).
  assert (C : (j + 5) * (j + 5) <= 4 ^ j) by (rewrite E4; now apply N.mul_le_mono).
  lia.
Qed.
