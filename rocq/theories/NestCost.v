(** Upper bounds on the number of expressions evaluated for accepted queries, by the nesting of groups. *)
From Verif Require Import Bytes Utf8 Utf8Proofs GoStrconv Oracles Ast PegSyntax Grammar Actions Engine EngineBasics CleanEval Bridge
  Lexer GrammarSpec TokenProofs TokenProofs2 ValueProofs FieldProofs ListProofs ClauseProofs CostProofs CostUpper NestSpec.
From Coq Require Import ZifyBool ZifyN ZifyNat.

Section V.
Context (O : oracles).
Notation cv := (cev O []).
Notation Rel0 := (Rel []).
Context (n : N) (Hn : 1 <= n).

(** Evaluating [e] at the cursor, with at most [n - 1] bytes left, costs at most [k]. *)
Definition U (e : expr) (c : cursor) (k : N) : Prop :=
  forall m inv f s, Rel0 s c -> len s <= n -> within s (eval O m inv [] e f s) k.
Definition Useq (es : list expr) (c : cursor) (k : N) : Prop :=
  forall m inv start acc f s, Rel0 s c -> len s <= n -> within s (seq_loop (eval O m inv []) start es acc f s) k.
Definition Uch (es : list expr) (c : cursor) (k : N) : Prop :=
  forall m inv f s, Rel0 s c -> len s <= n -> within s (choice_loop (eval O m inv []) es f s) k.

Lemma U_weaken e c k k' : k <= k' -> U e c k -> U e c k'.
Proof. intros L H m inv f s R Ls. eapply within_mono; [exact L|]. now apply H. Qed.
Lemma Useq_weaken es c k k' : k <= k' -> Useq es c k -> Useq es c k'.
Proof. intros L H m inv st acc f s R Ls. eapply within_mono; [exact L|]. now apply H. Qed.
Lemma Uch_weaken es c k k' : k <= k' -> Uch es c k -> Uch es c k'.
Proof. intros L H m inv f s R Ls. eapply within_mono; [exact L|]. now apply H. Qed.

Lemma fuel0 inv e f s k : within s (eval O 0 inv [] e f s) k.
Proof. unfold within. cbn. lia. Qed.
Lemma U_rule r c k : U (rules r) c k -> U (ERule r) c (k + 1).
Proof.
  intros H m inv f s R Ls. destruct m as [|m]; [apply fuel0|]. cbn [eval]. apply within_tick. cbn zeta.
  pose proof (H m inv [] (tick s) (rel_tick _ _ R) Ls) as G. destruct (eval O m inv [] (rules r) [] (tick s)); exact G.
Qed.
Lemma U_label l e c k : U e c k -> U (ELabel l e) c (k + 1).
Proof.
  intros H m inv f s R Ls. destruct m as [|m]; [apply fuel0|]. cbn [eval]. apply within_tick. cbn zeta.
  pose proof (H m inv [] (tick s) (rel_tick _ _ R) Ls) as G. destruct (eval O m inv [] e [] (tick s)); exact G.
Qed.
Lemma U_action a e c k : U e c k -> U (EAction a e) c (k + 1).
Proof.
  intros H m inv f s R Ls. destruct m as [|m]; [apply fuel0|]. cbn [eval]. apply within_tick. cbn zeta.
  pose proof (H m inv f (tick s) (rel_tick _ _ R) Ls) as G. destruct (eval O m inv [] e f (tick s)); try exact G. destruct (run_action _ _ _ _ _); exact G.
Qed.
Lemma U_seq es c k : Useq es c k -> U (ESeq es) c (k + 1).
Proof.
  intros H m inv f s R Ls. destruct m as [|m]; [apply fuel0|]. cbn [eval]. apply within_tick. cbn zeta.
  apply H; [exact (rel_tick _ _ R)|exact Ls].
Qed.
Lemma U_choice es c k : Uch es c k -> U (EChoice es) c (k + 1).
Proof.
  intros H m inv f s R Ls. destruct m as [|m]; [apply fuel0|]. cbn [eval]. apply within_tick. cbn zeta.
  apply H; [exact (rel_tick _ _ R)|exact Ls].
Qed.
Lemma Useq_nil c : Useq [] c 0.
Proof. intros m inv st acc f s _ _. unfold within. cbn. lia. Qed.
Lemma Useq_ok e es c c' k1 k2 : wf e = true -> (forall f, exists v f', cv e f c = COk v f' c') -> U e c k1 -> Useq es c' k2 -> Useq (e :: es) c (k1 + k2).
Proof.
  intros W E H1 H2 m inv start acc f s R Ls. cbn [seq_loop]. destruct (E f) as (v & f' & Ev).
  pose proof (H1 m inv f s R Ls) as G1. pose proof (bridge0 O m inv e f s c W R) as B. rewrite Ev in B.
  pose proof (good_here O m inv [] e f s W ltac:(constructor)) as G.
  destruct B as [B|(s' & Es & R')]; [rewrite B; unfold within; cbn; lia|]. rewrite Es in *. destruct G as (Ga & _). pose proof (len_adv _ _ Ga).
  pose proof (H2 m inv start (v :: acc) f' s' R' ltac:(lia)) as G2. unfold within in *. cbn [rcnt] in *. lia.
Qed.
Lemma Useq_no e es c k : wf e = true -> (forall f, cv e f c = CNo) -> U e c k -> Useq (e :: es) c k.
Proof.
  intros W E H1 m inv start acc f s R Ls. cbn [seq_loop].
  pose proof (H1 m inv f s R Ls) as G1. pose proof (bridge0 O m inv e f s c W R) as B. rewrite (E f) in B.
  destruct B as [B|(s' & Es & R')]; [rewrite B; unfold within; cbn; lia|]. rewrite Es in *. unfold within in *. cbn [rcnt] in *. rewrite cnt_restore. exact G1.
Qed.
Lemma Uch_ok e es c v f' c' k : wf e = true -> cv e [] c = COk v f' c' -> U e c k -> Uch (e :: es) c k.
Proof.
  intros W E H1 m inv f s R Ls. cbn [choice_loop].
  pose proof (H1 m inv [] s R Ls) as G1. pose proof (bridge0 O m inv e [] s c W R) as B. rewrite E in B.
  destruct B as [B|(s' & Es & R')]; [rewrite B; unfold within; cbn; lia|]. rewrite Es in *. exact G1.
Qed.
Lemma Uch_no e es c k1 k2 : wf e = true -> cv e [] c = CNo -> U e c k1 -> Uch es c k2 -> Uch (e :: es) c (k1 + k2).
Proof.
  intros W E H1 H2 m inv f s R Ls. cbn [choice_loop].
  pose proof (H1 m inv [] s R Ls) as G1. pose proof (bridge0 O m inv e [] s c W R) as B. rewrite E in B.
  pose proof (good_here O m inv [] e [] s W ltac:(constructor)) as G.
  destruct B as [B|(s' & Es & R')]; [rewrite B; unfold within; cbn; lia|]. rewrite Es in *. destruct G as (Ga & _).
  assert (Ls' : len s' <= n) by (unfold len in *; now rewrite Ga).
  pose proof (H2 m inv f s' R' Ls') as G2. unfold within in *. cbn [rcnt pop] in *. lia.
Qed.
Lemma Uch_last e c k : wf e = true -> U e c k -> Uch [e] c k.
Proof.
  intros W H1 m inv f s R Ls. cbn [choice_loop].
  pose proof (H1 m inv [] s R Ls) as G1. destruct (eval O m inv [] e [] s); exact G1.
Qed.
(** Bounds that do not depend on the text. *)
Lemma U_bd e c k : (forall N0 p, bd O N0 e n p k) -> U e c k.
Proof. intros H m inv f s R Ls. apply (H m (parens_in (rest (pt s)))); auto. Qed.
Lemma U_space c : U (ERule Rspace) c (3 * n).
Proof. apply U_bd. intros. apply space_token. Qed.
Lemma U_ws c : U (ERule R_ws) c (3 * n).
Proof. apply U_bd. intros. apply ws_token. Qed.
Lemma U_lit w ic want c : forallb (fun c => negb (c =? rune_error)) w = true -> U (ELit w ic want) c 1.
Proof. intros W. apply U_bd. intros. now apply lit_token. Qed.
Lemma U_not c : U (ERule RlogicalNOT) c (13 * n).
Proof.
  apply U_bd. intros N0 p. replace (13 * n) with (val_of (13, 1) n) by (unfold val_of; cbn [fst snd]; now rewrite N.pow_1_r). apply bd_token. vm_compute. reflexivity.
Qed.

(** Choices among expressions that do not reach the clauses. *)
Lemma Uch_poly es c k : forallb wf es = true -> forallb (fun e => match poly 60 0 e with Some _ => true | None => false end) es = true ->
  sum_of (bound_by 60 0) es n <= k -> Uch es c k.
Proof.
  intros W P L m inv f s R Ls. eapply within_mono; [exact L|]. eapply within_mono; [apply (sum_mono (eval O m inv []) (bound_by 60 0)) with (n := len s); [intros; now apply bound_mono|intros; apply good_here; [assumption|constructor]|apply len_ge|exact Ls]|].
  apply (choice_within (eval O m inv [])).
  - intros. now apply bound_mono.
  - intros. apply good_here; [assumption|constructor].
  - rewrite forallb_forall in W, P. apply Forall_forall. intros e He. split; [now apply W|]. intros f1 s1. specialize (P e He). unfold bound_by. destruct (poly 60 0 e) as [x|] eqn:E; [|discriminate].
    eapply poly_sound; eauto. apply no_recs.
Qed.

(** A comparison that is no group. *)
Lemma U_single c : (match crs c with x :: _ => x <> 40 | [] => True end) -> U (ERule RComparison) c (base n).
Proof.
  intros H. eapply U_weaken; [|apply U_rule; cbn [rules]; apply U_choice; eapply Uch_no; [vm_compute; reflexivity| | |]].
  2:{ pose proof (paren_no O c H) as X. change (EAction AComparison2 _) with (EAction AComparison2 (ESeq SParen)).
      rewrite (cev_unfold O _ ok_nil (EAction _ _)) by reflexivity. rewrite (cev_unfold O _ ok_nil (ESeq _)) by reflexivity. unfold cact in X.
      destruct (cseq cv SParen [] [] c) as [v f' c'| | | |]; try congruence. destruct (run_action _ _ _ _ _); congruence. }
  2:{ apply U_action, U_seq. eapply Useq_no; [reflexivity| |apply U_lit; reflexivity]. intros f. rewrite cev_lit1 by discriminate.
      destruct (crs c) as [|y r]; [reflexivity|]. destruct (N.eqb_spec y 40); [congruence|reflexivity]. }
  2:{ apply Uch_poly; [vm_compute; reflexivity|vm_compute; reflexivity|apply N.le_refl]. }
  unfold sum_of. cbn [fold_right]. unfold bound_by.
  repeat match goal with |- context [poly 60 0 ?e] => let x := eval vm_compute in (poly 60 0 e) in change (poly 60 0 e) with x end.
  cbv iota. unfold val_of, base. cbn [fst snd]. destruct (sq n Hn). rewrite ?N.pow_1_r. lia.
Qed.

(** ** One level of AND or OR *)
Definition chain5 (lo : level) (rl : rname) (lo' : level) : list expr :=
  [ELabel "lhs"%string (ERule (rule_of lo)); ERule Rspace; ERule rl; ERule Rspace; ELabel "rhs"%string (ERule (rule_of lo'))].
Section Chain.
Context (rl : rname) (a : act) (lo lo' : level) (kw : string) (c0 : N) (kw' : text) (mk : node -> node -> node).
Context (Hkw : forall f d, cv (ERule rl) f d = match slit false (tx kw) (crs d) with Some (t, r) => COk (VBytes (encode t)) f (cmove d t r) | None => CNo end).
Context (Ukw : forall d, U (ERule rl) d 2).
Context (Ha : forall x y p t, run_action O a (set_label "rhs" (VNode y) (set_label "lhs" (VNode x) [])) p t = AOk (VNode (mk x y))).
Context (Ek : tx kw = c0 :: kw') (Hc0 : c0 = 65 \/ c0 = 79).
Context (r0 : rname).
Notation S5 := (chain5 lo rl lo').
Context (Er : rules r0 = EChoice [EAction a (ESeq S5); ERule (rule_of lo)]).

Lemma chain_wf : wf (EAction a (ESeq S5)) = true /\ wf (ESeq S5) = true /\ Forall (fun e => wf e = true) S5.
Proof.
  pose proof (wf_rules r0) as W. rewrite Er in W. cbn [wf] in W. apply andb_true_iff in W as [_ W]. cbn [forallb] in W. apply andb_true_iff in W as [W _].
  split; [exact W|]. cbn [wf] in W. apply andb_true_iff in W as [_ W]. split; [exact W|]. cbn [wf] in W. apply andb_true_iff in W as [_ W]. now apply Forall_forall, forallb_forall.
Qed.
Lemma act_cev c r : cact O a S5 c = r -> match r with CNo => cv (EAction a (ESeq S5)) [] c = CNo | COk v _ c' => exists f', cv (EAction a (ESeq S5)) [] c = COk v f' c' | _ => True end.
Proof.
  intros X. destruct chain_wf as (W1 & W2 & _).
  rewrite (cev_unfold O _ ok_nil (EAction _ _)) by exact W1. rewrite (cev_unfold O _ ok_nil (ESeq _)) by exact W2. unfold cact in X.
  destruct (cseq cv S5 [] [] c) as [v f' c'| | | |]; subst r; cbn; auto. destruct (run_action _ _ _ _ _); cbn; eauto.
Qed.

Lemma chain_one p t x c r k : derives O lo p t x -> p = rev (pre c) -> crs c = t ++ r -> after lo r -> (forall w r', ws w -> r <> w ++ c0 :: r') ->
  U (ERule (rule_of lo)) c k -> U (ERule r0) c (2 * k + 3 * n + 20).
Proof.
  intros D Ep E Hr Hno HK. destruct chain_wf as (W1 & W2 & W3). unfold chain5 in W3. pose proof (Forall_inv W3) as We1. apply Forall_inv_tail in W3. pose proof (Forall_inv W3) as We2. apply Forall_inv_tail in W3. pose proof (Forall_inv W3) as We3. cbn beta in We1, We2, We3.
  pose proof (chain_no O rl a lo lo' kw c0 kw' p t x c r Hkw Ek Hc0 (clause_complete O _ _ _ _ D) Ep E Hr Hno) as X.
  apply act_cev in X. cbn match in X.
  apply (U_weaken _ _ ((((((k + 1) + (3 * n + 2)) + 1) + 1) + k) + 1 + 1)); [lia|]. apply U_rule. rewrite Er. apply U_choice.
  apply Uch_no; [exact W1|exact X| |apply Uch_last; [destruct lo; vm_compute; reflexivity|exact HK]].
  apply U_action, U_seq. apply (Useq_ok _ _ c (cmove c t r)); [exact We1| |apply U_label, HK|].
  { intros f. rewrite cev_label. rewrite (clause_complete O _ _ _ _ D [] c r); eauto. }
  destruct (span is_ws r) as [w1 r1] eqn:E1. pose proof (fun f => cev_space O f (cmove c t r) w1 r1 E1) as S1.
  destruct w1 as [|z w1].
  - eapply Useq_weaken; [|apply Useq_no; [exact We2|exact S1|apply U_space]]. lia.
  - apply span_ws in E1 as (E1 & Ww & _). apply (Useq_ok _ _ _ (cmove (cmove c t r) (z :: w1) r1)); [exact We2| |apply U_space|].
    + intros f. destruct (S1 f) as (v & ->). eauto.
    + apply Useq_no; [exact We3| |apply Ukw]. intros f. rewrite Hkw, crs_cmove, Ek. destruct r1 as [|q r1]; [reflexivity|]. cbn [slit].
      destruct (N.eqb_spec q c0) as [->|]; [|reflexivity]. exfalso. eapply Hno; eauto.
Qed.

Lemma chain_two p t1 w1 w2 t2 x y c r k1 k2 :
  (forall r, nows (tx kw ++ r)) -> (forall w r, ws1 w -> after lo (w ++ tx kw ++ r)) ->
  ws1 w1 -> ws1 w2 -> derives O lo p t1 x -> derives O lo' (p ++ t1 ++ w1 ++ tx kw ++ w2) t2 y ->
  p = rev (pre c) -> crs c = (t1 ++ w1 ++ tx kw ++ w2 ++ t2) ++ r -> after lo' r ->
  U (ERule (rule_of lo)) c k1 -> (forall c', p ++ t1 ++ w1 ++ tx kw ++ w2 = rev (pre c') -> crs c' = t2 ++ r -> U (ERule (rule_of lo')) c' k2) ->
  U (ERule r0) c (k1 + k2 + 6 * n + 20).
Proof.
  intros Hnw Hf W1 W2 D1 D2 Ep E Hr H1 H2. pose proof (clause_complete O _ _ _ _ D1) as C1. pose proof (clause_complete O _ _ _ _ D2) as C2.
  pose proof (chain_complete O rl a lo lo' kw mk p t1 w1 w2 t2 x y Hkw Ha Hnw Hf W1 W2 D2 C1 C2 c r Ep E Hr) as X.
  destruct chain_wf as (Wf1 & Wf2 & W3). unfold chain5 in W3. pose proof (Forall_inv W3) as We1. apply Forall_inv_tail in W3. pose proof (Forall_inv W3) as We2. apply Forall_inv_tail in W3. pose proof (Forall_inv W3) as We3. apply Forall_inv_tail in W3. pose proof (Forall_inv W3) as We4. apply Forall_inv_tail in W3. pose proof (Forall_inv W3) as We5. cbn beta in We1, We2, We3, We4, We5.
  apply act_cev in X. cbn match in X. destruct X as (f0 & X).
  apply (U_weaken _ _ ((((k1 + 1) + (3 * n + (2 + (3 * n + ((k2 + 1) + 0))))) + 1 + 1) + 1 + 1)); [lia|]. apply U_rule. rewrite Er. apply U_choice.
  eapply Uch_ok; [exact Wf1|exact X|]. apply U_action, U_seq.
  rewrite <- !app_assoc in E. destruct W1 as [W1 N1]. destruct W2 as [W2 N2].
  apply (Useq_ok _ _ c (cmove c t1 (w1 ++ tx kw ++ w2 ++ t2 ++ r))); [exact We1| |apply U_label, H1|].
  { intros f. rewrite cev_label, (C1 [] c _ Ep E) by (apply Hf; now split). eauto. }
  set (c1 := cmove c t1 _). set (c2 := cmove c1 w1 (tx kw ++ w2 ++ t2 ++ r)). set (c3 := cmove c2 (tx kw) (w2 ++ t2 ++ r)). set (c4 := cmove c3 w2 (t2 ++ r)).
  apply (Useq_ok _ _ _ c2); [exact We2| |apply U_space|].
  { intros f. pose proof (cev_space O f c1 w1 (tx kw ++ w2 ++ t2 ++ r)) as S1. unfold c1 in S1. rewrite crs_cmove in S1. specialize (S1 (span_ws_app _ _ W1 (Hnw _))).
    destruct w1 as [|z w1]; [congruence|]. destruct S1 as (v & S1). exists v, f. exact S1. }
  apply (Useq_ok _ _ _ c3); [exact We3| |apply Ukw|].
  { intros f. rewrite Hkw. unfold c2. rewrite crs_cmove. rewrite (proj2 (tok_lit (tx kw))) by (auto; exact I). eauto. }
  apply (Useq_ok _ _ _ c4); [exact We4| |apply U_space|].
  { intros f. pose proof (cev_space O f c3 w2 (t2 ++ r)) as S1. unfold c3 in S1. rewrite crs_cmove in S1. specialize (S1 (span_ws_app _ _ W2 (derives_nows O _ _ _ _ _ D2))).
    destruct w2 as [|z w2]; [congruence|]. destruct S1 as (v & S1). exists v, f. exact S1. }
  assert (P4 : p ++ t1 ++ w1 ++ tx kw ++ w2 = rev (pre c4)) by (rewrite Ep; unfold c4, c3, c2, c1; rewrite !pre_cmove, <- !app_assoc; reflexivity).
  apply (Useq_ok _ _ _ (cmove c4 t2 r)); [exact We5| |apply U_label, H2; auto|apply Useq_nil].
  intros f. rewrite cev_label. rewrite (C2 [] c4 r P4 eq_refl Hr). eauto.
Qed.
End Chain.

(** ** Negations *)
Lemma not_yes p nt a x c r k : not_op nt -> derives O LCmp (p ++ nt) a x -> p = rev (pre c) -> crs c = (nt ++ a) ++ r -> after LNot r ->
  (forall c', p ++ nt = rev (pre c') -> crs c' = a ++ r -> U (ERule RComparison) c' k) -> U (ERule RNotClause) c (k + 13 * n + 20).
Proof.
  intros Hnt D Ep E Hr H. pose proof (clause_complete O _ _ _ _ D) as C.
  pose proof (complete_not O p nt a x Hnt D C [] c r Ep E Hr) as X. cbn [rule_of] in X.
  rewrite <- app_assoc in E.
  assert (Es : not_scan (crs c) = Some (nt, a ++ r)).
  { rewrite E. unfold not_scan. destruct Hnt as [w [W Nw]|w W].
    - rewrite <- app_assoc, (proj2 (tok_lit (tx "NOT"))) by (auto; exact I). rewrite span_ws_app by (auto; eapply derives_nows; eauto).
      destruct w; [congruence|reflexivity].
    - rewrite <- app_assoc. change (slit false (tx "NOT") (tx "!" ++ w ++ a ++ r)) with (@None (list BinNums.N * list BinNums.N)). cbn match.
      rewrite (proj2 (tok_lit (tx "!"))) by (auto; exact I). rewrite span_ws_app by (auto; eapply derives_nows; eauto). reflexivity. }
  assert (Pr : p ++ nt = rev (pre (cmove c nt (a ++ r)))) by (rewrite pre_cmove; now subst p).
  assert (Y : exists f', cv (EAction ANotClause2 (ESeq SNot)) [] c = COk (VNode (NNot x)) f' (cmove c (nt ++ a) r)).
  { rewrite (cev_unfold O _ ok_nil (EAction _ _)) by reflexivity. rewrite (cev_unfold O _ ok_nil (ESeq _)) by reflexivity. unfold SNot. cbn [cseq].
    pose proof (cev_NOT O [] c) as N0. rewrite Es in N0. destruct N0 as [_ [v ->]]. rewrite cev_label.
    change (cv (ERule RComparison)) with (cv (ERule (rule_of LCmp))). rewrite (C [] (cmove c nt (a ++ r)) r Pr eq_refl Hr). rewrite cmove_cmove. cbn. eauto. }
  destruct Y as (f0 & Y).
  apply (U_weaken _ _ (((13 * n + ((k + 1) + 0)) + 1 + 1) + 1 + 1)); [lia|]. apply U_rule. cbn [rules]. apply U_choice. eapply Uch_ok; [vm_compute; reflexivity|exact Y|].
  apply U_action, U_seq. apply (Useq_ok _ _ c (cmove c nt (a ++ r))); [vm_compute; reflexivity| |apply U_not|].
  { intros f. pose proof (cev_NOT O f c) as N0. rewrite Es in N0. destruct N0 as [_ [v ->]]. eauto. }
  apply (Useq_ok _ _ _ (cmove (cmove c nt (a ++ r)) a r)); [vm_compute; reflexivity| |apply U_label, H; auto|apply Useq_nil].
  intros f. rewrite cev_label. change (cv (ERule RComparison)) with (cv (ERule (rule_of LCmp))). rewrite (C [] (cmove c nt (a ++ r)) r Pr eq_refl Hr). eauto.
Qed.

(** What looks like a negation before a comparison that starts here is a field called NOT. *)
Lemma not_colon p a x c r nt r1 : derives O LCmp p a x -> crs c = a ++ r -> not_scan (crs c) = Some (nt, r1) -> exists r2, r1 = 58 :: r2.
Proof.
  intros D E En. pose proof (cmp_hd O _ _ _ D) as (y & u & Ea & Hy).
  unfold not_scan in En. destruct (slit false (tx "!") (crs c)) as [[t r0]|] eqn:Eb.
  { exfalso. apply tok_lit in Eb as [Eb ->]. rewrite E, Ea in Eb. injection Eb as -> _. unfold piece_char, name_char, digit in Hy. lia. }
  destruct (slit false (tx "NOT") (crs c)) as [[t r0]|] eqn:Et; [|discriminate]. apply tok_lit in Et as [Et ->].
  destruct (span is_ws r0) as [[|z w] r'] eqn:Ew; [discriminate|]. injection En as <- <-. apply span_ws in Ew as (Ew & W & N1).
  assert (Y : forall fl l w1 u', field fl l -> ws w1 -> a ++ r = fl ++ w1 ++ 58 :: u' -> exists r'', r' = 58 :: r'').
  { intros fl l w1 u' F W1 Ea'. rewrite Ea', Et in E. subst r0. symmetry in E.
    apply name_prefix with (l := l) in E as [_ E]; auto.
    - assert (Z : span is_ws (w1 ++ 58 :: u') = span is_ws ((z :: w) ++ r')) by now rewrite E.
      rewrite !span_ws_app in Z; auto; [|reflexivity]. injection Z as _ <-. eauto.
    - destruct w1 as [|q w1]; [split; [reflexivity|lia]|]. inversion W1 as [|? ? Hq]; subst. apply is_ws_spec in Hq. split; [now apply ws_not_name|]. unfold is_ws in Hq. lia.
    - inversion W; subst. cbn. unfold ws_char in *. unfold is_ws. lia. }
  remember LCmp as lv eqn:El. clear Ea. destruct D; try discriminate El.
  - exfalso. rewrite E in Et. discriminate Et.
  - eapply (Y f l w1); eauto. unfold t. rewrite <- !app_assoc. reflexivity.
  - eapply (Y f l w1); eauto. unfold t. rewrite <- !app_assoc. reflexivity.
Qed.

Lemma not_none p a x c r k : derives O LCmp p a x -> p = rev (pre c) -> crs c = a ++ r -> after LNot r ->
  U (ERule RComparison) c k -> (match not_scan (crs c) with Some _ => base n | None => 0 end) + 13 * n + 20 <= base n + 13 * n + 20 /\
  U (ERule RNotClause) c (k + (match not_scan (crs c) with Some _ => base n | None => 0 end) + 13 * n + 20).
Proof.
  intros D Ep E Hr H. split; [destruct (not_scan _); lia|].
  apply (U_weaken _ _ ((((13 * n + ((match not_scan (crs c) with Some _ => base n | None => 0 end) + 1)) + 1 + 1) + k) + 1 + 1)); [lia|].
  apply U_rule. cbn [rules]. apply U_choice. change (EAction ANotClause2 _) with (EAction ANotClause2 (ESeq SNot)).
  pose proof (fun f => cev_NOT O f c) as N0.
  assert (X : cv (EAction ANotClause2 (ESeq SNot)) [] c = CNo).
  { rewrite (cev_unfold O _ ok_nil (EAction _ _)) by reflexivity. rewrite (cev_unfold O _ ok_nil (ESeq _)) by reflexivity. unfold SNot. cbn [cseq]. specialize (N0 []).
    destruct (not_scan (crs c)) as [[nt r1]|] eqn:En; [|now rewrite N0]. destruct N0 as [_ [v ->]]. rewrite cev_label.
    destruct (not_colon _ _ _ _ _ _ _ D E En) as (r2 & ->). now rewrite (cmp_colon O [] (cmove c nt (58 :: r2)) r2 eq_refl). }
  apply Uch_no; [vm_compute; reflexivity|exact X| |apply Uch_last; [vm_compute; reflexivity|exact H]].
  apply U_action, U_seq. unfold SNot. destruct (not_scan (crs c)) as [[nt r1]|] eqn:En.
  - destruct (not_colon _ _ _ _ _ _ _ D E En) as (r2 & ->).
    apply (Useq_ok _ _ c (cmove c nt (58 :: r2))); [vm_compute; reflexivity| |apply U_not|].
    { intros f. destruct (N0 f) as [_ [v ->]]. eauto. }
    apply Useq_no; [vm_compute; reflexivity| |apply U_label, U_single; cbn; discriminate].
    intros f. rewrite cev_label. now rewrite (cmp_colon O [] (cmove c nt (58 :: r2)) r2 eq_refl).
  - eapply Useq_weaken; [|apply Useq_no; [vm_compute; reflexivity|exact N0|apply U_not]]. lia.
Qed.

(** ** Groups *)
Lemma group_cost p w1 w2 a x c r k : ws w1 -> ws w2 -> derives O LOr (p ++ tx "(" ++ w1) a x -> p = rev (pre c) -> crs c = (tx "(" ++ w1 ++ a ++ w2 ++ tx ")") ++ r ->
  (forall c', p ++ tx "(" ++ w1 = rev (pre c') -> crs c' = a ++ w2 ++ tx ")" ++ r -> U (ERule ROrClause) c' k) -> U (ERule RComparison) c (k + 6 * n + 20).
Proof.
  intros W1 W2 D Ep E H. pose proof (clause_complete O _ _ _ _ D) as C.
  rewrite <- !app_assoc in E. change (tx "(" ++ ?x) with (40 :: x) in E.
  set (c1 := cmove c [40] (w1 ++ a ++ w2 ++ tx ")" ++ r)). set (c2 := cmove c1 w1 (a ++ w2 ++ tx ")" ++ r)). set (c3 := cmove c2 a (w2 ++ tx ")" ++ r)). set (c4 := cmove c3 w2 (tx ")" ++ r)).
  assert (P2 : p ++ tx "(" ++ w1 = rev (pre c2)) by (rewrite Ep; unfold c2, c1; rewrite !pre_cmove, <- app_assoc; reflexivity).
  assert (Hr : after LOr (w2 ++ tx ")" ++ r)) by (exists w2, (tx ")" ++ r); repeat split; auto; left; right; reflexivity).
  assert (E1 : forall f, cv (ELit [40] false """("""%string) f c = COk (VBytes (encode [40])) f c1) by (intros f; rewrite cev_lit1 by discriminate; rewrite E; reflexivity).
  assert (E2 : forall f, exists v, cv (ERule R_ws) f c1 = COk v f c2).
  { intros f. apply cev_ws. unfold c1. rewrite crs_cmove. apply span_ws_app; auto. eapply derives_nows; eauto. }
  assert (E3 : forall l f, cv (ELabel l (ERule ROrClause)) f c2 = COk (VNode x) (set_label l (VNode x) f) c3).
  { intros l f. rewrite cev_label. change (cv (ERule ROrClause)) with (cv (ERule (rule_of LOr))). rewrite (C [] c2 _ P2 eq_refl Hr). reflexivity. }
  assert (E4 : forall f, exists v, cv (ERule R_ws) f c3 = COk v f c4).
  { intros f. apply cev_ws. unfold c3. rewrite crs_cmove. apply span_ws_app; auto. reflexivity. }
  assert (E5 : forall f, exists v, cv (ELit [41] false """)"""%string) f c4 = COk v f (cmove c4 [41] r)) by (intros f; rewrite cev_lit1 by discriminate; eexists; reflexivity).
  assert (Y : exists f' c', cv (EAction AComparison2 (ESeq SParen)) [] c = COk (VNode x) f' c').
  { rewrite (cev_unfold O _ ok_nil (EAction _ _)) by reflexivity. rewrite (cev_unfold O _ ok_nil (ESeq _)) by reflexivity. unfold SParen. cbn [cseq].
    rewrite E1. destruct (E2 []) as (v2 & ->). rewrite E3. match goal with |- context [cv (ERule R_ws) ?f c3] => destruct (E4 f) as (v4 & ->) end.
    match goal with |- context [cv (ELit [41] _ _) ?f c4] => destruct (E5 f) as (v5 & ->) end. cbn. eauto. }
  destruct Y as (f0 & c0 & Y).
  apply (U_weaken _ _ ((((1 + (3 * n + ((k + 1) + (3 * n + (1 + 0))))) + 1 + 1) + 1 + 1))); [lia|]. apply U_rule. cbn [rules]. apply U_choice.
  eapply Uch_ok; [vm_compute; reflexivity|exact Y|]. apply U_action, U_seq.
  apply (Useq_ok _ _ c c1); [vm_compute; reflexivity|intros f; rewrite E1; eauto|apply U_lit; reflexivity|].
  apply (Useq_ok _ _ c1 c2); [vm_compute; reflexivity|intros f; destruct (E2 f) as (v & ->); eauto|apply U_ws|].
  apply (Useq_ok _ _ c2 c3); [vm_compute; reflexivity|intros f; rewrite E3; eauto|apply U_label, H; auto|].
  apply (Useq_ok _ _ c3 c4); [vm_compute; reflexivity|intros f; destruct (E4 f) as (v & ->); eauto|apply U_ws|].
  apply (Useq_ok _ _ c4 (cmove c4 [41] r)); [vm_compute; reflexivity|intros f; destruct (E5 f) as (v & ->); eauto|apply U_lit; reflexivity|apply Useq_nil].
Qed.

(** ** All levels *)
Definition share (d : nat) (t : text) : N := 4 ^ N.of_nat d * N.of_nat (length t) * base n.
Definition not_rest := base n + 13 * n + 20.
Definition and_rest := 2 * not_rest + 3 * n + 20.
Definition or_rest := 2 * and_rest + 3 * n + 20.
Definition level_bound (d : nat) (l : level) (t : text) : N :=
  match l with
  | LCmp => share d t
  | LNot => share d t + not_rest
  | LAnd => 2 * share d t + and_rest
  | LOr => 4 * share d t + or_rest
  end.
Lemma base_ge : 2000 * n <= base n /\ 2000 <= base n.
Proof. unfold base. destruct (sq n Hn). lia. Qed.
Lemma share_ge d t : t <> [] -> base n <= share d t.
Proof.
  intros H. unfold share. assert (1 <= 4 ^ N.of_nat d) by (apply pow_ge1; lia). destruct t as [|x t]; [congruence|]. cbn [length].
  assert (1 * 1 <= 4 ^ N.of_nat d * N.of_nat (S (length t))) by (apply N.mul_le_mono; lia).
  transitivity (1 * base n); [lia|]. apply N.mul_le_mono_r. lia.
Qed.
Lemma share_app d t u : share d (t ++ u) = share d t + share d u.
Proof. unfold share. rewrite app_length, Nat2N.inj_add. lia. Qed.
Lemma nested_derives d l p t : nested O d l p t -> exists x, derives O l p t x.
Proof.
  induction 1 as [? ? ? ? ? ? ? ? ? (x & ?) ? (y & ?)|? ? ? ? (x & ?)|? ? ? ? ? ? ? ? ? (x & ?) ? (y & ?)|? ? ? ? (x & ?)|? ? ? ? ? ? (x & ?)|? ? ? ? (x & ?)|? ? ? ? ? ? ? ? (x & ?)|? ? ? x ? ?].
  - exists (NOr x y). now apply d_or.
  - exists x. now apply d_or1.
  - exists (NAnd x y). now apply d_and.
  - exists x. now apply d_and1.
  - exists (NNot x). now apply d_not.
  - exists x. now apply d_not1.
  - exists x. now apply d_paren.
  - now exists x.
Qed.
Lemma U_kw r w want c : rules r = ELit w false want -> forallb (fun c => negb (c =? rune_error)) w = true -> U (ERule r) c 2.
Proof. intros E W. change 2 with (1 + 1). apply U_rule. rewrite E. now apply U_lit. Qed.

Definition or_two := chain_two RlogicalOR AOrClause2 LAnd LOr "OR"%string 79 NOr (cev_OR O) (fun d => U_kw RlogicalOR _ _ d eq_refl eq_refl)
  (fun x y p t => eq_refl) (or_intror eq_refl) ROrClause eq_refl.
Definition or_one := chain_one RlogicalOR AOrClause2 LAnd LOr "OR"%string 79 [82] NOr (cev_OR O) (fun d => U_kw RlogicalOR _ _ d eq_refl eq_refl)
  (fun x y p t => eq_refl) eq_refl (or_intror eq_refl) ROrClause eq_refl.
Definition and_two := chain_two RlogicalAND AAndClause2 LNot LAnd "AND"%string 65 NAnd (cev_AND O) (fun d => U_kw RlogicalAND _ _ d eq_refl eq_refl)
  (fun x y p t => eq_refl) (or_introl eq_refl) RAndClause eq_refl.
Definition and_one := chain_one RlogicalAND AAndClause2 LNot LAnd "AND"%string 65 [78; 68] NAnd (cev_AND O) (fun d => U_kw RlogicalAND _ _ d eq_refl eq_refl)
  (fun x y p t => eq_refl) eq_refl (or_introl eq_refl) RAndClause eq_refl.

Lemma nested_cost d l p t : nested O d l p t -> forall c r, p = rev (pre c) -> crs c = t ++ r -> after l r -> U (ERule (rule_of l)) c (level_bound d l t).
Proof.
  destruct base_ge as (B1 & B2).
  induction 1 as [d p a w1 w2 t W1 W2 D1 IH1 D2 IH2|d p a D IH|d p a w1 w2 t W1 W2 D1 IH1 D2 IH2|d p a D IH|d p nt a Hnt D IH|d p a D IH|d p w1 w2 a W1 W2 D IH|d p t x D Hh]; intros c r Ep E Hr; cbn [rule_of level_bound].
  - destruct (nested_derives _ _ _ _ D1) as (x & X1). destruct (nested_derives _ _ _ _ D2) as (y & X2).
    eapply U_weaken; [|apply (or_two p a w1 w2 t x y c r (level_bound d LAnd a) (level_bound d LOr t)); auto].
    + cbn [level_bound]. rewrite !share_app. pose proof (share_ge d (tx "OR") ltac:(discriminate)). unfold or_rest, and_rest, not_rest. lia.
    + intros; reflexivity.
    + intros w r' [W N0]. exists w, (tx "OR" ++ r'). repeat split; auto. right. split; auto. reflexivity.
    + eapply IH1; [exact Ep|rewrite <- !app_assoc in E; exact E|]. exists w1, (tx "OR" ++ w2 ++ t ++ r). repeat split; auto; [apply W1|]. right. split; [apply W1|reflexivity].
    + intros c' P' E'. now apply (IH2 c' r).
  - destruct (nested_derives _ _ _ _ D) as (x & X).
    eapply U_weaken; [|apply (or_one p a x c r (level_bound d LAnd a) X Ep E)].
    + cbn [level_bound]. unfold or_rest. lia.
    + now apply after_weaken.
    + intros w r' W E'. now apply (after_no LOr r 79 w r') in Hr; auto.
    + eapply IH; eauto. now apply after_weaken.
  - destruct (nested_derives _ _ _ _ D1) as (x & X1). destruct (nested_derives _ _ _ _ D2) as (y & X2).
    eapply U_weaken; [|apply (and_two p a w1 w2 t x y c r (level_bound d LNot a) (level_bound d LAnd t)); auto].
    + cbn [level_bound]. rewrite !share_app. pose proof (share_ge d (tx "AND") ltac:(discriminate)). unfold and_rest, not_rest. lia.
    + intros; reflexivity.
    + intros w r' [W N0]. exists w, (tx "AND" ++ r'). repeat split; auto. right. split; auto. cbn. auto.
    + eapply IH1; [exact Ep|rewrite <- !app_assoc in E; exact E|]. exists w1, (tx "AND" ++ w2 ++ t ++ r). repeat split; auto; [apply W1|]. right. split; [apply W1|cbn; auto].
    + intros c' P' E'. now apply (IH2 c' r).
  - destruct (nested_derives _ _ _ _ D) as (x & X).
    eapply U_weaken; [|apply (and_one p a x c r (level_bound d LNot a) X Ep E)].
    + cbn [level_bound]. unfold and_rest. lia.
    + now apply after_weaken2.
    + intros w r' W E'. apply (after_no LAnd r 65 w r') in Hr; auto. discriminate.
    + eapply IH; eauto. now apply after_weaken2.
  - destruct (nested_derives _ _ _ _ D) as (x & X). eapply U_weaken; [|eapply (not_yes p nt a x c r (level_bound d LCmp a)); eauto].
    cbn [level_bound]. rewrite share_app. unfold not_rest. lia.
  - destruct (nested_derives _ _ _ _ D) as (x & X). destruct (not_none p a x c r (level_bound d LCmp a) X Ep E Hr) as (L & H); [eapply IH; eauto|].
    eapply U_weaken; [|exact H]. cbn [level_bound]. unfold not_rest. lia.
  - destruct (nested_derives _ _ _ _ D) as (x & X). eapply U_weaken; [|eapply (group_cost p w1 w2 a x c r (level_bound d LOr a)); eauto].
    + cbn [level_bound]. assert (Es : forall u, share (S d) u = 4 * share d u) by (intros u; unfold share; rewrite Nat2N.inj_succ, N.pow_succ_r'; lia).
      rewrite Es, !share_app. pose proof (share_ge d (tx "(") ltac:(discriminate)). pose proof (share_ge d (tx ")") ltac:(discriminate)). unfold or_rest, and_rest, not_rest. lia.
    + intros c' P' E'. eapply IH; eauto. exists w2, (tx ")" ++ r). repeat split; auto. left. right. reflexivity.
  - eapply U_weaken; [apply (share_ge d t)|apply U_single].
    + intros ->. apply derives_hd in D as (y & u & Q & _). discriminate Q.
    + rewrite E. destruct t as [|y t]; [apply derives_hd in D as (y & u & Q & _); discriminate Q|]. cbn in Hh |- *. congruence.
Qed.

Lemma start_cost d t w1 a w2 : t = w1 ++ a ++ w2 -> ws w1 -> ws w2 -> nested O d LOr w1 a ->
  U (rules RStart) {| pre := []; crs := t |} (level_bound d LOr a + 12 * n + 20).
Proof.
  intros Et W1 W2 D.
  destruct (nested_derives _ _ _ _ D) as (x & Dx). pose proof (clause_complete O _ _ _ _ Dx) as C.
  set (c := {| pre := []; crs := t |}). set (c1 := cmove c w1 (a ++ w2)). set (c2 := cmove c1 a w2). set (c3 := cmove c2 w2 []).
  assert (P1 : w1 = rev (pre c1)) by (unfold c1; rewrite pre_cmove; reflexivity).
  assert (Hr : after LOr w2) by (exists w2, []; repeat split; auto; [now rewrite app_nil_r|left; exact I]).
  assert (E1 : forall f, exists v, cv (ERule R_ws) f c = COk v f c1).
  { intros f. apply cev_ws. cbn [crs c]. rewrite Et. apply span_ws_app; auto. eapply derives_nows; eauto. }
  assert (E2 : forall l f, cv (ELabel l (ERule ROrClause)) f c1 = COk (VNode x) (set_label l (VNode x) f) c2).
  { intros l f. rewrite cev_label. change (cv (ERule ROrClause)) with (cv (ERule (rule_of LOr))). rewrite (C [] c1 _ P1 eq_refl Hr). reflexivity. }
  assert (E3 : forall f, exists v, cv (ERule R_ws) f c2 = COk v f c3).
  { intros f. apply cev_ws. unfold c2. rewrite crs_cmove. rewrite <- (app_nil_r w2) at 1. apply span_ws_app; auto. exact I. }
  assert (EQ : forall f, exists v f', cv (ELabel "query" (ERule RQuery)) f c = COk v f' c3).
  { intros f. rewrite cev_label. rewrite (cev_unfold O _ ok_nil (ERule RQuery)) by reflexivity. cbn [rules]. rewrite (cev_unfold O _ ok_nil (EAction _ _)) by reflexivity. rewrite (cev_unfold O _ ok_nil (ESeq _)) by reflexivity. cbn [cseq].
    destruct (E1 []) as (v1 & ->). rewrite E2. match goal with |- context [cv (ERule R_ws) ?f c2] => destruct (E3 f) as (v4 & ->) end. cbn. eauto. }
  apply (U_weaken _ _ ((((((3 * n + ((level_bound d LOr a + 1) + (3 * n + 0))) + 1 + 1) + 1) + 1) + (3 + 0)) + 1 + 1)); [lia|]. cbn [rules]. apply U_action, U_seq.
    apply (Useq_ok _ _ c c3); [vm_compute; reflexivity|exact EQ| |].
    - apply U_label, U_rule. cbn [rules]. apply U_action, U_seq.
      apply (Useq_ok _ _ c c1); [vm_compute; reflexivity|intros f; destruct (E1 f) as (v & ->); eauto|apply U_ws|].
      apply (Useq_ok _ _ c1 c2); [vm_compute; reflexivity|intros f; rewrite E2; eauto|apply U_label; apply (nested_cost d LOr w1 a D c1 w2 P1 eq_refl Hr)|].
      apply (Useq_ok _ _ c2 c3); [vm_compute; reflexivity|intros f; destruct (E3 f) as (v & ->); eauto|apply U_ws|apply Useq_nil].
    - apply (Useq_ok _ _ c3 c3); [vm_compute; reflexivity| | |apply Useq_nil].
      + intros f. rewrite cev_eof. cbn. eauto.
      + apply U_bd. intros N0 p. apply (bd_token O N0 REOF (3, 0)). vm_compute. reflexivity.
Qed.
End V.

Section Query.
Context (O : oracles).
Lemma text_len (t : text) : (length t <= length (encode t))%nat.
Proof.
  induction t as [|x t IH]; [cbn; lia|]. rewrite encode_cons, app_length. pose proof (encode_rune_len x). cbn [length]. lia.
Qed.

Lemma nested_run d t : scalars t -> nested_query O d t -> let n := 1 + N.of_nat (length (encode t)) in
  rcnt (run O (encode t)) <= 8400 * n ^ 3 * 4 ^ N.of_nat d.
Proof.
  intros Hs (w1 & a & w2 & Et & W1 & W2 & D) n. assert (Hn : 1 <= n) by (unfold n; lia).
  assert (R : Rel [] (init_state (encode t)) {| pre := []; crs := t |}).
  { pose proof (init_rel t [] Hs (or_introl eq_refl)) as X. cbn [ext] in X. rewrite !app_nil_r in X. apply X. congruence. }
  pose proof (start_cost O n Hn d t w1 a w2 Et W1 W2 D) as X.
  specialize (X (fuel_for (encode t)) false [] _ R).
  assert (Pt : rest (pt (init_state (encode t))) = encode t) by (rewrite pt_init; reflexivity).
  assert (Ln : len (init_state (encode t)) <= n) by (unfold len; rewrite Pt; unfold n; lia). specialize (X Ln). unfold within in X. fold (run O (encode t)) in X.
  replace (cnt (init_state (encode t))) with 0 in X by (unfold init_state, read_at; destruct (_ =? 10); cbn; destruct (_ && _); reflexivity).
  eapply N.le_trans; [exact X|]. cbn [level_bound]. unfold or_rest, and_rest, not_rest, share.
  assert (La : N.of_nat (length a) + 1 <= n). { unfold n. rewrite Et. rewrite !encode_app, !app_length. pose proof (text_len a). lia. }
  assert (P4 : 1 <= 4 ^ N.of_nat d) by (apply pow_ge1; lia).
  revert P4 La. generalize (4 ^ N.of_nat d) (N.of_nat (length a)). intros y m P4 La. unfold base. 
  replace (n ^ 3) with (n * n ^ 2) by (rewrite <- N.pow_succ_r'; reflexivity). destruct (sq n Hn) as (S1 & S2).
  assert (M1 : (m + 1) * (y * n ^ 2) <= n * (y * n ^ 2)) by (apply N.mul_le_mono_r; lia).
  assert (M2 : 1 * n ^ 2 <= y * n ^ 2) by (apply N.mul_le_mono_r; lia).
  assert (M3 : 1 * (y * n ^ 2) <= n * (y * n ^ 2)) by (apply N.mul_le_mono_r; lia).
  lia.
Qed.
End Query.
