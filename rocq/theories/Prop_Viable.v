(** C101, C102: unfinished queries and the place of a syntax error. *)
From Verif Require Import Bytes Utf8 Utf8Proofs Oracles Ast PegSyntax Grammar Engine EngineBasics EnginePositions GrammarSpec ShapeSpec Visitors ParseQuery ParserTop
  Viable ViableForm ViableStart Listed Wasm TestOracle.
From Verif Require Prop_Grammar Prop_Parser.
From Coq Require Import ZifyBool ZifyN ZifyNat.

(** ** The form is necessary *)
Lemma literal_form O t p v : literal O t p v -> value_form t.
Proof. unfold value_form. destruct 1; tauto. Qed.
Lemma piece_form_of t s : piece t s -> piece_form t.
Proof. unfold piece_form. destruct 1; tauto. Qed.
Lemma pieces_form t l : pieces t l -> field_form t.
Proof. induction 1; [apply ff_one|apply ff_more]; auto; eapply piece_form_of; eauto. Qed.
Lemma field_form_of t l : field t l -> field_form t.
Proof. intros (l0 & H & _). eapply pieces_form; eauto. Qed.
Lemma more_form_of O pre t vs : more_values O pre t vs -> more_form t.
Proof.
  induction 1.
  - rewrite <- (app_nil_r t). apply mf_more; auto; [eapply literal_form; eauto|constructor].
  - apply mf_more; auto. eapply literal_form; eauto.
Qed.
Lemma values_form_of O pre t vs : values O pre t vs -> values_form t.
Proof.
  destruct 1.
  - apply vf_one. eapply literal_form; eauto.
  - apply vf_list; auto; [eapply literal_form; eauto|eapply more_form_of; eauto].
Qed.
Lemma clause_form_of O l pre t n : derives O l pre t n -> clause_form l t.
Proof.
  induction 1 as [pre a w1 w2 c x y W1 W2 _ IHa _ IHc|pre a x _ IHa|pre a w1 w2 c x y W1 W2 _ IHa _ IHc|pre a x _ IHa|pre n a x Hn _ IHa|pre a x _ IHa|pre w1 w2 a x W1 W2 _ IHa|pre f l w1 w2 k o F W1 W2 K t|pre f l w1 w2 k o w3 v vs F W1 W2 K W3 Vs t].
  - now apply cf_or.
  - now apply cf_or1.
  - now apply cf_and.
  - now apply cf_and1.
  - now apply cf_not.
  - now apply cf_not1.
  - now apply cf_paren.
  - apply cf_noarg; auto; [eapply field_form_of; eauto|]. destruct K; auto.
  - apply cf_values; auto; [eapply field_form_of; eauto| |eapply values_form_of; eauto].
    unfold comparator. destruct K; tauto.
Qed.
Theorem C102_form O q t : parse_plain O q = QOk t -> exists text, scalars text /\ q = encode text /\ query_form text.
Proof.
  intros P. apply Prop_Grammar.C03_language in P as (text & Sc & E & Q & _). exists text. split; [exact Sc|]. split; [exact E|].
  destruct Q as (w1 & a & w2 & -> & W1 & W2 & D). exists w1, a, w2. repeat split; auto. eapply clause_form_of; eauto.
Qed.

(** ** The place of a syntax error *)
Definition starts_form (P : list N) : Prop := exists more, scalars more /\ query_form (P ++ more).

Lemma here_init q : errs (init_state q) = [] -> here q [] (init_state q).
Proof.
  intros E. unfold here. rewrite pt_init. split; [exact E|]. cbn [encode map concat length app].
  split; [destruct (_ =? _); reflexivity|]. split; [destruct (_ =? _); reflexivity|]. split; [constructor|].
  intros C. assert (D : decode_rune q = (rune_error, 1%nat)) by (destruct (fst (decode_rune q) =? 10); exact C). clear C.
  unfold init_state in E. rewrite D in E. cbn [fst] in E. replace (rune_error =? 10) with false in E by reflexivity.
  unfold read_at, cur_rune, cur_width in E. cbn [rest] in E. rewrite D in E. discriminate E.
Qed.

(** Texts that can be continued to a query, and texts that are one, in the context-free grammar *)
Definition V0 (P : list N) : Prop := exists z, scalars z /\ L (ERule RQuery) (P ++ z).
Definition C0 (P : list N) : Prop := L (ERule RQuery) P.

Theorem first_error_full O q e es : parse O q = PErr e es -> pe_kind e <> KInvalidEncoding ->
  exists before after, q = encode before ++ after /\ scalars before /\
    off (pe_pos e) = Z.of_nat (length (encode before)) /\ V0 before /\ (forall w, scalars w -> place (pe_kind e) w -> V0 (before ++ w)) /\
    (forall l, pe_kind e = KNoMatch l -> Forall (sugg V0 C0 before) l /\ forallb (fun w => negb (aside w)) l = true /\
      exists s, run O q = RFail s /\ errs s = [] /\ mf_pos s = pe_pos e /\ mf_exp s = l).
Proof.
  intros P Nk.
  assert (Vpre : forall P w, scalars w -> V0 (P ++ w) -> V0 P).
  { intros P0 w Sw (z & Sz & Lz). exists (w ++ z). rewrite app_assoc. split; [apply Forall_app; auto|exact Lz]. }
  assert (Np : pe_kind e <> KPanic) by (pose proof (parse_spec O q) as S0; rewrite P in S0; apply S0).
  unfold parse in P. pose proof (run_no_fuel O q) as Nf. unfold run at 1 in P. unfold run in Nf. assert (Hrun : run O q = eval O (fuel_for q) false [] (rules RStart) [] (init_state q)) by reflexivity.
  destruct (word_of (ERule RQuery)) as (z0 & Sz0 & Lz0); [vm_compute; reflexivity|].
  assert (V1 : V0 []) by (exists z0; auto).
  assert (M0 : mfok q V0 C0 (init_state q)).
  { exists [], q. split; [reflexivity|]. split; [constructor|]. split; [|split; [exact V1|]]; unfold init_state, read_at;
      destruct (_ =? _); destruct (_ && _); first [reflexivity|constructor]. }
  assert (D0 : De (init_state q)).
  { right. left. unfold init_state, read_at. destruct (_ =? _); destruct (_ && _); reflexivity. }
  assert (Bd : forall s x, bad q V0 s -> finish x s = PErr e es -> exists before after, q = encode before ++ after /\ scalars before /\
    off (pe_pos e) = Z.of_nat (length (encode before)) /\ V0 before /\ (forall w, scalars w -> place (pe_kind e) w -> V0 (before ++ w)) /\
    (forall l, pe_kind e = KNoMatch l -> Forall (sugg V0 C0 before) l /\ forallb (fun w => negb (aside w)) l = true /\
      exists s, run O q = RFail s /\ errs s = [] /\ mf_pos s = pe_pos e /\ mf_exp s = l)).
  { intros s x (e0 & l & E & H & Nm) F. unfold finish in F. rewrite E, rev_app_distr in F. cbn in F. injection F as -> _.
    destruct H as [H|(bf & af & H1 & H2 & H3 & H4 & H5)]; [congruence|]. exists bf, af. do 5 (split; [assumption|]). intros l0 El. destruct (Nm l0 El). }
  destruct (errs (init_state q)) as [|e0 l0] eqn:E0.
  - pose proof (viable_start O q V0 Vpre C0 (fuel_for q) [] (init_state q) (here_init q E0) V1 M0
      (fun w Sw Lw => conj (ex_intro _ [] (conj (Forall_nil _) (eq_ind_r (fun u => L _ u) Lw (app_nil_r w)))) Lw)) as B. cbn zeta in B.
    pose proof (listed_start O (fuel_for q) [] (init_state q) D0) as Li.
    destruct (eval O (fuel_for q) false [] (rules RStart) [] (init_state q)) as [v f s|s|s|]; [| | |congruence]; cbn [parse_result] in P;
      destruct B as [B|[B|B]]; try discriminate B; cbn [badr] in B.
    + eauto.
    + unfold finish in P. rewrite B in P. discriminate P.
    + destruct (errs s) eqn:Es; [|eauto]. destruct B as (? & ? & B & _). rewrite Es in B. destruct x0; discriminate B.
    + destruct B as ((bf & af & B1 & B2 & B3 & B4 & B5) & Es). rewrite Es in P. unfold finish, add_err in P. cbn [errs] in P. rewrite Es in P. cbn in P.
      injection P as <- _. exists bf, af. cbn [pe_pos pe_kind]. do 4 (split; [assumption|]). split; [intros w Sw []|]. intros l El. injection El as <-.
      split; [exact B5|]. cbn [lout] in Li. destruct Li as [Li|Li]; [congruence|]. split; [exact Li|]. exists s. auto.
    + eapply Bd; [|exact P]. now apply bad_add.
    + exfalso. unfold finish, add_err in P. cbn [errs] in P. rewrite B in P. cbn in P. injection P as <- _. apply Np. reflexivity.
  - assert (B0 : bad q V0 (init_state q)).
    { unfold init_state, read_at in E0 |- *. destruct (_ && _) eqn:C; [|destruct (_ =? _) in E0; discriminate E0].
      apply bad_new; [reflexivity|discriminate|now left]. }
    pose proof (eval_good O (first_point q) (fuel_for q) false [] (rules RStart) [] (init_state q) (wf_rules RStart) (Forall_nil _) (adv_refl _)) as G.
    apply (good_bad q V0) in G; [|exact B0]. destruct G as [G|G]; [|congruence].
    destruct (eval O (fuel_for q) false [] (rules RStart) [] (init_state q)) as [v f s|s|s|]; [| | |contradiction]; cbn [parse_result] in P; cbn [badr] in G.
    + eauto.
    + destruct (errs s) eqn:Es; [|eauto]. destruct G as (? & ? & B & _). rewrite Es in B. destruct x0; discriminate B.
    + eapply Bd; [|exact P]. now apply bad_add.
Qed.
Theorem first_error O q e es : parse O q = PErr e es -> pe_kind e <> KInvalidEncoding ->
  exists before after, q = encode before ++ after /\ scalars before /\
    off (pe_pos e) = Z.of_nat (length (encode before)) /\ starts_form before.
Proof.
  intros P Nk. destruct (first_error_full O q e es P Nk) as (bf & af & H1 & H2 & H3 & (z & Sz & Lz) & _ & _).
  exists bf, af. repeat split; auto. exists z. split; [exact Sz|]. now apply form_query.
Qed.

Theorem C102_place O q e : parse_plain O q = QErr (QSyntax e) -> pe_kind e <> KInvalidEncoding ->
  exists before after more, q = encode before ++ after /\ scalars before /\ scalars more /\
    p_off (qerr_pos (QSyntax (E := unit) (T := unit) e)) = Z.of_nat (length (encode before)) /\ query_form (before ++ more).
Proof.
  intros P Nk. unfold parse_plain, parse_query in P.
  destruct (parse O q) as [v|e0 es|] eqn:E; [|cbn in P; injection P as ->|discriminate P].
  - destruct v; try discriminate P. destruct (walk_validator O n); discriminate P.
  - destruct (first_error O q e es E Nk) as (bf & af & H1 & H2 & H3 & more & H4 & H5). exists bf, af, more. auto 10.
Qed.
(** The error of this query is reported at its last character; the text before can be continued. *)
Example C102_example : exists e l, parse_plain test_oracle (b "a:1 AND (b:>2 OR )") = QErr (QSyntax e) /\ pe_kind e = KNoMatch l /\
  p_off (qerr_pos (QSyntax (E := unit) (T := unit) e)) = 17%Z /\ query_form (tx "a:1 AND (b:>2 OR " ++ tx "b:null)").
Proof.
  do 2 eexists. split; [vm_compute; reflexivity|]. split; [reflexivity|]. split; [reflexivity|].
  assert (P : exists t, parse_plain test_oracle (encode (tx "a:1 AND (b:>2 OR " ++ tx "b:null)")) = QOk t) by (eexists; vm_compute; reflexivity).
  destruct P as (t & P). apply C102_form in P as (text & Sc & E & F). apply encode_inj in E; [now rewrite E| |exact Sc].
  apply Forall_forall, forallb_forall. vm_compute. reflexivity.
Qed.
(** ** C101 *)
Lemma clause_head l t : clause_form l t -> exists c r, t = c :: r /\ c <> 41 /\ ~ ws_char c.
Proof.
  assert (FH : forall f u, field_form f -> exists c r, f ++ u = c :: r /\ c <> 41 /\ ~ ws_char c).
  { assert (PH : forall p u, piece_form p -> exists c r, p ++ u = c :: r /\ c <> 41 /\ ~ ws_char c).
    { intros p u [(bd & -> & _)|[(Nc & Ne)| ->]].
      - exists 34, (bd ++ [34] ++ u). rewrite <- !app_assoc. split; [reflexivity|]. unfold ws_char. lia.
      - destruct p as [|c p]; [congruence|]. inversion Nc as [|? ? Hc _]; subst. exists c, (p ++ u). split; [reflexivity|].
        unfold name_char, digit, ws_char in *. lia.
      - exists 42, u. split; [reflexivity|]. unfold ws_char. lia. }
    intros f u [p Hp|p v Hp _]; [auto|]. rewrite <- app_assoc. auto. }
  induction 1; auto.
  - destruct IHclause_form1 as (x & r & -> & H3). cbn. eauto.
  - destruct IHclause_form1 as (x & r & -> & H3). cbn. eauto.
  - destruct H; cbn; do 2 eexists; (split; [reflexivity|]); unfold ws_char; lia.
  - exists 40. eexists. split; [reflexivity|]. unfold ws_char. lia.
Qed.

(** A closing parenthesis is called an incomplete query; no query begins with it. *)
Theorem C101_hopeless_refuted : exists q, q <> [] /\ forall O, exists a m, p_wrap O q = WebRes a [m] /\ w_text m = WIncomplete /\
  forall more t, parse_plain O (q ++ more) <> QOk t.
Proof.
  exists (b ")"). split; [discriminate|]. intros O. do 2 eexists. split; [vm_compute; reflexivity|]. split; [reflexivity|].
  intros more t P. apply C102_form in P as (text & Sc & E & w1 & a & w2 & -> & W1 & _ & F).
  apply clause_head in F as (c & r & -> & Nc & _). destruct W1 as [|w w1 Hw _].
  - cbn [app] in E, Sc. rewrite encode_cons in E. inversion Sc as [|? ? Hc _]; subst.
    assert (D : decode_rune (b ")" ++ more) = decode_rune (encode_rune c ++ encode (r ++ w2))) by now rewrite E.
    rewrite decode_encode_rune in D by exact Hc. cbn in D. congruence.
  - cbn [app] in E, Sc. rewrite encode_cons in E. inversion Sc as [|? ? Hc _]; subst.
    assert (D : decode_rune (b ")" ++ more) = decode_rune (encode_rune w ++ encode (w1 ++ (c :: r) ++ w2))) by now rewrite E.
    rewrite decode_encode_rune in D by exact Hc. cbn in D. injection D as D _. subst w. destruct Hw as [H|[H|[H|H]]]; discriminate H.
Qed.
(** The beginning of a list of values, and an unfinished string, are not called incomplete. *)
Theorem C101_beginning_refuted : exists q1 q2, forall O,
  (exists more t, parse_plain O (q1 ++ more) = QOk t) /\ (exists a m, p_wrap O q1 = WebRes a [m] /\ w_kind m = MError /\ w_text m <> WIncomplete) /\
  (exists more t, parse_plain O (q2 ++ more) = QOk t) /\ (exists a m, p_wrap O q2 = WebRes a [m] /\ w_kind m = MError /\ w_text m <> WIncomplete).
Proof.
  exists (b "a:(1"), (b "a:""x"). intros O. repeat split.
  - exists (b ",2)"). eexists. vm_compute. reflexivity.
  - do 2 eexists. split; [vm_compute; reflexivity|]. split; [reflexivity|discriminate].
  - exists (b """"). eexists. vm_compute. reflexivity.
  - do 2 eexists. split; [vm_compute; reflexivity|]. split; [reflexivity|discriminate].
Qed.
