(** Where the errors of the simplified evaluator come from, and what they are about. *)
From Verif Require Import Bytes Utf8 Utf8Proofs GoStrconv GoTime GoNet GoFloat Oracles Ast PegSyntax Grammar Actions Engine EngineBasics CleanEval Lexer GrammarSpec ShapeSpec FaultSpec
  TokenProofs TokenProofs2 ValueProofs FieldProofs ListProofs Bridge RegexLitProofs.
From Coq Require Import ZifyBool ZifyN ZifyNat.

Section F.
Context (O : oracles).
Notation cv := (cev O []).

(** ** The rules in which errors arise *)
Definition inner (r : rname) : bool :=
  match r with REndingQuote | REndingSlash | RErrUntermStr | RErrUntermRegex | RRegexValue | RBareValue
             | RBoolValue | RFloatValue | RIntValue | RIPValue | RTimestamp => true | _ => false end.
Definition leaf (r : rname) : bool := match r with RValue | RQuotedValue => true | _ => false end.
Definition abody (a : act) : expr :=
  match a with
  | AField1 => ELabel "pieces"%string EPieces
  | _ => ESeq EMany
  end.
Definition noact (e : expr) : Prop := match e with EAction a _ => may_err a = false | _ => True end.
Fixpoint okx (e : expr) : Prop :=
  let all := fix all (l : list expr) : Prop := match l with [] => True | x :: r => okx x /\ all r end in
  match e with
  | EAction a e1 => (if may_err a then (a = AField1 \/ a = AValueList2) /\ e1 = abody a else True) /\ noact e1 /\ okx e1
  | ESeq l => all l /\ (fix all (l : list expr) : Prop := match l with [] => True | x :: r => noact x /\ all r end) l
  | EChoice l => all l
  | ELabel _ e1 | ENot e1 | EStar e1 | EPlus e1 | EOpt e1 => okx e1
  | ERule r => inner r = false
  | ERecover _ _ _ | EThrow _ | EState _ => False
  | _ => True
  end.
Lemma okx_rules r : inner r = false -> leaf r = false -> okx (rules r).
Proof. destruct r; try discriminate; intros _ _; cbn; repeat split; auto. Qed.

Definition origin (c0 : cursor) (err : perr) : Prop :=
  (exists f c, cadv c0 c /\ cv (ERule RValue) f c = CBad err) \/
  (exists f c, cadv c0 c /\ cv (ERule RQuotedValue) f c = CBad err) \/
  (exists a v f' c c' w k, (a = AField1 \/ a = AValueList2) /\ cadv c0 c /\ cv (abody a) [] c = COk v f' c' /\
    run_action O a f' (pos_at c) (ctext c c') = AErr w k /\ err = {| pe_kind := k; pe_pos := pos_at c |}).
Lemma origin_adv c0 c err : cadv c0 c -> origin c err -> origin c0 err.
Proof.
  intros A [(f & c1 & A1 & H)|[(f & c1 & A1 & H)|(a & v & f' & c1 & c' & w & k & Ha & A1 & H)]].
  - left. exists f, c1. split; auto. eapply cadv_trans; eauto.
  - right. left. exists f, c1. split; auto. eapply cadv_trans; eauto.
  - right. right. exists a, v, f', c1, c', w, k. split; auto. split; auto. eapply cadv_trans; eauto.
Qed.

Section Loops.
Variable ev : expr -> frame -> cursor -> cres.
Hypothesis Hc : forall e f c, wf e = true -> cgood (nullable e) c (ev e f c).
Hypothesis Ho : forall e f c err, wf e = true -> okx e -> f = [] \/ noact e -> ev e f c = CBad err -> origin c err.
Definition okl (l : list expr) : Prop := (fix all (l : list expr) : Prop := match l with [] => True | x :: r => okx x /\ all r end) l.
Definition nol (l : list expr) : Prop := (fix all (l : list expr) : Prop := match l with [] => True | x :: r => noact x /\ all r end) l.
Lemma seq_origin es err : forall acc f c, forallb wf es = true -> okl es -> nol es -> cseq ev es acc f c = CBad err -> origin c err.
Proof.
  induction es as [|e es IH]; intros acc f c W K K' E; cbn [cseq] in E; [discriminate|].
  cbn in W. apply andb_true_iff in W as [W1 W]. destruct K as [K1 K], K' as [K2 K']. pose proof (Hc e f c W1) as G.
  destruct (ev e f c) as [v f' c'| |e0| |] eqn:Ev; try discriminate.
  - eapply origin_adv; [apply G|]. eapply IH; eauto.
  - injection E as ->. eapply Ho; eauto.
Qed.
Lemma choice_origin es err : forall f c, forallb wf es = true -> okl es -> cchoice ev es f c = CBad err -> origin c err.
Proof.
  induction es as [|e es IH]; intros f c W K E; cbn [cchoice] in E; [discriminate|].
  cbn in W. apply andb_true_iff in W as [W1 W]. destruct K as [K1 K].
  destruct (ev e [] c) as [v f' c'| |e0| |] eqn:Ev; try discriminate.
  - eapply IH; eauto.
  - injection E as ->. eapply Ho; eauto.
Qed.
Lemma star_origin e err : wf e = true -> okx e -> forall k acc f c, cstar ev k e acc f c = CBad err -> origin c err.
Proof.
  intros W K. induction k as [|k IH]; intros acc f c E; cbn [cstar] in E; [discriminate|]. pose proof (Hc e [] c W) as G.
  destruct (ev e [] c) as [v f' c'| |e0| |] eqn:Ev; try discriminate.
  - eapply origin_adv; [apply G|]. eapply IH; eauto.
  - injection E as ->. eapply Ho; eauto.
Qed.
End Loops.

Lemma find_origin n : forall e f c err, wf e = true -> okx e -> f = [] \/ noact e -> ceval O n [] e f c = CBad err -> origin c err.
Proof.
  induction n as [|n IH]; intros e f c err W K Fr E; [discriminate|].
  assert (E0 : cv e f c = CBad err) by (rewrite <- (ceval_cev O (S n)); auto; [constructor|congruence]).
  assert (Hc : forall e f c, wf e = true -> cgood (nullable e) c (ceval O n [] e f c)) by (intros; apply ceval_good; auto; constructor).
  cbn [ceval] in E. cbn zeta in E.
  destruct e as [a e|l|l|l e|r|w ic want|v chars ranges ic invd| |e|e|e|e|e rc ls|l|cd]; cbn [wf] in W; apply andb_true_iff in W as [_ W]; cbn [okx] in K.
  - destruct K as (Ka & Kn & K). destruct (ceval O n [] e f c) as [v f' c'| |e0| |] eqn:Ev; try discriminate; [|injection E as ->; eauto].
    destruct (run_action O a f' (pos_at c) (ctext c c')) as [x|x k|] eqn:Er; try discriminate. injection E as <-.
    destruct (run_action_len _ _ _ _ _ _ _ Er) as [M _]. rewrite M in Ka. destruct Ka as [Ka ->]. destruct Fr as [->|Fr]; [|cbn in Fr; congruence].
    right. right. exists a, v, f', c, c', x, k. repeat split; auto; [apply cadv_refl|].
    rewrite <- (ceval_cev O n); auto; [constructor|congruence].
  - destruct K as [K K']. eapply seq_origin; eauto.
  - eapply choice_origin; eauto.
  - destruct (ceval O n [] e [] c) eqn:Ev; try discriminate. injection E as ->. eauto.
  - destruct (leaf r) eqn:Lf.
    + destruct r; try discriminate; [left|right; left]; exists f, c; split; auto using cadv_refl.
    + destruct (ceval O n [] (rules r) [] c) eqn:Ev; try discriminate. injection E as ->. eapply IH; [apply wf_rules| |left; reflexivity|exact Ev]. now apply okx_rules.
  - destruct (clit ic w c); discriminate.
  - destruct (crs c); [discriminate|]. destruct (xorb _ _); discriminate.
  - destruct (crs c); discriminate.
  - destruct (ceval O n [] e [] c) eqn:Ev; try discriminate. injection E as ->. eauto.
  - apply andb_true_iff in W as [W _]. eapply star_origin; eauto.
  - apply andb_true_iff in W as [W _]. destruct (cstar _ _ _ _ _ _) as [v f' c'| |e0| |] eqn:Ev; try discriminate; cbn [plus_res] in E.
    + destruct v as [| |[|]| | | | | | |]; discriminate.
    + injection E as ->. eapply star_origin; eauto.
  - destruct (ceval O n [] e [] c) eqn:Ev; try discriminate. injection E as ->. eauto.
  - contradiction.
  - contradiction.
  - contradiction.
Qed.

(** ** Forms of literals exclude each other *)
Lemma follow_nil : follow [].
Proof. exists [], []. repeat split; [constructor|]. left. constructor. Qed.
Ltac whole := rewrite ?app_nil_r; reflexivity.
Lemma digitish_hd t : timestamp_lit t \/ ip_lit t \/ float_lit t \/ int_lit t -> exists x u, t = x :: u /\ (x = 45 \/ digit x).
Proof.
  intros [H|[H|[H|H]]].
  - apply ts_hd in H as (x & u & -> & H). eauto 6.
  - apply ip_hd in H as (x & u & -> & H). eauto 6.
  - now apply float_hd.
  - now apply int_hd.
Qed.
Lemma forms_apart t : timestamp_lit t \/ ip_lit t \/ float_lit t \/ int_lit t -> ~ quoted t /\ ~ regex_lit t /\ t <> tx "true" /\ t <> tx "false".
Proof.
  intros H. apply digitish_hd in H as (x & u & -> & H). repeat split.
  - intros (bd & E & _). injection E as -> _. unfold digit in H. lia.
  - intros (bd & E & _). injection E as -> _. unfold digit in H. lia.
  - intros E. injection E as -> _. unfold digit in H. lia.
  - intros E. injection E as -> _. unfold digit in H. lia.
Qed.
Lemma ts_ip t : timestamp_lit t -> ip_lit t -> False.
Proof. intros A B. exact (ts_not_ip t [] t [] B A eq_refl). Qed.
Lemma ts_float t : timestamp_lit t -> float_lit t -> False.
Proof. intros A B. exact (ts_not_float t [] t [] B A eq_refl). Qed.
Lemma ts_int t : timestamp_lit t -> int_lit t -> False.
Proof. intros A B. exact (ts_not_int t [] t [] B follow_nil A eq_refl). Qed.
Lemma ip_float t : ip_lit t -> float_lit t -> False.
Proof. intros A B. exact (ip_not_float t [] t [] B follow_nil A eq_refl). Qed.
Lemma ip_int t : ip_lit t -> int_lit t -> False.
Proof. intros A B. exact (ip_not_int t [] t [] B follow_nil A eq_refl). Qed.
Lemma float_int t : float_lit t -> int_lit t -> False.
Proof. intros A B. exact (float_not_int t [] t [] B follow_nil A eq_refl). Qed.

Lemma worthless_string t : quoted t -> unquote (encode t) = None -> worthless O t.
Proof.
  intros Q U p v L. inversion L; subst; try (now (edestruct forms_apart as (A & _); [|exact (A Q)]; eauto)).
  - congruence.
  - destruct Q as (x & E1 & _), H as (y & E2 & _). rewrite E1 in E2. discriminate.
  - destruct Q as (x & E1 & _). discriminate.
  - destruct Q as (x & E1 & _). discriminate.
Qed.
Lemma worthless_regex t p0 : regex_lit t -> new_regexp_val O (unescape_slash (encode t)) p0 = None -> worthless O t.
Proof.
  intros Q U p v L. inversion L; subst; try (now (edestruct forms_apart as (_ & A & _); [|exact (A Q)]; eauto)).
  - destruct Q as (x & E1 & _), H as (y & E2 & _). rewrite E1 in E2. discriminate.
  - unfold new_regexp_val in *. destruct (o_re_parse _ _); discriminate.
  - destruct Q as (x & E1 & _). discriminate.
  - destruct Q as (x & E1 & _). discriminate.
Qed.
Ltac apart Q := exfalso; first
  [ now (edestruct forms_apart as (A & _); [|eapply A; eassumption]; eauto)
  | now (edestruct forms_apart as (_ & A & _); [|eapply A; eassumption]; eauto)
  | now (edestruct forms_apart as (_ & _ & A & _); [|apply A; reflexivity]; eauto)
  | now (edestruct forms_apart as (_ & _ & _ & A); [|apply A; reflexivity]; eauto)
  | eauto using ts_ip, ts_float, ts_int, ip_float, ip_int, float_int ].
Lemma worthless_time t p0 : timestamp_lit t -> new_time_val (encode t) p0 = None -> worthless O t.
Proof.
  intros Q U p v L. inversion L; subst; try (apart Q).
  unfold new_time_val in *. destruct (Nat.eqb _ 10); [destruct (parse_date _)|destruct (parse_rfc3339 _)]; discriminate.
Qed.
Lemma worthless_net t p0 : ip_lit t -> new_net_val O (encode t) p0 = None -> worthless O t.
Proof.
  intros Q U p v L. inversion L; subst; try (apart Q).
  unfold new_net_val in *. destruct (parse_prefix _ _); discriminate.
Qed.
Lemma worthless_float t p0 : float_lit t -> new_float_val O (encode t) p0 = None -> worthless O t.
Proof.
  intros Q U p v L. inversion L; subst; try (apart Q).
  unfold new_float_val in *. destruct (parse_float _ _) as [[]|]; discriminate.
Qed.
Lemma worthless_int t p0 : int_lit t -> new_int_val (encode t) p0 = None -> worthless O t.
Proof.
  intros Q U p v L. inversion L; subst; try (apart Q).
  unfold new_int_val in *. destruct (parse_int _); discriminate.
Qed.

(** ** Where a string or a regular expression breaks off *)
Lemma qstar_app body r : quoted_body body -> qstar (body ++ r) = match qstar r with Some (t, z) => Some (body ++ t, z) | None => None end.
Proof.
  assert (St : forall x t, qitem (x ++ t ++ r) = Some (x, t ++ r) -> x <> [] ->
    qstar (t ++ r) = match qstar r with Some (t', z) => Some (t ++ t', z) | None => None end ->
    qstar ((x ++ t) ++ r) = match qstar r with Some (t', z) => Some ((x ++ t) ++ t', z) | None => None end).
  { intros x t Q Nx IH. rewrite <- app_assoc. unfold qstar at 1. cbn [sstar]. rewrite Q.
    rewrite (sstar_enough qitem qitem_split _ (S (length (t ++ r)))) by (rewrite ?app_length; destruct x; [congruence|]; cbn; lia).
    fold (qstar (t ++ r)). rewrite IH. destruct (qstar r) as [[t' z]|]; [|reflexivity]. now rewrite app_assoc. }
  induction 1 as [|c t H1 H2 H3 Ht IH|c t Hc Ht IH|h1 h2 h3 h4 t H1 H2 H3 H4 Ht IH].
  - cbn [app]. destruct (qstar r) as [[t z]|]; reflexivity.
  - apply (St [c] t); [|discriminate|exact IH]. cbn [qitem app]. replace (_ && _ && _) with true by lia. reflexivity.
  - apply (St [92; c] t); [|discriminate|exact IH].
    cbn [app]. unfold qitem. change ((32 <=? 92) && negb (92 =? 34) && negb (92 =? 92)) with false. change (92 =? 92) with true. cbv iota.
    replace (existsb _ esc_chars) with true; [reflexivity|]. symmetry. apply existsb_exists. exists c. split; [exact Hc|apply N.eqb_refl].
  - apply (St [92; 117; h1; h2; h3; h4] t); [|discriminate|exact IH].
    apply is_hex_spec in H1, H2, H3, H4. cbn. now rewrite H1, H2, H3, H4.
Qed.
Lemma rstar_app body r : regex_body body -> rstar (body ++ r) = match rstar r with Some (t, z) => Some (body ++ t, z) | None => None end.
Proof.
  assert (St : forall x t, ritem (x ++ t ++ r) = Some (x, t ++ r) -> x <> [] ->
    rstar (t ++ r) = match rstar r with Some (t', z) => Some (t ++ t', z) | None => None end ->
    rstar ((x ++ t) ++ r) = match rstar r with Some (t', z) => Some ((x ++ t) ++ t', z) | None => None end).
  { intros x t Q Nx IH. rewrite <- app_assoc. unfold rstar at 1. cbn [sstar]. rewrite Q.
    rewrite (sstar_enough ritem ritem_split _ (S (length (t ++ r)))) by (rewrite ?app_length; destruct x; [congruence|]; cbn; lia).
    fold (rstar (t ++ r)). rewrite IH. destruct (rstar r) as [[t' z]|]; [|reflexivity]. now rewrite app_assoc. }
  induction 1 as [|c t H1 H2 H3 Ht IH|c t Hc Ht IH].
  - cbn [app]. destruct (rstar r) as [[t z]|]; reflexivity.
  - apply (St [c] t); [|discriminate|exact IH]. cbn [ritem app]. replace (_ && _ && _) with true by lia. reflexivity.
  - apply (St [92; c] t); [|discriminate|exact IH]. cbn. rewrite (proj2 (N.eqb_neq c 10)) by auto. reflexivity.
Qed.
Lemma qstar_max rs body r : qstar rs = Some (body, r) -> forall more z, r = more ++ z -> quoted_body (body ++ more) -> more = [].
Proof.
  intros Q more z E B. pose proof (qstar_sound _ _ _ Q) as [-> _]. rewrite E, app_assoc, (qstar_app _ z B) in Q.
  destruct (qstar_total z) as (t & y & Qz). rewrite Qz in Q. injection Q as Q _. rewrite <- app_assoc in Q.
  rewrite <- (app_nil_r body) in Q at 2. apply app_inv_head in Q. now apply app_eq_nil in Q.
Qed.
Lemma rstar_max rs body r : rstar rs = Some (body, r) -> forall more z, r = more ++ z -> regex_body (body ++ more) -> more = [].
Proof.
  intros Q more z E B. pose proof (rstar_sound _ _ _ Q) as [-> _]. rewrite E, app_assoc, (rstar_app _ z B) in Q.
  destruct (rstar_total z) as (t & y & Qz). rewrite Qz in Q. injection Q as Q _. rewrite <- app_assoc in Q.
  rewrite <- (app_nil_r body) in Q at 2. apply app_inv_head in Q. now apply app_eq_nil in Q.
Qed.
Lemma qstar_open rs body r : qstar rs = Some (body, r) -> hd 0 r <> 34 -> forall t z, 34 :: rs = t ++ z -> ~ quoted t.
Proof.
  intros Q Hr t z E (bd & -> & B). cbn [app] in E. apply (f_equal (@tl N)) in E. cbn [tl] in E.
  rewrite <- app_assoc in E. cbn [app] in E. rewrite E, qstar_complete in Q by exact B. injection Q as _ <-. now apply Hr.
Qed.
Lemma rstar_open rs body r : rstar rs = Some (body, r) -> hd 0 r <> 47 -> forall t z, 47 :: rs = t ++ z -> ~ regex_lit t.
Proof.
  intros Q Hr t z E (bd & -> & B). cbn [app] in E. apply (f_equal (@tl N)) in E. cbn [tl] in E.
  rewrite <- app_assoc in E. cbn [app] in E. rewrite E, rstar_complete in Q by exact B. injection Q as _ <-. now apply Hr.
Qed.

(** ** The error at a cursor *)
Definition cfault (c : cursor) (err : perr) : Prop :=
  exists own rest, crs c = own ++ rest /\ own <> [] /\ last own 0 <> 10 /\ fault O (rev (pre c)) own rest (pe_kind err) (err_pos err).

Lemma err_pos_len c t k n : hd_nl (crs c) = false -> err_len k = Z.of_nat n -> length t = n ->
  err_pos {| pe_kind := k; pe_pos := pos_at c |} = pos_of (rev (pre c)) t.
Proof.
  intros H E El. rewrite <- (pos_at_of c t H). unfold err_pos, getpos. cbn [pe_pos pe_kind]. rewrite rune_count_encode', E, El. reflexivity.
Qed.
Lemma off_len c : off (pos_at c) = Z.of_nat (length (encode (rev (pre c)))).
Proof. unfold pos_at. destruct (hd_nl _); cbn [off]; apply width_len'. Qed.
Lemma fault_pos k p p' before own rest : p = p' -> fault O before own rest k p' -> fault O before own rest k p.
Proof. now intros ->. Qed.

Lemma last_app (l : list N) x d : last (l ++ [x]) d = x.
Proof. apply last_last. Qed.
Lemma body_no_nl t : quoted_body t -> Forall (fun c => c <> 10) t.
Proof.
  induction 1; repeat (constructor; [|]); auto; try lia.
  - intros ->. destruct H as [H|[H|[H|[H|[H|[H|[H|[]]]]]]]]; discriminate.
  - unfold hex in *. lia.
  - unfold hex in *. lia.
  - unfold hex in *. lia.
  - unfold hex in *. lia.
Qed.
Lemma rbody_no_nl t : regex_body t -> Forall (fun c => c <> 10) t.
Proof. induction 1; repeat (constructor; [|]); auto; lia. Qed.
Lemma last_in (t : list N) : t <> [] -> In (last t 0) t.
Proof.
  induction t as [|x t IH]; intros H; [congruence|]. destruct t; [now left|]. right. apply IH. discriminate.
Qed.
Lemma last_no_nl (t : list N) : Forall (fun c => c <> 10) t -> t <> [] -> last t 0 <> 10.
Proof. intros F N. apply last_in in N. rewrite Forall_forall in F. auto. Qed.

Lemma quoted_fault f c err : cv (ERule RQuotedValue) f c = CBad err -> cfault c err.
Proof.
  intros E. pose proof (cev_quoted O f c) as H. destruct (crs c) as [|x r] eqn:Ec; [congruence|].
  destruct (N.eqb_spec x 34) as [->|]; [|congruence]. destruct H as (body & r1 & Q & H).
  pose proof (qstar_sound _ _ _ Q) as [Er Hb].
  assert (Op : hd 0 r1 <> 34 -> err = {| pe_kind := KUntermStr; pe_pos := pos_at (cmove c ([34] ++ body) r1) |} -> cfault c err).
  { intros Hh ->. exists ([34] ++ body), r1. split; [rewrite Ec, Er; reflexivity|]. split; [discriminate|]. split.
    { apply last_no_nl; [|discriminate]. constructor; [lia|]. now apply body_no_nl. }
    eapply ft_untermstr; try reflexivity; auto.
    - intros t z Et. eapply (qstar_open _ _ _ Q Hh t z). rewrite Er. exact Et.
    - eapply qstar_max; eauto.
    - cbn [err_pos p_off pe_pos]. rewrite off_len, pre_cmove. reflexivity. }
  destruct r1 as [|y r2]; [apply Op; [discriminate|congruence]|].
  destruct (N.eqb_spec y 34) as [->|Hy]; [|apply Op; [exact Hy|congruence]]. clear Op. cbn zeta in H.
  destruct (unquote _) as [s|] eqn:U; [congruence|]. rewrite H in E. injection E as <-.
  assert (Qt : quoted ([34] ++ body ++ [34])) by (exists body; auto).
  exists ([34] ++ body ++ [34]), r2. split; [rewrite Ec, Er; cbn; now rewrite <- app_assoc|]. split; [discriminate|]. split.
  { rewrite app_assoc, last_app. lia. }
  cbn [pe_kind]. eapply fault_pos; [|apply ft_string; [exact Qt|now apply worthless_string]].
  eapply (err_pos_len _ _ _ (rune_count (encode ([34] ++ body ++ [34])))); [now rewrite Ec|cbn [err_len]; reflexivity|now rewrite rune_count_encode'].
Qed.
Lemma unslash n : forall t, (length t <= n)%nat -> exists u, unslashed t u /\ unescape_slash (encode t) = encode u.
Proof.
  induction n as [|n IH]; intros t L; [destruct t; [exists []; split; [constructor|reflexivity]|cbn in L; lia]|].
  destruct t as [|c t]; [exists []; split; [constructor|reflexivity]|]. cbn in L.
  rewrite encode_cons. destruct (N.eq_dec c 92) as [->|Nc].
  - rewrite encode_rune_ascii by lia. cbn [app]. destruct t as [|d t].
    + exists [92]. split; [|reflexivity]. apply us_char; [intros _ z; discriminate|constructor].
    + cbn in L. rewrite encode_cons. destruct (N.eq_dec d 47) as [->|Nd].
      * destruct (IH t) as (u & U & E); [lia|]. exists (47 :: u). split; [exact (us_slash _ _ U)|].
        rewrite encode_rune_ascii by lia. rewrite encode_cons, encode_rune_ascii by lia. rewrite <- E. reflexivity.
      * destruct (IH (d :: t)) as (u & U & E); [cbn; lia|]. exists (92 :: u). split.
        { apply us_char; [|exact U]. intros _ z [= H _]. congruence. }
        pose proof (encode_rune_no d 47 Nd ltac:(lia)) as F. destruct (encode_rune_split d) as (x & y & Ed). rewrite encode_cons in E. rewrite Ed in *. inversion F; subst.
        cbn [app] in *. rewrite unescape_bs by assumption. rewrite E, encode_cons, encode_rune_ascii by lia. reflexivity.
  - destruct (IH t) as (u & U & E); [lia|]. exists (c :: u). split; [apply us_char; [congruence|exact U]|].
    rewrite unescape_app by (apply encode_rune_no; lia). now rewrite E, encode_cons.
Qed.
Lemma has_slash t : has_byte 47 (encode t) = true <-> In 47 t.
Proof.
  unfold has_byte. rewrite existsb_exists. split.
  - intros (x & I1 & E). apply N.eqb_eq in E. subst x. induction t as [|c t IH]; [destruct I1|]. rewrite encode_cons, in_app_iff in I1. destruct I1 as [I1|I1]; [|right; auto].
    left. destruct (N.eq_dec c 47) as [|Nc]; auto. pose proof (encode_rune_no c 47 Nc ltac:(lia)) as F. rewrite Forall_forall in F. now destruct (F _ I1).
  - intros I1. exists 47. split; [|reflexivity]. induction t as [|c t IH]; [destruct I1|]. rewrite encode_cons, in_app_iff. destruct I1 as [-> |I1]; [left; now left|right; auto].
Qed.
Lemma net_shown t : exists u, (In 47 t /\ u = t \/ ~ In 47 t /\ u = t ++ tx "/32") /\ net_text (encode t) = encode u.
Proof.
  unfold net_text. pose proof (has_slash t) as H. destruct (has_byte 47 (encode t)).
  - exists t. split; [left; split; [now apply H|reflexivity]|reflexivity].
  - exists (t ++ tx "/32"). split; [right; split; [intros I1; apply H in I1; discriminate|reflexivity]|]. now rewrite encode_app.
Qed.
Lemma regex_fault f c err : cv (ERule RRegexValue) f c = CBad err -> cfault c err.
Proof.
  intros E. pose proof (cev_regex O f c) as H. destruct (crs c) as [|x r] eqn:Ec; [congruence|].
  destruct (N.eqb_spec x 47) as [->|]; [|congruence]. destruct H as (body & r1 & Q & H).
  pose proof (rstar_sound _ _ _ Q) as [Er Hb].
  assert (Op : hd 0 r1 <> 47 -> err = {| pe_kind := KUntermRegex; pe_pos := pos_at (cmove c ([47] ++ body) r1) |} -> cfault c err).
  { intros Hh ->. exists ([47] ++ body), r1. split; [rewrite Ec, Er; reflexivity|]. split; [discriminate|]. split.
    { apply last_no_nl; [|discriminate]. constructor; [lia|]. now apply rbody_no_nl. }
    eapply ft_untermregex; try reflexivity; auto.
    - intros t z Et. eapply (rstar_open _ _ _ Q Hh t z). rewrite Er. exact Et.
    - eapply rstar_max; eauto.
    - cbn [err_pos p_off pe_pos]. rewrite off_len, pre_cmove. reflexivity. }
  destruct r1 as [|y r2]; [apply Op; [discriminate|congruence]|].
  destruct (N.eqb_spec y 47) as [->|Hy]; [|apply Op; [exact Hy|congruence]]. clear Op. cbn zeta in H.
  destruct (new_regexp_val _ _ _) as [s|] eqn:U; [congruence|]. rewrite H in E. injection E as <-.
  assert (Qt : regex_lit ([47] ++ body ++ [47])) by (exists body; auto).
  exists ([47] ++ body ++ [47]), r2. split; [rewrite Ec, Er; cbn; now rewrite <- app_assoc|]. split; [discriminate|]. split.
  { rewrite app_assoc, last_app. lia. }
  destruct (unslash _ ([47] ++ body ++ [47]) (Nat.le_refl _)) as (u & Us & Eu).
  assert (Ft : forall n, fault O (rev (pre c)) ([47] ++ body ++ [47]) r2 (KBadRegex n (unescape_slash (encode ([47] ++ body ++ [47])))) (pos_of (rev (pre c)) ([47] ++ body ++ [47]))).
  { intros n. rewrite Eu. apply ft_regex; [exact Qt|eapply worthless_regex; eauto|exact Us]. }
  cbn [pe_kind]. eapply fault_pos; [|apply Ft].
  eapply (err_pos_len _ _ _ (rune_count (encode ([47] ++ body ++ [47])))); [now rewrite Ec|cbn [err_len]; reflexivity|now rewrite rune_count_encode'].
Qed.

Ltac tokrule e := rewrite (cev_tokrule O _ _ e) by (vm_compute; reflexivity).
Lemma digits_last d x : digits1 d -> last (x ++ d) 0 <> 10.
Proof.
  intros [H N]. destruct (exists_last N) as (l & y & ->). rewrite app_assoc, last_app. apply Forall_app in H as [_ H]. inversion H; subst. unfold digit in *. lia.
Qed.
Lemma zone_last z x : zone z -> last (x ++ z) 0 <> 10.
Proof.
  intros [->|[->|(s & h & m & -> & _ & _ & Hm)]]; [cbn; rewrite last_app; lia..|].
  rewrite !app_assoc. apply digits_last. split; [apply Hm|]. intros ->. destruct Hm; discriminate.
Qed.
Lemma ndigits_last n d x : ndigits (S n) d -> last (x ++ d) 0 <> 10.
Proof. intros H. apply digits_last. now apply ndigits1 in H. Qed.
Lemma form_last t : timestamp_lit t \/ ip_lit t \/ float_lit t \/ int_lit t -> last t 0 <> 10.
Proof.
  intros [[(d & s & u & -> & _ & _ & (h & m & s' & f & z & -> & _ & _ & _ & _ & Hz))|(y & m & d & -> & _ & _ & Hd)]|[H|[H|H]]].
  - rewrite !app_assoc. now apply zone_last.
  - rewrite !app_assoc. eapply ndigits_last; eauto.
  - destruct H as (o1 & o2 & o3 & o4 & m & -> & _ & _ & _ & [H4 _] & Hm). destruct Hm as [->|(d & -> & Hd & _)].
    + rewrite app_nil_r, !app_assoc. now apply digits_last.
    + rewrite !app_assoc. now apply digits_last.
  - destruct H as (s & d & e & -> & _ & _ & He). rewrite !app_assoc. now apply digits_last.
  - destruct H as (s & d & -> & _ & Hd). now apply digits_last.
Qed.
Lemma form_facts c t r : crs c = t ++ r -> timestamp_lit t \/ ip_lit t \/ float_lit t \/ int_lit t -> t <> [] /\ last t 0 <> 10 /\ hd_nl (crs c) = false.
Proof.
  intros E H. pose proof (form_last _ H). apply digitish_hd in H as (x & u & -> & H). repeat split; auto; [discriminate|].
  rewrite E. cbn. unfold digit in H. lia.
Qed.
Lemma bare_fault f c err : cv (ERule RBareValue) f c = CBad err -> cfault c err.
Proof.
  intros E. rewrite (cev_unfold O _ ok_nil) in E by (vm_compute; reflexivity). cbn [rules] in E.
  rewrite (cev_unfold O _ ok_nil) in E by (vm_compute; reflexivity).
  assert (Ch : forall es f c, cchoice cv es f c = CBad err -> exists e, In e es /\ cv e [] c = CBad err).
  { clear. induction es as [|e es IH]; intros f c E; cbn [cchoice] in E; [discriminate|].
    destruct (cv e [] c) as [v f' c'| |e0| |] eqn:Ev; try discriminate.
    - destruct (IH _ _ E) as (e1 & H1 & H2). exists e1. split; [now right|exact H2].
    - injection E as ->. exists e. split; [now left|exact Ev]. }
  assert (E1 : cchoice cv [ERule RTimestamp; ERule RIPValue; ERule RFloatValue; ERule RIntValue; ERule RBoolValue] [] c = CBad err).
  { match type of E with cpop _ ?r = _ => destruct r end; cbn in E; try discriminate. exact E. }
  apply Ch in E1 as (e & He & Ev). destruct He as [<-|[<-|[<-|[<-|[<-|[]]]]]]; revert Ev.
  - tokrule ts_expr. destruct (sc 20 ts_expr (crs c)) as [[t r]|] eqn:Es; [|discriminate].
    apply (tok_ts 7) in Es as [Es Ht]. cbn [run_action]. destruct (new_time_val _ _) eqn:V; [discriminate|]. intros [= <-].
    destruct (form_facts _ _ _ Es ltac:(eauto)) as (F1 & F2 & F3). exists t, r. do 3 (split; [assumption|]).
    eapply fault_pos; [|apply ft_time; [exact Ht|eapply worthless_time; eauto]]. eapply err_pos_len; [exact F3|reflexivity|now rewrite rune_count_encode'].
  - tokrule ip_expr. destruct (sc 20 ip_expr (crs c)) as [[t r]|] eqn:Es; [|discriminate].
    apply (tok_ip 14) in Es as [Es Ht]. cbn [run_action]. destruct (new_net_val _ _ _) eqn:V; [discriminate|]. intros [= <-].
    destruct (form_facts _ _ _ Es ltac:(eauto)) as (F1 & F2 & F3). exists t, r. do 3 (split; [assumption|]).
    destruct (net_shown t) as (u & Un & Eu). rewrite Eu.
    eapply fault_pos; [|apply ft_net with (u := u); [exact Ht|eapply worthless_net; eauto|exact Un]]. eapply err_pos_len; [exact F3|reflexivity|now rewrite rune_count_encode'].
  - tokrule float_expr. destruct (sc 20 float_expr (crs c)) as [[t r]|] eqn:Es; [|discriminate].
    apply (tok_float 17) in Es as [Es Ht]. cbn [run_action]. destruct (new_float_val _ _ _) eqn:V; [discriminate|]. intros [= <-].
    destruct (form_facts _ _ _ Es ltac:(eauto)) as (F1 & F2 & F3). exists t, r. do 3 (split; [assumption|]).
    eapply fault_pos; [|apply ft_float; [exact Ht|eapply worthless_float; eauto]]. eapply err_pos_len; [exact F3|reflexivity|now rewrite rune_count_encode'].
  - tokrule int_expr. destruct (sc 20 int_expr (crs c)) as [[t r]|] eqn:Es; [|discriminate].
    apply (tok_int 17) in Es as [Es Ht]. cbn [run_action]. destruct (new_int_val _ _) eqn:V; [discriminate|]. intros [= <-].
    destruct (form_facts _ _ _ Es ltac:(eauto)) as (F1 & F2 & F3). exists t, r. do 3 (split; [assumption|]).
    eapply fault_pos; [|apply ft_int; [exact Ht|eapply worthless_int; eauto]]. eapply (err_pos_len c _ _ 1); [exact F3|reflexivity|].
    destruct t; [congruence|reflexivity].
  - tokrule bool_expr. destruct (sc 20 bool_expr (crs c)) as [[t r]|] eqn:Es; [|discriminate].
    apply (tok_bool 18) in Es as [Es Ht]. cbn [run_action]. destruct Ht as [-> | ->]; discriminate.
Qed.

(** ** Words that are not values *)
Lemma int_prefix t : timestamp_lit t \/ ip_lit t \/ float_lit t \/ int_lit t -> exists x y, t = x ++ y /\ int_lit x.
Proof.
  assert (D : forall d, digits1 d -> int_lit d) by (intros d H; exists [], d; repeat split; [now left|apply H|apply H]).
  intros [H|[H|[H|H]]].
  - apply ts_shape in H as (y & u & -> & H). exists y. eexists. split; [reflexivity|]. apply D. eapply ndigits1; eauto.
  - apply ip_shape in H as (o1 & o2 & u & -> & H & _). exists o1. eexists. split; [reflexivity|auto].
  - destruct H as (s & d & e & -> & Hs & Hd & _). exists (s ++ d). eexists. split; [rewrite <- app_assoc; reflexivity|]. exists s, d. auto.
  - exists t, []. split; [now rewrite app_nil_r|auto].
Qed.
Lemma int_here rs x y : rs = x ++ y -> int_lit x -> sc 20 int_expr rs <> None.
Proof.
  intros -> (s & d & -> & Hs & Hd). destruct (span is_dig y) as [d' y'] eqn:E.
  pose proof (span_spec is_dig y) as S. rewrite E in S. cbn [fst snd] in S. destruct S as (-> & F & N).
  assert (I : int_lit (s ++ d ++ d')).
  { exists s, (d ++ d'). split; [reflexivity|]. split; [exact Hs|]. destruct Hd as [Hd Hn]. split; [|destruct d; [congruence|discriminate]].
    apply Forall_app. split; auto. eapply Forall_impl; [|exact F]. intros a Ha. unfold is_dig in Ha. unfold digit. lia. }
  pose proof (tok_int 17) as [_ C]. specialize (C _ y' I N). replace ((s ++ d) ++ d' ++ y') with ((s ++ d ++ d') ++ y') by (now rewrite <- !app_assoc). setoid_rewrite C. discriminate.
Qed.
Lemma no_form c : cchoice cv [ERule RQuotedValue; ERule RRegexValue; ERule RBareValue] [] c = CNo ->
  forall t u, crs c = t ++ u -> ~ value_form t.
Proof.
  cbn [cchoice]. intros E t u Et V.
  destruct (cv (ERule RQuotedValue) [] c) eqn:Eq; try discriminate.
  destruct (cv (ERule RRegexValue) [] c) eqn:Er; try discriminate.
  destruct (cv (ERule RBareValue) [] c) eqn:Eb; try discriminate. clear E.
  rewrite (cev_unfold O _ ok_nil) in Eb by (vm_compute; reflexivity). cbn [rules] in Eb.
  rewrite (cev_unfold O _ ok_nil) in Eb by (vm_compute; reflexivity). cbn [cchoice] in Eb.
  destruct (cv (ERule RTimestamp) [] c); try discriminate. destruct (cv (ERule RIPValue) [] c); try discriminate.
  destruct (cv (ERule RFloatValue) [] c); try discriminate. destruct (cv (ERule RIntValue) [] c) eqn:Ei; try discriminate.
  destruct (cv (ERule RBoolValue) [] c) eqn:Ebl; try discriminate. clear Eb.
  assert (Num : timestamp_lit t \/ ip_lit t \/ float_lit t \/ int_lit t -> False).
  { intros H. apply int_prefix in H as (x & y & -> & H). rewrite <- app_assoc in Et. apply (int_here _ _ _ Et H).
    revert Ei. tokrule int_expr. destruct (sc 20 int_expr (crs c)) as [[t r]|]; [|reflexivity]. destruct (run_action _ _ _ _ _); discriminate. }
  assert (Bool : t = tx "false" \/ t = tx "true" -> False).
  { intros H. revert Ebl. tokrule bool_expr. pose proof (tok_bool 18) as [_ C]. rewrite Et. rewrite (C t u H Logic.I). destruct H as [-> | ->]; discriminate. }
  destruct V as [V|[V|[V|[V|[V|[V|[V|V]]]]]]]; try (apply Num; tauto); try (apply Bool; tauto).
  - destruct V as (bd & -> & _). pose proof (cev_quoted O [] c) as H. rewrite Et in H. cbn [app] in H. change (34 =? 34) with true in H. cbv iota in H.
    destruct H as (b1 & r1 & _ & H). destruct r1 as [|y r2]; [congruence|]. destruct (y =? 34); [|congruence]. cbn zeta in H.
    destruct (unquote _); congruence.
  - destruct V as (bd & -> & _). pose proof (cev_regex O [] c) as H. rewrite Et in H. cbn [app] in H. change (47 =? 47) with true in H. cbv iota in H.
    destruct H as (b1 & r1 & _ & H). destruct r1 as [|y r2]; [congruence|]. destruct (y =? 47); [|congruence]. cbn zeta in H.
    destruct (new_regexp_val _ _ _); congruence.
Qed.

Lemma value_fault f c err : cv (ERule RValue) f c = CBad err -> cfault c err.
Proof.
  rewrite cev_value. destruct (cchoice cv _ [] c) as [v f' c'| |e0| |] eqn:E.
  - destruct v; discriminate.
  - pose proof (no_form c E) as N. destruct (crs c) as [|x rs] eqn:Ec; [discriminate|]. destruct (is_ws x) eqn:W; [discriminate|]. intros [= <-].
    assert (Hn : hd_nl (crs c) = false) by (rewrite Ec; cbn; unfold is_ws in W; lia).
    assert (Wx : forall y, is_ws y = false -> ~ ws_char y) by (intros y Hy; unfold is_ws in Hy; unfold ws_char; lia).
    destruct (N.eqb_spec x 41) as [->|Hx].
    + exists [41], rs. split; [exact Ec|]. split; [discriminate|]. split; [discriminate|].
      eapply fault_pos; [|apply ft_close; reflexivity]. eapply (err_pos_len c _ _ 1); auto.
    + destruct (span (fun x => negb (is_ws x)) (x :: rs)) as [t r] eqn:Es. pose proof (span_spec (fun x => negb (is_ws x)) (x :: rs)) as S. rewrite Es in S. cbn [fst snd] in S. destruct S as (Et & F & R).
      cbn [span] in Es. rewrite W in Es. cbn [negb] in Es. destruct (span (fun x => negb (is_ws x)) rs) as [t' r'] eqn:Es'. injection Es as <- <-.
      rewrite ?W. cbn [span negb fst] in *. 
      exists (x :: t'), r'. split; [now rewrite Ec, Et|]. split; [discriminate|]. split.
      { apply last_no_nl; [|discriminate]. eapply Forall_impl; [|exact F]. intros y Hy. unfold is_ws in Hy. lia. }
      eapply fault_pos; [|eapply ft_unknown; [reflexivity|exact Hx| | |]].
      * eapply (err_pos_len c [x] _ 1); auto.
      * eapply Forall_impl; [|exact F]. intros y Hy. apply Wx. now apply negb_true_iff.
      * destruct r' as [|y r']; auto. unfold noh in R. cbn in R. unfold ws_char. destruct (is_ws y) eqn:Wy; [|discriminate]. unfold is_ws in Wy. lia.
      * intros t u Et'. apply (N t u). now rewrite Et, Et'.
  - intros [= <-]. cbn [cchoice] in E.
    destruct (cv (ERule RQuotedValue) [] c) eqn:Eq; try discriminate; [|injection E as ->; eapply quoted_fault; eauto].
    destruct (cv (ERule RRegexValue) [] c) eqn:Er; try discriminate; [|injection E as ->; eapply regex_fault; eauto].
    destruct (cv (ERule RBareValue) [] c) eqn:Eb; try discriminate. injection E as ->; eapply bare_fault; eauto.
  - discriminate.
  - discriminate.
Qed.

Lemma field_no_fault f v f' c c' w k : cv (abody AField1) f c = COk v f' c' -> run_action O AField1 f' (pos_at c) (ctext c c') = AErr w k -> False.
Proof.
  unfold abody. rewrite (cev_unfold O _ ok_nil) by (vm_compute; reflexivity). unfold EPieces.
  rewrite (cev_unfold O _ ok_nil) by (vm_compute; reflexivity). cbn [cseq].
  destruct (cv (ERule RFieldPiece) [] c) as [v1 f1 c1| | | |]; try discriminate.
  destruct (cv (EStar EDotPiece) f1 c1) as [v2 f2 c2| | | |]; try discriminate. cbn [rev app]. intros [= <- <- <-].
  unfold run_action. replace (get "pieces" (set_label "pieces" (VList [v1; v2]) f)) with (VList [v1; v2]) by (cbn; reflexivity).
  cbn [to_any]. destruct (as_str v1); [|discriminate]. destruct (to_any v2); [|discriminate]. destruct (field_rest l); discriminate.
Qed.
Lemma list_fault v f' c c' w k : cv (abody AValueList2) [] c = COk v f' c' -> run_action O AValueList2 f' (pos_at c) (ctext c c') = AErr w k ->
  cfault c {| pe_kind := k; pe_pos := pos_at c |}.
Proof.
  unfold abody. rewrite (cev_unfold O _ ok_nil) by (vm_compute; reflexivity). intros E. pose proof (many_sound O c) as M. rewrite E in M.
  destruct M as (w1 & t & x & u & vs & w2 & r & l & a & -> & F & N & Ec & -> & W1 & W2 & L & D).
  unfold run_action. cbn [app get String.eqb Ascii.eqb Bool.eqb as_val to_any]. destruct l as [|y l].
  - intros [= <- <-]. assert (vs = []) by (now apply N). subst vs. inversion D; subst. cbn [app] in *.
    exists (tx "(" ++ w1 ++ t ++ w2 ++ tx ")"), r. split; [exact Ec|]. split; [discriminate|]. split.
    { rewrite !app_assoc. change (tx ")") with [41]. rewrite last_app. lia. }
    eapply fault_pos; [|eapply ft_single; eauto]. eapply (err_pos_len c _ _ 1); [now rewrite Ec|reflexivity..].
  - cbn [as_val]. rewrite F. discriminate.
Qed.

Theorem start_fault c0 err f : cv (rules RStart) f c0 = CBad err -> exists c, cadv c0 c /\ cfault c err.
Proof.
  intros E. unfold cev in E. apply find_origin in E; [|vm_compute; reflexivity|apply (okx_rules RStart); reflexivity|right; reflexivity].
  destruct E as [(f1 & c & A & H)|[(f1 & c & A & H)|(a & v & f' & c & c' & w & k & Ha & A & H & R & ->)]].
  - exists c. split; auto. eapply value_fault; eauto.
  - exists c. split; auto. eapply quoted_fault; eauto.
  - exists c. split; auto. destruct Ha as [-> | ->]; [destruct (field_no_fault _ _ _ _ _ _ _ H R)|eapply list_fault; eauto].
Qed.
End F.
