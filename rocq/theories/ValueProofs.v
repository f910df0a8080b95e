(** Values: what the evaluator does on the rules Value, QuotedValue, RegexValue, BareValue. *)
From Verif Require Import Bytes Utf8 Utf8Proofs GoStrconv Oracles Ast PegSyntax Grammar Actions Engine EngineBasics CleanEval Lexer GrammarSpec TokenProofs TokenProofs2.
From Coq Require Import ZifyBool ZifyN ZifyNat.

Lemma ok_nil : recs_ok []. Proof. constructor. Qed.
Definition qrecs := [(["errUntermStr"%string], ERule RErrUntermStr)].
Lemma ok_q : recs_ok qrecs. Proof. constructor; [split; vm_compute; [reflexivity|lia]|constructor]. Qed.
Definition rrecs := [(["errUntermRegex"%string], ERule RErrUntermRegex)].
Lemma ok_r : recs_ok rrecs. Proof. constructor; [split; vm_compute; [reflexivity|lia]|constructor]. Qed.

Section V.
Context (O : oracles).
Notation cv := (cev O []).

Ltac unf H := rewrite (cev_unfold O _ H) by (vm_compute; reflexivity).

Lemma cev_elit recs (H : recs_ok recs) w s f c : wf (ELit w false s) = true -> cev O recs (ELit w false s) f c =
  match slit false w (crs c) with Some (t, r) => COk (VBytes (encode t)) f (cmove c t r) | None => CNo end.
Proof.
  intros Hw. rewrite (cev_unfold O _ H) by exact Hw. pose proof (clit_slit false w c) as E. destruct (slit false w (crs c)) as [[t r]|].
  - destruct E as [E1 ->]. unfold ctext. rewrite (between_adv c t) by exact E1. reflexivity.
  - now rewrite E.
Qed.

Lemma throw_q f c : cev O qrecs (EThrow "errUntermStr") f c = CBad {| pe_kind := KUntermStr; pe_pos := pos_at c |}.
Proof.
  unf ok_q. change (match cev O qrecs (ERule RErrUntermStr) f c with CNo => CNo | r => r end = CBad {| pe_kind := KUntermStr; pe_pos := pos_at c |}).
  unf ok_q. cbn [rules]. unf ok_q. reflexivity.
Qed.
Lemma throw_r f c : cev O rrecs (EThrow "errUntermRegex") f c = CBad {| pe_kind := KUntermRegex; pe_pos := pos_at c |}.
Proof.
  unf ok_r. change (match cev O rrecs (ERule RErrUntermRegex) f c with CNo => CNo | r => r end = CBad {| pe_kind := KUntermRegex; pe_pos := pos_at c |}).
  unf ok_r. cbn [rules]. unf ok_r. reflexivity.
Qed.

Lemma slit1 x rs : slit false [x] rs = match rs with y :: r => if y =? x then Some ([y], r) else None | [] => None end.
Proof. destruct rs as [|y r]; [reflexivity|]. cbn. destruct (y =? x); reflexivity. Qed.

Lemma ending_quote f c : cev O qrecs (ERule REndingQuote) f c =
  match crs c with 34 :: r => COk (VBytes [34]) f (cmove c [34] r) | _ => CBad {| pe_kind := KUntermStr; pe_pos := pos_at c |} end.
Proof.
  unf ok_q. cbn [rules]. unf ok_q. cbn [cchoice]. rewrite (cev_elit _ ok_q) by reflexivity. rewrite slit1, throw_q.
  destruct (crs c) as [|y r]; [reflexivity|]. destruct (N.eqb_spec y 34) as [->|Hn]; [reflexivity|].
  cbn [cpop]. destruct y as [|p]; [reflexivity|].
  repeat (destruct p as [p|p|]; try reflexivity). congruence.
Qed.
Lemma ending_slash f c : cev O rrecs (ERule REndingSlash) f c =
  match crs c with 47 :: r => COk (VBytes [47]) f (cmove c [47] r) | _ => CBad {| pe_kind := KUntermRegex; pe_pos := pos_at c |} end.
Proof.
  unf ok_r. cbn [rules]. unf ok_r. cbn [cchoice]. rewrite (cev_elit _ ok_r) by reflexivity. rewrite slit1, throw_r.
  destruct (crs c) as [|y r]; [reflexivity|]. destruct (N.eqb_spec y 47) as [->|Hn]; [reflexivity|].
  cbn [cpop]. destruct y as [|p]; [reflexivity|].
  repeat (destruct p as [p|p|]; try reflexivity). congruence.
Qed.

Definition is_hd (x : N) (rs : list N) : bool := match rs with y :: _ => y =? x | [] => false end.

Lemma cev_quoted f c :
  match crs c with
  | x :: r =>
    if x =? 34 then
      exists body r1, qstar r = Some (body, r1) /\
      match r1 with
      | y :: r2 =>
        if y =? 34 then
          let t := [34] ++ body ++ [34] in
          cv (ERule RQuotedValue) f c =
            match unquote (encode t) with
            | Some s => COk (VVal (AStr s (getpos (pos_at c) (encode t)))) f (cmove c t r2)
            | None => CBad {| pe_kind := KBadString (Z.of_nat (rune_count (encode t))); pe_pos := pos_at c |}
            end
        else cv (ERule RQuotedValue) f c = CBad {| pe_kind := KUntermStr; pe_pos := pos_at (cmove c ([34] ++ body) r1) |}
      | [] => cv (ERule RQuotedValue) f c = CBad {| pe_kind := KUntermStr; pe_pos := pos_at (cmove c ([34] ++ body) r1) |}
      end
    else cv (ERule RQuotedValue) f c = CNo
  | [] => cv (ERule RQuotedValue) f c = CNo
  end.
Proof.
  assert (E0 : cv (ERule RQuotedValue) f c = cpop f (cev O qrecs (EAction AQuotedValue2 (ESeq [ELit [34] false """\"""""%string; EStar EQItem; ERule REndingQuote])) [] c)).
  { unf ok_nil. cbn [rules]. unf ok_nil. reflexivity. }
  rewrite (cev_unfold O _ ok_q) in E0 by (vm_compute; reflexivity).
  rewrite (cev_unfold O _ ok_q (ESeq _)) in E0 by (vm_compute; reflexivity).
  cbn [cseq] in E0. rewrite (cev_elit _ ok_q) in E0 by reflexivity. rewrite slit1 in E0.
  destruct (crs c) as [|x r] eqn:Ec; [exact E0|]. destruct (N.eqb_spec x 34) as [->|]; [|exact E0].
  destruct (qstar_total r) as (body & r1 & Q). exists body, r1. split; auto.
  pose proof (cev_pure O _ ok_q 9 (EStar EQItem) [] (cmove c [34] r) ltac:(vm_compute; reflexivity) ltac:(vm_compute; reflexivity)) as P.
  change (crs (cmove c [34] r)) with r in P.
  assert (Sq : sc 9 (EStar EQItem) r = qstar r).
  { rewrite sc_star. apply sstar_ext. intros. apply sc_qitem. }
  rewrite Sq, Q in P. destruct P as (P1 & v & P2). rewrite P2 in E0.
  rewrite ending_quote in E0. rewrite cmove_cmove in E0. change (crs (cmove c ([34] ++ body) r1)) with r1 in E0.
  destruct r1 as [|y r2]; [exact E0|]. destruct (N.eqb_spec y 34) as [->|Hn].
  - cbn zeta. rewrite E0. rewrite cmove_cmove.
    unfold ctext. rewrite (between_adv c ([34] ++ body ++ [34])).
    + cbn [cseq rev app]. change (34 :: body ++ [34]) with ([34] ++ body ++ [34]). unfold run_action, new_string_val.
      destruct (unquote _); reflexivity.
    + rewrite Ec, P1. cbn [cmove crs app]. rewrite <- !app_assoc. reflexivity.
  - destruct y as [|p]; [exact E0|]. clear -E0 Hn. revert E0. repeat (destruct p as [p|p|]; try (intros E0; exact E0)). congruence.
Qed.

Lemma cev_regex f c :
  match crs c with
  | x :: r =>
    if x =? 47 then
      exists body r1, rstar r = Some (body, r1) /\
      match r1 with
      | y :: r2 =>
        if y =? 47 then
          let t := [47] ++ body ++ [47] in
          cv (ERule RRegexValue) f c =
            match new_regexp_val O (unescape_slash (encode t)) (getpos (pos_at c) (encode t)) with
            | Some v => COk (VVal v) f (cmove c t r2)
            | None => CBad {| pe_kind := KBadRegex (Z.of_nat (rune_count (encode t))) (unescape_slash (encode t)); pe_pos := pos_at c |}
            end
        else cv (ERule RRegexValue) f c = CBad {| pe_kind := KUntermRegex; pe_pos := pos_at (cmove c ([47] ++ body) r1) |}
      | [] => cv (ERule RRegexValue) f c = CBad {| pe_kind := KUntermRegex; pe_pos := pos_at (cmove c ([47] ++ body) r1) |}
      end
    else cv (ERule RRegexValue) f c = CNo
  | [] => cv (ERule RRegexValue) f c = CNo
  end.
Proof.
  assert (E0 : cv (ERule RRegexValue) f c = cpop f (cev O rrecs (EAction ARegexValue2 (ESeq [ELit [47] false """/"""%string; EStar (ERule RRegexChar); ERule REndingSlash])) [] c)).
  { unf ok_nil. cbn [rules]. unf ok_nil. reflexivity. }
  rewrite (cev_unfold O _ ok_r) in E0 by (vm_compute; reflexivity).
  rewrite (cev_unfold O _ ok_r (ESeq _)) in E0 by (vm_compute; reflexivity).
  cbn [cseq] in E0. rewrite (cev_elit _ ok_r) in E0 by reflexivity. rewrite slit1 in E0.
  destruct (crs c) as [|x r] eqn:Ec; [exact E0|]. destruct (N.eqb_spec x 47) as [->|]; [|exact E0].
  destruct (rstar_total r) as (body & r1 & Q). exists body, r1. split; auto.
  pose proof (cev_pure O _ ok_r 11 (EStar (ERule RRegexChar)) [] (cmove c [47] r) ltac:(vm_compute; reflexivity) ltac:(vm_compute; reflexivity)) as P.
  change (crs (cmove c [47] r)) with r in P.
  assert (Sq : sc 11 (EStar (ERule RRegexChar)) r = rstar r).
  { rewrite sc_star. apply sstar_ext. intros. apply sc_ritem. }
  rewrite Sq, Q in P. destruct P as (P1 & v & P2). rewrite P2 in E0.
  rewrite ending_slash in E0. rewrite cmove_cmove in E0. change (crs (cmove c ([47] ++ body) r1)) with r1 in E0.
  destruct r1 as [|y r2]; [exact E0|]. destruct (N.eqb_spec y 47) as [->|Hn].
  - cbn zeta. rewrite E0. rewrite cmove_cmove.
    unfold ctext. rewrite (between_adv c ([47] ++ body ++ [47])).
    + cbn [cseq rev app]. change (47 :: body ++ [47]) with ([47] ++ body ++ [47]). unfold run_action.
      destruct (new_regexp_val _ _ _); reflexivity.
    + rewrite Ec, P1. cbn [cmove crs app]. rewrite <- !app_assoc. reflexivity.
  - destruct y as [|p]; [exact E0|]. clear -E0 Hn. revert E0. repeat (destruct p as [p|p|]; try (intros E0; exact E0)). congruence.
Qed.

Lemma cev_tokrule r a e f c : rules r = EAction a e -> pure 20 e = true -> wf (EAction a e) = true ->
  cv (ERule r) f c =
  match sc 20 e (crs c) with
  | Some (t, r') =>
    match run_action O a [] (pos_at c) (encode t) with
    | AOk v => COk v f (cmove c t r')
    | AErr _ k => CBad {| pe_kind := k; pe_pos := pos_at c |}
    | APanic => CPan
    end
  | None => CNo
  end.
Proof.
  intros Er Hp Hw. assert (W : wf (ERule r) = true) by (destruct r; reflexivity).
  rewrite (cev_unfold O _ ok_nil) by exact W. rewrite Er, (cev_token O _ ok_nil 20) by auto.
  destruct (sc 20 e (crs c)) as [[t r']|]; [|reflexivity]. destruct (run_action _ _ _ _ _); reflexivity.
Qed.

(** First characters of literals *)
Definition lit_char (x : N) : Prop := x = 34 \/ x = 47 \/ digit x \/ x = 45 \/ x = 116 \/ x = 102.
Lemma digits1_hd t : digits1 t -> exists x u, t = x :: u /\ digit x.
Proof. intros [H Hn]. destruct t as [|x u]; [congruence|]. inversion H; eauto. Qed.
Lemma ndigits_hd n t : ndigits (S n) t -> exists x u, t = x :: u /\ digit x.
Proof. intros [H Hn]. destruct t as [|x u]; [discriminate|]. inversion H; eauto. Qed.
Lemma sign_digits_hd s t : sign s -> digits1 t -> exists x u, s ++ t = x :: u /\ (x = 45 \/ digit x).
Proof.
  intros [-> | ->] H; [|cbn; eauto]. destruct (digits1_hd _ H) as (x & u & -> & Hx). cbn; eauto.
Qed.
Lemma date_hd t : date_lit t -> exists x u, t = x :: u /\ digit x.
Proof. intros (y & m & d & -> & Hy & _). destruct (ndigits_hd _ _ Hy) as (x & u & -> & Hx). cbn; eauto. Qed.
Lemma ts_hd t : timestamp_lit t -> exists x u, t = x :: u /\ digit x.
Proof.
  intros [(d & s & u & -> & Hd & _)|Hd]; [|now apply date_hd].
  destruct (date_hd _ Hd) as (x & v & -> & Hx). cbn; eauto.
Qed.
Lemma ip_hd t : ip_lit t -> exists x u, t = x :: u /\ digit x.
Proof. intros (o1 & o2 & o3 & o4 & m & -> & [H _] & _). destruct (digits1_hd _ H) as (x & u & -> & Hx). cbn; eauto. Qed.
Lemma float_hd t : float_lit t -> exists x u, t = x :: u /\ (x = 45 \/ digit x).
Proof.
  intros (s & d & e & -> & Hs & Hd & _). destruct (sign_digits_hd s d Hs Hd) as (x & u & E & Hx).
  rewrite app_assoc, E. cbn; eauto.
Qed.
Lemma int_hd t : int_lit t -> exists x u, t = x :: u /\ (x = 45 \/ digit x).
Proof. intros (s & d & -> & Hs & Hd). apply sign_digits_hd; auto. Qed.
Lemma literal_hd t p v : literal O t p v -> exists x u, t = x :: u /\ lit_char x.
Proof.
  unfold lit_char. destruct 1 as [t s p Q|t v p (body & -> & _)|t v p H|t v p H|t v p H|t v p H| |].
  - destruct Q as (body & -> & _). cbn. do 2 eexists. split; [reflexivity|tauto].
  - cbn. do 2 eexists. split; [reflexivity|tauto].
  - apply ts_hd in H as (x & u & -> & H). exists x, u. tauto.
  - apply ip_hd in H as (x & u & -> & H). exists x, u. tauto.
  - apply float_hd in H as (x & u & -> & H). exists x, u. tauto.
  - apply int_hd in H as (x & u & -> & H). exists x, u. tauto.
  - cbn. do 2 eexists. split; [reflexivity|tauto].
  - cbn. do 2 eexists. split; [reflexivity|tauto].
Qed.
Lemma lit_char_not_nl x : lit_char x -> x =? 10 = false.
Proof. unfold lit_char, digit. lia. Qed.

(** *** Soundness *)
Definition vgood (c : cursor) (f : frame) (r : cres) : Prop :=
  match r with
  | COk v f' c' => f' = f /\ exists t x r, v = VVal x /\ crs c = t ++ r /\ c' = cmove c t r /\ literal O t (pos_of (rev (pre c)) t) x
  | CNo | CBad _ => True
  | CPan | CFuel => False
  end.

Lemma vgood_intro c f t x r : crs c = t ++ r -> literal O t (getpos (pos_at c) (encode t)) x ->
  vgood c f (COk (VVal x) f (cmove c t r)).
Proof.
  intros E H. split; auto. exists t, x, r. repeat split; auto.
  destruct (literal_hd _ _ _ H) as (y & u & -> & Hy). rewrite <- pos_at_of; auto.
  rewrite E. cbn. now apply lit_char_not_nl.
Qed.

Lemma vsound_quoted f c : vgood c f (cv (ERule RQuotedValue) f c).
Proof.
  pose proof (cev_quoted f c) as H. destruct (crs c) as [|x r] eqn:Ec; [now rewrite H|].
  destruct (N.eqb_spec x 34) as [->|]; [|now rewrite H]. destruct H as (body & r1 & Q & H).
  apply qstar_sound in Q as [Er Hb]. destruct r1 as [|y r2]; [now rewrite H|].
  destruct (N.eqb_spec y 34) as [->|]; [|now rewrite H]. cbn zeta in H. rewrite H.
  destruct (unquote _) as [s|] eqn:U; [|exact I]. apply vgood_intro.
  - rewrite Ec, Er, <- !app_assoc. reflexivity.
  - apply lit_string; auto. exists body. auto.
Qed.
Lemma vsound_regex f c : vgood c f (cv (ERule RRegexValue) f c).
Proof.
  pose proof (cev_regex f c) as H. destruct (crs c) as [|x r] eqn:Ec; [now rewrite H|].
  destruct (N.eqb_spec x 47) as [->|]; [|now rewrite H]. destruct H as (body & r1 & Q & H).
  apply rstar_sound in Q as [Er Hb]. destruct r1 as [|y r2]; [now rewrite H|].
  destruct (N.eqb_spec y 47) as [->|]; [|now rewrite H]. cbn zeta in H. rewrite H.
  destruct (new_regexp_val _ _ _) as [s|] eqn:U; [|exact I]. apply vgood_intro.
  - rewrite Ec, Er, <- !app_assoc. reflexivity.
  - apply lit_regex; auto. exists body. auto.
Qed.

Ltac tokrule e := rewrite (cev_tokrule _ _ e) by (vm_compute; reflexivity).

Lemma vsound_ts f c : vgood c f (cv (ERule RTimestamp) f c).
Proof.
  tokrule ts_expr. destruct (sc 20 ts_expr (crs c)) as [[t r]|] eqn:E; [|exact I].
  apply (tok_ts 7) in E as [E Ht]. cbn [run_action]. destruct (new_time_val _ _) eqn:V; [|exact I].
  apply vgood_intro; auto. now apply lit_time.
Qed.
Lemma vsound_ip f c : vgood c f (cv (ERule RIPValue) f c).
Proof.
  tokrule ip_expr. destruct (sc 20 ip_expr (crs c)) as [[t r]|] eqn:E; [|exact I].
  apply (tok_ip 14) in E as [E Ht]. cbn [run_action]. destruct (new_net_val _ _ _) eqn:V; [|exact I].
  apply vgood_intro; auto. now apply lit_ip.
Qed.
Lemma vsound_float f c : vgood c f (cv (ERule RFloatValue) f c).
Proof.
  tokrule float_expr. destruct (sc 20 float_expr (crs c)) as [[t r]|] eqn:E; [|exact I].
  apply (tok_float 17) in E as [E Ht]. cbn [run_action]. destruct (new_float_val _ _ _) eqn:V; [|exact I].
  apply vgood_intro; auto. now apply lit_float.
Qed.
Lemma vsound_int f c : vgood c f (cv (ERule RIntValue) f c).
Proof.
  tokrule int_expr. destruct (sc 20 int_expr (crs c)) as [[t r]|] eqn:E; [|exact I].
  apply (tok_int 17) in E as [E Ht]. cbn [run_action]. destruct (new_int_val _ _) eqn:V; [|exact I].
  apply vgood_intro; auto. now apply lit_int.
Qed.
Lemma vsound_bool f c : vgood c f (cv (ERule RBoolValue) f c).
Proof.
  tokrule bool_expr. destruct (sc 20 bool_expr (crs c)) as [[t r]|] eqn:E; [|exact I].
  apply (tok_bool 18) in E as [E Ht]. cbn [run_action].
  destruct Ht as [-> | ->].
  - replace (new_bool_val _ _) with (Some (ABool false (getpos (pos_at c) (encode (tx "false"))))) by reflexivity.
    apply vgood_intro; auto. apply lit_false.
  - replace (new_bool_val _ _) with (Some (ABool true (getpos (pos_at c) (encode (tx "true"))))) by reflexivity.
    apply vgood_intro; auto. apply lit_true.
Qed.

Lemma vsound_choice es f c : Forall (fun e => forall f c, vgood c f (cv e f c)) es -> vgood c f (cchoice cv es f c).
Proof.
  induction 1 as [|e es He _ IH]; cbn [cchoice]; [exact I|].
  specialize (He [] c). destruct (cv e [] c); cbn in *; auto.
  destruct He as (_ & t & x & r & -> & H). split; auto. exists t, x, r. auto.
Qed.
Lemma vsound_bare f c : vgood c f (cv (ERule RBareValue) f c).
Proof.
  unf ok_nil. cbn [rules]. unf ok_nil. pose proof (vsound_choice [ERule RTimestamp; ERule RIPValue; ERule RFloatValue; ERule RIntValue; ERule RBoolValue] [] c) as H.
  match goal with |- vgood _ _ (cpop _ ?r) => destruct r end; cbn [cpop];
    try (apply H; repeat constructor; auto using vsound_ts, vsound_ip, vsound_float, vsound_int, vsound_bool).
  destruct H as (_ & H); [repeat constructor; auto using vsound_ts, vsound_ip, vsound_float, vsound_int, vsound_bool|].
  split; auto.
Qed.

Lemma encode_hd_paren x a y l : encode (x :: a) = y :: l -> (y =? 41) = (x =? 41).
Proof.
  rewrite encode_cons. unfold encode_rune, encode_raw. destruct (is_scalar x) eqn:Es.
  - destruct (x <? 128) eqn:?; [cbn; now intros [= <- _]|].
    assert (Hx : x =? 41 = false) by lia. rewrite Hx.
    destruct (x <? 2048); [|destruct (x <? 65536)]; cbn [app]; intros E; apply (f_equal (fun z => hd 0 z)) in E; cbn [hd] in E; subst y.
    + generalize (x / 64). intros. lia.
    + generalize (x / 4096). intros. lia.
    + generalize (x / 262144). intros. lia.
  - assert (Hx : x =? 41 = false) by (unfold is_scalar in Es; lia). rewrite Hx. cbn. now intros [= <- _].
Qed.

Definition ENonWs := EPlus (EClass "[^ \n\t\r]"%string [32; 10; 9; 13] [] false true).
Lemma cev_value f c : cv (ERule RValue) f c =
  match cchoice cv [ERule RQuotedValue; ERule RRegexValue; ERule RBareValue] [] c with
  | COk (VVal x) _ c' => COk (VVal x) f c'
  | CBad e => CBad e
  | CNo => match crs c with x :: _ => if is_ws x then CNo else
      let t := fst (span (fun x => negb (is_ws x)) (crs c)) in
      CBad {| pe_kind := if x =? 41 then KCloseParen else KUnknownValue (encode t); pe_pos := pos_at c |} | [] => CNo end
  | _ => CPan
  end.
Proof.
  pose proof (vsound_choice [ERule RQuotedValue; ERule RRegexValue; ERule RBareValue] [] c) as H.
  set (X := cchoice cv [ERule RQuotedValue; ERule RRegexValue; ERule RBareValue] [] c) in *.
  unf ok_nil. cbn [rules]. unf ok_nil. cbn [cchoice].
  rewrite (cev_unfold O _ ok_nil (EAction AValue2 _)) by (vm_compute; reflexivity).
  rewrite (cev_unfold O _ ok_nil (ELabel _ _)) by (vm_compute; reflexivity).
  rewrite (cev_unfold O _ ok_nil (EChoice _)) by (vm_compute; reflexivity). fold X.
  assert (HF : Forall (fun e => forall f c, vgood c f (cv e f c)) [ERule RQuotedValue; ERule RRegexValue; ERule RBareValue])
    by (repeat constructor; auto using vsound_quoted, vsound_regex, vsound_bare).
  specialize (H HF).
  clearbody X. destruct X as [v f' c'| | | |]; try reflexivity; [| |destruct H].
  - destruct H as (-> & t & x & r & -> & _). reflexivity.
  - change (EPlus _) with ENonWs. 
    rewrite (cev_token O _ ok_nil 3) by (vm_compute; reflexivity).
    assert (E : sc 3 ENonWs (crs c) = match span (fun x => negb (is_ws x)) (crs c) with ([], _) => None | x => Some x end).
    { unfold ENonWs. cbn [sc]. rewrite (sstar_span _ (fun x => negb (is_ws x))); [destruct (span _ _) as [[|] ?]; reflexivity| |lia].
      intros [|x rs]; [reflexivity|]. cbn [class_scan]. pose proof (class_ws 1 (x :: rs)) as E. cbn [sc class_scan] in E.
      destruct (in_class _ _ x), (is_ws x); try reflexivity; discriminate. }
    rewrite E. destruct (crs c) as [|x rs]; [reflexivity|]. cbn [span]. destruct (is_ws x) eqn:Ex; [reflexivity|].
    cbn [negb]. destruct (span _ rs) as [a u]. cbn [run_action].
    destruct (encode (x :: a)) as [|y l] eqn:Ee.
    + exfalso. rewrite encode_cons in Ee. pose proof (encode_rune_len x). destruct (encode_rune x); [cbn in *; lia|discriminate].
    + assert (Hy : (y =? 41) = (x =? 41)) by (eapply encode_hd_paren; exact Ee).
      cbn [fst]. rewrite Ee. rewrite <- Hy. clear.
      destruct y as [|p]; [reflexivity|]. repeat (destruct p as [p|p|]; try reflexivity).
Qed.

Lemma vsound f c : vgood c f (cv (ERule RValue) f c).
Proof.
  rewrite cev_value. pose proof (vsound_choice [ERule RQuotedValue; ERule RRegexValue; ERule RBareValue] [] c) as H.
  assert (HF : Forall (fun e => forall f c, vgood c f (cv e f c)) [ERule RQuotedValue; ERule RRegexValue; ERule RBareValue])
    by (repeat constructor; auto using vsound_quoted, vsound_regex, vsound_bare).
  specialize (H HF). destruct (cchoice _ _ _ _) as [v f' c'| | | |]; try (exact I || destruct H).
  - destruct H0 as (t & x & r & -> & H0). split; auto. exists t, x, r. auto.
  - destruct (crs c) as [|x rs]; [exact I|]. destruct (is_ws x); exact I.
Qed.

(** *** Completeness *)
Lemma tok_none g L F rs : tok g L F -> (forall t r, L t -> rs = t ++ r -> False) -> g rs = None.
Proof. intros [H _] N. destruct (g rs) as [[t r]|] eqn:E; [|reflexivity]. apply H in E as []. exfalso; eauto. Qed.

Lemma digs_unique d x d' y : digits d -> digits d' -> nodig x -> nodig y -> d ++ x = d' ++ y -> d = d' /\ x = y.
Proof. intros A B. apply digs_spec in A, B. now apply span_unique. Qed.
Lemma sign_unique s d x s' d' y : sign s -> sign s' -> digits1 d -> digits1 d' -> s ++ d ++ x = s' ++ d' ++ y -> s = s' /\ d ++ x = d' ++ y.
Proof.
  intros Hs Hs' Hd Hd' E. apply digits1_hd in Hd as (a & u & -> & Ha), Hd' as (a' & u' & -> & Ha').
  destruct Hs as [-> | ->], Hs' as [-> | ->]; cbn in *; auto.
  - exfalso. injection E as -> _. unfold digit in Ha. lia.
  - exfalso. injection E as <- _. unfold digit in Ha'. lia.
  - injection E as -> ->. auto.
Qed.

Lemma ts_shape t : timestamp_lit t -> exists y u, t = y ++ 45 :: u /\ ndigits 4 y.
Proof.
  assert (D : forall t, date_lit t -> exists y u, t = y ++ 45 :: u /\ ndigits 4 y).
  { intros t' (y & m & d & -> & Hy & _). exists y. eexists. split; [reflexivity|exact Hy]. }
  intros [(d & s & u & -> & Hd & _)|Hd]; auto.
  destruct (D _ Hd) as (y & v & -> & Hy). exists y. rewrite <- app_assoc. eexists. split; [reflexivity|exact Hy].
Qed.
Lemma ip_shape t : ip_lit t -> exists o1 o2 u, t = o1 ++ 46 :: o2 ++ 46 :: u /\ digits1 o1 /\ digits1 o2.
Proof. intros (o1 & o2 & o3 & o4 & m & -> & [H1 _] & [H2 _] & _). exists o1, o2. eexists. split; [reflexivity|auto]. Qed.

Lemma nodig_c c u : is_dig c = false -> nodig (c :: u). Proof. auto. Qed.
Lemma minus_not_digit d x y : digits1 d -> [45] ++ x = d ++ y -> False.
Proof. intros Hd E. apply digits1_hd in Hd as (a & u & -> & Ha). injection E as <- _. unfold digit in Ha. lia. Qed.
Lemma ndigits1 n d : ndigits (S n) d -> digits1 d.
Proof. intros [H Hl]. split; auto. intros ->. discriminate. Qed.

Lemma ts_not_ip t r t' r' : ip_lit t -> timestamp_lit t' -> t ++ r = t' ++ r' -> False.
Proof.
  intros H H' E. apply ip_shape in H as (o1 & o2 & u & -> & H1 & _). apply ts_shape in H' as (y & u' & -> & H').
  rewrite <- !app_assoc in E. apply digs_unique in E as [_ E]; [discriminate|apply H1|apply H'|reflexivity|reflexivity].
Qed.
Lemma ts_not_float t r t' r' : float_lit t -> timestamp_lit t' -> t ++ r = t' ++ r' -> False.
Proof.
  intros (s & d & e & -> & Hs & Hd & He) H' E. apply ts_shape in H' as (y & u' & -> & H').
  rewrite <- !app_assoc in E. pose proof (ndigits1 _ _ H') as H1. destruct Hs as [-> | ->].
  - cbn [app] in E. apply digs_unique in E as [_ E]; [discriminate|apply Hd|apply H'|reflexivity|reflexivity].
  - eapply minus_not_digit; [|exact E]; auto.
Qed.
Lemma ts_not_int t r t' r' : int_lit t -> follow r -> timestamp_lit t' -> t ++ r = t' ++ r' -> False.
Proof.
  intros (s & d & -> & Hs & Hd) Hr H' E. apply ts_shape in H' as (y & u' & -> & H').
  rewrite <- !app_assoc in E. pose proof (ndigits1 _ _ H') as H1. destruct Hs as [-> | ->].
  - cbn [app] in E. apply digs_unique in E as [_ E]; [|apply Hd|apply H'|now apply follow_nodig|reflexivity].
    subst r. assert (N : nohd 45 (45 :: u' ++ r')) by (apply follow_nohd; auto; unfold ws_char; lia). now apply N.
  - eapply minus_not_digit; [|exact E]; auto.
Qed.
Lemma ip_not_float t r t' r' : float_lit t -> follow r -> ip_lit t' -> t ++ r = t' ++ r' -> False.
Proof.
  intros (s & d & e & -> & Hs & Hd & He) Hr H' E. apply ip_shape in H' as (o1 & o2 & u' & -> & H1 & H2).
  rewrite <- !app_assoc in E. destruct Hs as [-> | ->].
  - cbn [app] in E. apply digs_unique in E as [_ E]; [|apply Hd|apply H1|reflexivity|reflexivity].
    cbn in E. injection E as E. rewrite <- app_assoc in E. apply digs_unique in E as [_ E]; [|apply He|apply H2|now apply follow_nodig|reflexivity].
    subst r. assert (N : nohd 46 (46 :: u' ++ r')) by (apply follow_nohd; auto; unfold ws_char; lia). now apply N.
  - eapply minus_not_digit; [|exact E]; auto.
Qed.
Lemma ip_not_int t r t' r' : int_lit t -> follow r -> ip_lit t' -> t ++ r = t' ++ r' -> False.
Proof.
  intros (s & d & -> & Hs & Hd) Hr H' E. apply ip_shape in H' as (o1 & o2 & u' & -> & H1 & H2).
  rewrite <- !app_assoc in E. destruct Hs as [-> | ->].
  - cbn [app] in E. apply digs_unique in E as [_ E]; [|apply Hd|apply H1|now apply follow_nodig|reflexivity].
    subst r. assert (N : nohd 46 (46 :: (o2 ++ 46 :: u') ++ r')) by (apply follow_nohd; auto; unfold ws_char; lia). now apply N.
  - eapply minus_not_digit; [|exact E]; auto.
Qed.
Lemma float_not_int t r t' r' : int_lit t -> follow r -> float_lit t' -> t ++ r = t' ++ r' -> False.
Proof.
  intros (s & d & -> & Hs & Hd) Hr (s' & d' & e & -> & Hs' & Hd' & He) E.
  rewrite <- !app_assoc in E. apply sign_unique in E as [_ E]; auto.
  apply digs_unique in E as [_ E]; [|apply Hd|apply Hd'|now apply follow_nodig|reflexivity].
  subst r. assert (N : nohd 46 (46 :: e ++ r')) by (apply follow_nohd; auto; unfold ws_char; lia). now apply N.
Qed.

Lemma bool_first t : t = tx "false" \/ t = tx "true" -> exists x u, t = x :: u /\ ~ digit x /\ x <> 45 /\ x <> 34 /\ x <> 47.
Proof. unfold digit. intros [-> | ->]; cbn; do 2 eexists; (split; [reflexivity|lia]). Qed.

Lemma q_none f c : is_hd 34 (crs c) = false -> cv (ERule RQuotedValue) f c = CNo.
Proof. intros H. pose proof (cev_quoted f c) as Q. destruct (crs c) as [|x r]; auto. cbn in H. now rewrite H in Q. Qed.
Lemma r_none f c : is_hd 47 (crs c) = false -> cv (ERule RRegexValue) f c = CNo.
Proof. intros H. pose proof (cev_regex f c) as Q. destruct (crs c) as [|x r]; auto. cbn in H. now rewrite H in Q. Qed.

Lemma q_ok f c t r s : crs c = t ++ r -> quoted t -> unquote (encode t) = Some s ->
  cv (ERule RQuotedValue) f c = COk (VVal (AStr s (pos_of (rev (pre c)) t))) f (cmove c t r).
Proof.
  intros E (body & -> & Hb) U. pose proof (cev_quoted f c) as Q. rewrite E in Q. cbn [app] in Q. rewrite N.eqb_refl in Q.
  destruct Q as (b' & r1 & Q & H). rewrite <- app_assoc in Q. cbn [app] in Q. rewrite (qstar_complete body r Hb) in Q.
  injection Q as <- <-. rewrite N.eqb_refl in H. cbn zeta in H. cbn [app] in *. rewrite H, U.
  rewrite pos_at_of by now rewrite E. reflexivity.
Qed.
Lemma rg_ok f c t r v : crs c = t ++ r -> regex_lit t -> new_regexp_val O (unescape_slash (encode t)) (pos_of (rev (pre c)) t) = Some v ->
  cv (ERule RRegexValue) f c = COk (VVal v) f (cmove c t r).
Proof.
  intros E (body & -> & Hb) U. pose proof (cev_regex f c) as Q. rewrite E in Q. cbn [app] in Q. rewrite N.eqb_refl in Q.
  destruct Q as (b' & r1 & Q & H). rewrite <- app_assoc in Q. cbn [app] in Q. rewrite (rstar_complete body r Hb) in Q.
  injection Q as <- <-. rewrite N.eqb_refl in H. cbn zeta in H. cbn [app] in *. rewrite H.
  rewrite pos_at_of by now rewrite E. rewrite U. reflexivity.
Qed.

Ltac bare c := unf ok_nil; cbn [rules]; unf ok_nil; cbn [cchoice].

Lemma bare_complete f c t r v : crs c = t ++ r -> follow r -> ~ quoted t -> ~ regex_lit t ->
  literal O t (pos_of (rev (pre c)) t) v -> cv (ERule RBareValue) f c = COk (VVal v) f (cmove c t r).
Proof.
  intros E Hr Nq Nr L. pose proof (literal_hd _ _ _ L) as (x & u & Et & Hx).
  assert (P : getpos (pos_at c) (encode t) = pos_of (rev (pre c)) t).
  { apply pos_at_of. rewrite E, Et. cbn. now apply lit_char_not_nl. }
  clear x u Et Hx. bare c. tokrule ts_expr. tokrule ip_expr. tokrule float_expr. tokrule int_expr. tokrule bool_expr. rewrite E.
  inversion L; subst; try tauto.
  - rewrite (proj2 (tok_ts 7) _ r H Hr). cbn [run_action]. rewrite P, H0. reflexivity.
  - rewrite (tok_none _ _ _ _ (tok_ts 7)) by eauto using ts_not_ip.
    rewrite (proj2 (tok_ip 14) _ r H (follow_nocidr _ Hr)). cbn [run_action]. rewrite P, H0. reflexivity.
  - rewrite (tok_none _ _ _ _ (tok_ts 7)) by eauto using ts_not_float.
    rewrite (tok_none _ _ _ _ (tok_ip 14)) by eauto using ip_not_float.
    rewrite (proj2 (tok_float 17) _ r H (follow_nodig _ Hr)). cbn [run_action]. rewrite P, H0. reflexivity.
  - rewrite (tok_none _ _ _ _ (tok_ts 7)) by eauto using ts_not_int.
    rewrite (tok_none _ _ _ _ (tok_ip 14)) by eauto using ip_not_int.
    rewrite (tok_none _ _ _ _ (tok_float 17)) by eauto using float_not_int.
    rewrite (proj2 (tok_int 17) _ r H (follow_nodig _ Hr)). cbn [run_action]. rewrite P, H0. reflexivity.
  - rewrite (tok_none _ _ _ _ (tok_ts 7)), (tok_none _ _ _ _ (tok_ip 14)), (tok_none _ _ _ _ (tok_float 17)), (tok_none _ _ _ _ (tok_int 17)).
    + rewrite (proj2 (tok_bool 18) (tx "true") r); [|auto|exact I]. cbn [run_action]. rewrite P. reflexivity.
    + intros t' r' H Ee. apply int_hd in H as (y & w & -> & Hy). injection Ee as <- _. unfold digit in Hy. lia.
    + intros t' r' H Ee. apply float_hd in H as (y & w & -> & Hy). injection Ee as <- _. unfold digit in Hy. lia.
    + intros t' r' H Ee. apply ip_hd in H as (y & w & -> & Hy). injection Ee as <- _. unfold digit in Hy. lia.
    + intros t' r' H Ee. apply ts_hd in H as (y & w & -> & Hy). injection Ee as <- _. unfold digit in Hy. lia.
  - rewrite (tok_none _ _ _ _ (tok_ts 7)), (tok_none _ _ _ _ (tok_ip 14)), (tok_none _ _ _ _ (tok_float 17)), (tok_none _ _ _ _ (tok_int 17)).
    + rewrite (proj2 (tok_bool 18) (tx "false") r); [|auto|exact I]. cbn [run_action]. rewrite P. reflexivity.
    + intros t' r' H Ee. apply int_hd in H as (y & w & -> & Hy). injection Ee as <- _. unfold digit in Hy. lia.
    + intros t' r' H Ee. apply float_hd in H as (y & w & -> & Hy). injection Ee as <- _. unfold digit in Hy. lia.
    + intros t' r' H Ee. apply ip_hd in H as (y & w & -> & Hy). injection Ee as <- _. unfold digit in Hy. lia.
    + intros t' r' H Ee. apply ts_hd in H as (y & w & -> & Hy). injection Ee as <- _. unfold digit in Hy. lia.
Qed.

Ltac wrong L := inversion L; subst;
  first [discriminate
        |match goal with H : timestamp_lit _ |- _ => exfalso; apply ts_hd in H as (? & ? & [= <- _] & H); unfold digit in H; lia end
        |match goal with H : ip_lit _ |- _ => exfalso; apply ip_hd in H as (? & ? & [= <- _] & H); unfold digit in H; lia end
        |match goal with H : float_lit _ |- _ => exfalso; apply float_hd in H as (? & ? & [= <- _] & H); unfold digit in H; lia end
        |match goal with H : int_lit _ |- _ => exfalso; apply int_hd in H as (? & ? & [= <- _] & H); unfold digit in H; lia end
        |match goal with H : regex_lit _ |- _ => exfalso; destruct H as (? & H & _); discriminate H end
        |match goal with H : quoted _ |- _ => exfalso; destruct H as (? & H & _); discriminate H end
        |do 2 eexists; repeat split; eauto
        |split; assumption].

Lemma vcomplete f c t r v : crs c = t ++ r -> follow r -> literal O t (pos_of (rev (pre c)) t) v ->
  cv (ERule RValue) f c = COk (VVal v) f (cmove c t r).
Proof.
  intros E Hr L. rewrite cev_value. cbn [cchoice].
  pose proof (literal_hd _ _ _ L) as (x & u & Et & Hx).
  destruct (N.eq_dec x 34) as [->|N1]; [|destruct (N.eq_dec x 47) as [->|N2]].
  - assert (exists s p, v = AStr s p /\ quoted t /\ unquote (encode t) = Some s /\ p = pos_of (rev (pre c)) t) as (s & p & -> & Q & U & ->).
    { wrong L. }
    rewrite (q_ok [] c t r s); auto.
  - rewrite q_none by (rewrite E, Et; reflexivity).
    assert (regex_lit t /\ new_regexp_val O (unescape_slash (encode t)) (pos_of (rev (pre c)) t) = Some v) as [Q U].
    { wrong L. }
    rewrite (rg_ok [] c t r v); auto.
  - rewrite q_none by (rewrite E, Et; cbn; now apply N.eqb_neq).
    rewrite r_none by (rewrite E, Et; cbn; now apply N.eqb_neq).
    rewrite (bare_complete [] c t r v); auto.
    + intros (body & -> & _). injection Et as <- _. congruence.
    + intros (body & -> & _). injection Et as <- _. congruence.
Qed.

(** A value is not found exactly at the end of the text or before white space. *)
Lemma value_no f c : (match crs c with x :: _ => is_ws x = true | [] => True end) -> cv (ERule RValue) f c = CNo.
Proof.
  intros H. rewrite cev_value. cbn [cchoice].
  rewrite q_none, r_none.
  - assert (B : cv (ERule RBareValue) [] c = CNo).
    { bare c. tokrule ts_expr. tokrule ip_expr. tokrule float_expr. tokrule int_expr. tokrule bool_expr.
      assert (X : forall (L : lang) t r, (forall t, L t -> exists x u, t = x :: u /\ lit_char x) -> L t -> crs c = t ++ r -> False).
      { intros L t r HL Ht E. apply HL in Ht as (x & u & -> & Hx). rewrite E in H. cbn in H. apply is_ws_spec in H.
        unfold lit_char, ws_char, digit in *. lia. }
      rewrite (tok_none _ _ _ _ (tok_ts 7)), (tok_none _ _ _ _ (tok_ip 14)), (tok_none _ _ _ _ (tok_float 17)), (tok_none _ _ _ _ (tok_int 17)), (tok_none _ _ _ _ (tok_bool 18)); [reflexivity|..].
      - intros t r Ht. apply (X (fun t => t = tx "false" \/ t = tx "true")); auto. intros t' Ht'. unfold lit_char. destruct Ht' as [-> | ->]; cbn; do 2 eexists; (split; [reflexivity|tauto]).
      - intros t r Ht. apply (X int_lit); auto. intros t' Ht'. apply int_hd in Ht' as (x & u & -> & Hx). exists x, u. unfold lit_char; tauto.
      - intros t r Ht. apply (X float_lit); auto. intros t' Ht'. apply float_hd in Ht' as (x & u & -> & Hx). exists x, u. unfold lit_char; tauto.
      - intros t r Ht. apply (X ip_lit); auto. intros t' Ht'. apply ip_hd in Ht' as (x & u & -> & Hx). exists x, u. unfold lit_char; tauto.
      - intros t r Ht. apply (X timestamp_lit); auto. intros t' Ht'. apply ts_hd in Ht' as (x & u & -> & Hx). exists x, u. unfold lit_char; tauto. }
    rewrite B. destruct (crs c); auto. now rewrite H.
  - destruct (crs c) as [|x r]; auto. cbn. apply is_ws_spec in H. unfold ws_char in H. lia.
  - destruct (crs c) as [|x r]; auto. cbn. apply is_ws_spec in H. unfold ws_char in H. lia.
Qed.
End V.
