(** C68, C91, C92, C93: the web page. *)
From Verif Require Import Bytes Utf8 Oracles Ast AstSpec PegSyntax Engine EnginePositions Visitors ParseQuery QueryMessages MessageSpec Marshal MarshalSpec MarshalProofs Wasm WasmSpec WasmProofs ParserTop TestOracle.
From Verif Require Prop_Grammar Prop_Parser.
From Coq Require Import ZifyBool ZifyN ZifyNat.

Lemma shallow_text t : (levels t <= N.to_nat 10000)%nat -> exists text, marshal_indent t = Some text /\ text <> [].
Proof.
  intros H. rewrite marshal_indent_pretty. replace (fits (levels t) 0) with true by (unfold fits; lia). eexists. split; [reflexivity|].
  intros E. pose proof (pretty_text t 0) as V. rewrite E in V. apply JsonProofs.value_head in V as (c & r & Ec & _). discriminate.
Qed.
Lemma marshal_inj t u text : utf8_tree t -> utf8_tree u -> marshal_indent t = Some text -> marshal_indent u = Some text -> t = u.
Proof.
  intros Ut Uu Et Eu. apply marshal_document in Et, Eu. apply JsonProofs.parse_json_spec in Et, Eu. rewrite Et in Eu. injection Eu as Eu.
  eapply shows_fun; [apply json_of_shows; exact Ut|]. rewrite Eu. now apply json_of_shows.
Qed.
Lemma small n : (N.of_nat n <=? 10000) = true -> (n <= N.to_nat 10000)%nat.
Proof. lia. Qed.

(** ** C68 *)
(** The empty input is marked from -1 to 0. *)
Theorem C68_start_refuted : exists q, forall O, exists m, p_wrap O q = WebRes [] [m] /\ (w_start m < 0)%Z.
Proof. exists []. intros O. eexists. split; [vm_compute; reflexivity|]. vm_compute. reflexivity. Qed.
Print Assumptions C68_start_refuted.
(** An unterminated string is marked one past the end. *)
Theorem C68_end_refuted : exists q, forall O, exists m, p_wrap O q = WebRes [] [m] /\ (Z.of_nat (length q) < w_end m)%Z.
Proof. exists (b "a:""x"). intros O. eexists. split; [vm_compute; reflexivity|]. vm_compute. reflexivity. Qed.
Print Assumptions C68_end_refuted.

(** ** C91 *)
Theorem C91_error_range O q : (forall t, parse_plain O q <> QOk t) ->
  exists m, p_wrap O q = WebRes [] [m] /\
    (-1 <= w_start m <= w_end m)%Z /\ (w_end m <= Z.of_nat (length q) + 1)%Z /\
    (w_start m = -1 <-> q = [])%Z /\
    (w_end m = Z.of_nat (length q) + 1 -> exists e, w_text m = WError (QSyntax e) /\ (pe_kind e = KUntermStr \/ pe_kind e = KUntermRegex))%Z.
Proof.
  intros R. assert (Ne : q = [] -> p_wrap O q = WebRes [] [{| w_kind := MError; w_text := WIncomplete; w_start := -1; w_end := 0 |}]) by (intros ->; vm_compute; reflexivity).
  destruct (rejected O q R) as [(e & es & P & E)|(k & p & (H1 & H2 & H3) & E)].
  - exists (err_convert (QSyntax e) q). split; [exact E|]. destruct (err_convert_cases e q) as [(l & Ek & S1 & S2 & _)|(Nk & S1 & S2 & S3)].
    + rewrite S1, S2. split; [lia|]. split; [lia|]. split; [destruct q; cbn [length]; split; intros; try congruence; lia|lia].
    + assert (Nq : q <> []) by (intros ->; specialize (Ne eq_refl); rewrite E in Ne; assert (X : err_convert (QSyntax e) [] = {| w_kind := MError; w_text := WIncomplete; w_start := -1; w_end := 0 |}) by congruence; rewrite X in S3; discriminate S3).
      pose proof (parse_err_positions O q _ _ P) as Ps. inversion Ps as [|? ? (pr & sf & Eq & Ho & _) _]; subst. clear Ps.
      assert (Lq : (Z.of_nat (length (pr ++ sf)) = Z.of_nat (length pr) + Z.of_nat (length sf))%Z) by (rewrite app_length; lia).
      destruct (parse_err_inside O _ _ _ P) as [[In'|In']|[(l & In')|In']].
      * rewrite S1, S2. split; [lia|]. split; [lia|]. split; [split; [lia|congruence]|lia].
      * rewrite S1, S2. assert (El : err_len (pe_kind e) = 1%Z) by (destruct In' as [-> | ->]; reflexivity). rewrite El. split; [lia|]. split; [lia|]. split; [split; [lia|congruence]|].
        intros _. exists e. now split.
      * exfalso. now apply (Nk l).
      * pose proof (parse_spec O (pr ++ sf)) as Sp. rewrite P in Sp. tauto.
  - exists (err_convert (QInvalid k p) q). split; [exact E|]. cbn [err_convert w_start w_end w_text qerr_pos].
    assert (Nq : q <> []) by (intros ->; specialize (Ne eq_refl); rewrite E in Ne; discriminate Ne).
    split; [lia|]. split; [lia|]. split; [split; [lia|congruence]|lia].
Qed.
Print Assumptions C91_error_range.

(** An input with a wrong argument: the mark covers it. *)
Example C91_example : (forall t, parse_plain test_oracle (b "a:<""x""") <> QOk t) /\
  exists m, p_wrap test_oracle (b "a:<""x""") = WebRes [] [m] /\ w_start m = 3%Z /\ w_end m = 6%Z.
Proof. split; [vm_compute; discriminate|]. eexists. split; [vm_compute; reflexivity|]. now split. Qed.

(** For an accepted query that is not nested too deeply a tree is returned and the messages lie
    inside the input. *)
Theorem C91_message_range O q t : parse_plain O q = QOk t -> (levels (tree_of_node t) <= N.to_nat 10000)%nat ->
  exists text ms, p_wrap O q = WebRes text ms /\ text <> [] /\
    forall m, In m ms -> (0 <= w_start m <= w_end m)%Z /\ (w_end m <= Z.of_nat (length q))%Z /\ w_kind m <> MError.
Proof.
  intros P Lv. destruct (shallow_text _ Lv) as (tree & E0 & Ne). rewrite (accepted_web O q t P), E0. do 2 eexists. split; [reflexivity|]. split; [exact Ne|]. intros m I. apply in_map_iff in I as (m0 & <- & I).
  destruct (web_blocks O t (fun o f vs p Sb => accepted_regex O q t o f vs p P Sb)) as (bl & E & F). rewrite E in I. apply in_concat in I as (ms & Ib & I).
  destruct (Forall2_in_r _ _ _ F _ Ib) as ([[[o f] v] np] & Iv & (M1 & M2 & _)).
  apply placed_in in Iv as (vs & Sb & Iv). apply Prop_Grammar.C03_language in P as (text & Sc & -> & Q & _).
  destruct (tree_pos_inside O _ _ _ _ _ _ Q Sb) as (P1 & P2). specialize (P2 v Iv). specialize (M1 m0 I). cbn [w_start w_end w_kind msg_convert].
  assert (Pm : pos_inside (encode text) (m_pos m0)) by (rewrite M1; now destruct (m_text m0)). destruct Pm as (A1 & A2 & A3).
  split; [lia|]. split; [lia|]. assert (G : web_gives O o f v (m_type m0) (m_text m0)) by (apply M2; eauto).
  destruct v; cbn in G; try contradiction; try (inversion G; discriminate). destruct G as (_ & -> & _). discriminate.
Qed.
Print Assumptions C91_message_range.

(** ** C92 *)
(** The tree on the page is the same for AND and OR, and for all values. *)
Theorem C92_operator_refuted : exists q1 q2, forall O, exists l r,
  parse_plain O q1 = QOk (NAnd l r) /\ parse_plain O q2 = QOk (NOr l r) /\ p_wrap O q1 = p_wrap O q2.
Proof.
  exists (b "a:exists AND b:exists"), (b "a:exists OR  b:exists"). intros O. do 2 eexists.
  split; [vm_compute; reflexivity|]. split; vm_compute; reflexivity.
Qed.
Print Assumptions C92_operator_refuted.
Theorem C92_value_refuted : exists q1 q2, forall O, exists o f v v' p,
  parse_plain O q1 = QOk (NExpr o f [v] p) /\ parse_plain O q2 = QOk (NExpr o f [v'] p) /\
  val_string O v <> val_string O v' /\ p_wrap O q1 = p_wrap O q2.
Proof.
  exists (b "a:1"), (b "a:2"). intros O.
  exists EQ, [b "a"], (AInt 1 (b "1") {| p_line := 1; p_col := 3; p_off := 2; p_len := 1 |}), (AInt 2 (b "2") {| p_line := 1; p_col := 3; p_off := 2; p_len := 1 |}), {| p_line := 1; p_col := 1; p_off := 0; p_len := 3 |}.
  split; [vm_compute; reflexivity|]. split; [vm_compute; reflexivity|]. split; [discriminate|vm_compute; reflexivity].
Qed.
Print Assumptions C92_value_refuted.

(** Everything else is told: shape up to AND and OR, operators, fields, numbers of values and positions. *)
Theorem C92_tree_partial O q1 t1 ms1 q2 t2 ms2 a : parse_plain O q1 = QOk t1 -> parse_plain O q2 = QOk t2 ->
  p_wrap O q1 = WebRes a ms1 -> p_wrap O q2 = WebRes a ms2 -> alike t1 t2.
Proof.
  intros P1 P2 W1 W2. rewrite (accepted_web O q1 t1 P1) in W1. rewrite (accepted_web O q2 t2 P2) in W2.
  destruct (marshal_indent (tree_of_node t1)) as [a1|] eqn:E1; [|discriminate]. destruct (marshal_indent (tree_of_node t2)) as [a2|] eqn:E2; [|discriminate].
  injection W1 as W1 _. injection W2 as W2 _. subst a1 a2. apply tree_alike. eapply marshal_inj; [| |exact E1|exact E2]; eapply accepted_utf8; eassumption.
Qed.
Print Assumptions C92_tree_partial.
Example C92_example : exists t1 t2 a ms1 ms2, parse_plain test_oracle (b "a:(1,2) AND !b:null") = QOk t1 /\ parse_plain test_oracle (b "a:(3,4) OR  !b:null") = QOk t2 /\
  p_wrap test_oracle (b "a:(1,2) AND !b:null") = WebRes a ms1 /\ p_wrap test_oracle (b "a:(3,4) OR  !b:null") = WebRes a ms2.
Proof. do 5 eexists. split; [vm_compute; reflexivity|]. split; [vm_compute; reflexivity|]. split; vm_compute; reflexivity. Qed.

(** ** C93 *)
(** One block of messages per value, from left to right. *)
Theorem C93_messages O q t : parse_plain O q = QOk t -> (levels (tree_of_node t) <= N.to_nat 10000)%nat ->
  exists text blocks, p_wrap O q = WebRes text (map msg_convert (concat blocks)) /\ Forall2 (web_messages_for O) (placed_values t) blocks.
Proof.
  intros P Lv. destruct (web_blocks O t (fun o f vs p Sb => accepted_regex O q t o f vs p P Sb)) as (bl & E & F). destruct (shallow_text _ Lv) as (text & E0 & _).
  exists text, bl. split; [|exact F]. rewrite (accepted_web O q t P), E0. now rewrite E.
Qed.
Print Assumptions C93_messages.
Example C93_example : exists t a ms, parse_plain test_oracle (b "a:~(/.*x/, ""y"") AND !b:2020-01-01") = QOk t /\ (levels (tree_of_node t) <= N.to_nat 10000)%nat /\
  p_wrap test_oracle (b "a:~(/.*x/, ""y"") AND !b:2020-01-01") = WebRes a ms /\
  map (fun m => (w_kind m, w_text m, w_start m, w_end m)) ms =
    [(MWarning, WHint HSimRegex, 0%Z, 15%Z); (MHint, WHint (HDotStar (b "/.*x/")), 4%Z, 9%Z); (MWarning, WHint HExactTime, 23%Z, 33%Z)].
Proof. do 3 eexists. split; [vm_compute; reflexivity|]. split; [apply small; vm_compute; reflexivity|]. split; vm_compute; reflexivity. Qed.
