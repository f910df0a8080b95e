(** C112: the hint that a regular expression need not begin or end with .*  *)
From Verif Require Import Bytes Utf8 Utf8Proofs GoFloat GoTime Oracles Ast AstSpec GrammarSpec Prop_Grammar Visitors QueryMessages MessageSpec MessageProofs Prop_Messages Prop_Match WasmProofs CmdProofs
  Json Values StrMatch Matcher Layout ParseQuery ParserTop MatchApi MatcherTop AlikeSpec Prop_Alike RegexSpec RegexProofs HintSpec TestOracle.

(** The hint is given for expressions that begin or end so, perhaps after a flag. *)
Theorem C112_told O q m x s : new_matcher O q = NewOk m -> In x (mt_messages m) -> m_text x = HDotStar s ->
  exists t o f r p, parse_plain O q = QOk t /\ In (o, f, ARegex r s p) (tree_values t) /\ m_pos x = p /\ m_type x = MHint /\
    exists fl w, (fl = [] \/ fl = b "(?i)") /\ (r = fl ++ b ".*" ++ w \/ r = fl ++ w ++ b ".*").
Proof.
  intros Nm I Ex. destruct (proj1 (C21_accepts O q) (ex_intro _ m Nm)) as (t & P).
  destruct (C21_messages O q t m P Nm) as (bs & E & F). rewrite E in I. apply in_concat in I as (ms & Ib & I).
  destruct (Forall2_in_r _ _ _ F _ Ib) as ([[o f] v] & Iv & (M1 & M2 & _)).
  assert (G : gives O o f v (m_type x) (HDotStar s)) by (rewrite <- Ex; apply M2; eauto).
  pose proof (M1 x I) as Px. remember (m_type x) as k eqn:Ek. inversion G as [| | |r s0 p u w B D St E1 E2 E3| | | | |]; subst.
  exists t, o, f, r, p. split; [exact P|]. split; [exact Iv|]. split; [exact Px|]. split; [reflexivity|].
  apply tree_values_in in Iv as (vs & p' & Sb & Iv). destruct (C06_literal_positions O q t o f vs p' _ P Sb Iv) as (x0 & own & y0 & _ & L & _).
  assert (Er : r = trim_slash s).
  { inversion L as [|t0 v0 p0 _ V| | | | | |]; subst; try (unfold new_time_val, new_net_val, new_float_val, new_int_val in *; repeat match goal with H : context [match ?c with _ => _ end] |- _ => destruct c; cbn in H; try discriminate end; fail).
    unfold new_regexp_val in V. destruct (o_re_parse O _); cbn in V; [|discriminate]. injection V as <- <- _. reflexivity. }
  apply bare_unique in B. rewrite <- Er in B. subst u.
  destruct D as [[-> _]| -> ]; [exists []|exists (b "(?i)")]; destruct St as [(v & ->) | (v & ->)]; exists v; auto.
Qed.
Print Assumptions C112_told.

(** Where what remains can be read as a regular expression it finds the same texts, *)
Theorem C112_same_texts fold O p p' : conforms fold O p -> conforms fold O p' -> shorter fold p p' ->
  forall s, o_re_match O (encode p) s = o_re_match O (encode p') s.
Proof.
  intros C C' (fl & same & u & v & F & A & -> & E) s.
  assert (Rd : forall t r, alternatives same t r -> reads fold (fl ++ t) r) by (intros t r H; destruct F; [now apply rd_plain|now apply rd_fold]).
  assert (X : exists r, reads fold p r /\ forall x, finds r x <-> finds v x).
  { destruct E as [->| ->].
    - destruct (leading same u v A) as (r & A' & Fi). exists r. split; [apply Rd; exact A'|exact Fi].
    - destruct (trailing same u v A) as (r & A' & Fi). exists r. split; [apply Rd; exact A'|exact Fi]. }
  destruct X as (r & Rp & Fi). apply eq_true_iff_eq. rewrite (C r s Rp), (C' v s (Rd u v A)). apply Fi.
Qed.
Print Assumptions C112_same_texts.

(** and a query that follows the hint gets the same answers. *)
Theorem C112_harmless fold O q q' t t' : parse_plain O q = QOk t -> parse_plain O q' = QOk t' ->
  tree_up_to (fun r r' => exists p p', r = encode p /\ r' = encode p' /\ shorter fold p p' /\ conforms fold O p /\ conforms fold O p') t t' ->
  forall data x, answers O q data x <-> answers O q' data x.
Proof.
  intros P P' U. apply (C111_same_answer O q q' t t' P P'). clear P P'. induction U as [| | |o f vs vs' p p' F].
  - now apply al_and.
  - now apply al_or.
  - now apply al_not.
  - apply al_expr. induction F as [|v w vs vs' H F IH]; constructor; [|exact IH]. destruct H as [v w E|r r' s s' p0 p0' (c & c' & -> & -> & Sh & C & C')]; [now apply set_pos_alike|].
    apply av_regex. now apply (C112_same_texts fold).
Qed.
Print Assumptions C112_harmless.

(** An implementation for five patterns *)
Definition small_oracle : oracles := {|
  o_re_parse := o_re_parse test_oracle;
  o_re_match := fun p s =>
    if beqb p (b ".*a") || beqb p (b "a") then existsb (N.eqb 97) (decode s)
    else if beqb p (b "\Qa.*") then occurs (b "a.*") (decode s)
    else if beqb p (b "\Qa") then occurs (b "a") (decode s)
    else false;
  o_fmt_float := o_fmt_float test_oracle; o_float_other := o_float_other test_oracle; o_is_print := o_is_print test_oracle;
  o_dateparse := o_dateparse test_oracle; o_to_lower := o_to_lower test_oracle; o_text_search := o_text_search test_oracle;
  o_fold := o_fold test_oracle; o_strict_bits := o_strict_bits test_oracle |}.
Lemma sequence_a r : sequence eq (b "a") r -> r = XSeq (one_of eq 97) XEmpty.
Proof. apply sequence_one. cbn. intuition discriminate. Qed.
Lemma only_plain fold p r : (forall t, p <> b "(?i)" ++ t) -> (forall t, p <> b "\Q" ++ t) -> ~ In 124 p -> reads fold p r -> sequence eq p r.
Proof.
  intros N1 N2 N3 H. inversion H; subst; [now apply one_alternative| |].
  - exfalso. now apply (N1 t).
  - exfalso. now apply (N2 t).
Qed.
Lemma has_a s : existsb (N.eqb 97) (decode s) = true <-> In 97 (decode s).
Proof. rewrite existsb_exists. split; [intros (c & I & E); apply N.eqb_eq in E; now subst|intros I; exists 97; now split]. Qed.
Lemma conforms_a fold : conforms fold small_oracle (b "a").
Proof.
  intros r s H. apply only_plain in H; try discriminate; [|cbn; intuition discriminate]. apply sequence_a in H. subst r.
  rewrite (finds_one eq 97) by reflexivity. change (o_re_match small_oracle (encode (b "a")) s) with (existsb (N.eqb 97) (decode s)). apply has_a.
Qed.
Lemma conforms_dots_a fold : conforms fold small_oracle (b ".*a").
Proof.
  intros r s H. apply only_plain in H; try discriminate; [|cbn; intuition discriminate].
  apply (sequence_dot_star eq (b "a")) in H as (r' & H & ->); [|intros d v E; injection E as <- _; discriminate]. apply sequence_a in H. subst r'.
  rewrite finds_skip by (intros; constructor). rewrite (finds_one eq 97) by reflexivity.
  change (o_re_match small_oracle (encode (b ".*a")) s) with (existsb (N.eqb 97) (decode s)). apply has_a.
Qed.
Lemma only_quoted fold t r : reads fold (b "\Q" ++ t) r -> r = literal_rx t.
Proof.
  assert (X : forall u v, sequence eq (b "\Q" ++ u) v -> False).
  { intros u v H. apply (sequence_escape eq) in H as (d & w & E & D). injection E as <- _. destruct D as [(_ & _ & D & _)|D]; [lia|cbn in D; intuition discriminate]. }
  intros H. inversion H as [t' r' A E|t' r' A E|t' Ne E]; subst; [|reflexivity].
  exfalso. inversion A as [t' r' S0 E|t' r' u s S0 A' E]; subst; [exact (X _ _ S0)|].
  destruct t' as [|c [|d t']]; cbn in E; try discriminate. injection E as -> -> E. exact (X _ _ S0).
Qed.
Lemma conforms_quoted fold t : In t [b "a"; b "a.*"] -> conforms fold small_oracle (b "\Q" ++ t).
Proof.
  intros I r s H. apply only_quoted in H. subst r. rewrite finds_literal, <- occurs_spec.
  destruct I as [<-|[<-|[]]]; reflexivity.
Qed.

(** The hint for .*a, and the query without *)
Example C112_example fold : exists m x t t', new_matcher small_oracle (b "x:/.*a/") = NewOk m /\ In x (mt_messages m) /\ m_text x = HDotStar (b "/.*a/") /\
  parse_plain small_oracle (b "x:/.*a/") = QOk t /\ parse_plain small_oracle (b "x:/a/") = QOk t' /\
  tree_up_to (fun r r' => exists p p', r = encode p /\ r' = encode p' /\ shorter fold p p' /\ conforms fold small_oracle p /\ conforms fold small_oracle p') t t' /\
  answers small_oracle (b "x:/.*a/") (b "{""x"":""ba""}") (Some true) /\ answers small_oracle (b "x:/a/") (b "{""x"":""ba""}") (Some true).
Proof.
  do 4 eexists. split; [vm_compute; reflexivity|]. split; [left; reflexivity|]. split; [vm_compute; reflexivity|].
  split; [vm_compute; reflexivity|]. split; [vm_compute; reflexivity|]. split.
  - apply tu_expr. constructor; [|constructor]. apply vu_regex. exists (b ".*a"), (b "a"). split; [reflexivity|]. split; [reflexivity|].
    split; [|split; [apply conforms_dots_a|apply conforms_a]].
    exists [], eq, (b "a"), (XSeq (one_of eq 97) XEmpty). split; [constructor|]. split.
    + apply al_last. change (b "a") with ([97] ++ []). apply sq_piece; [apply pc_once, at_char; cbn; intuition discriminate|constructor].
    + split; [reflexivity|]. left. reflexivity.
  - split; (do 3 eexists; (split; [vm_compute; reflexivity|]); (split; [apply af_none|]); vm_compute; reflexivity).
Qed.

(** The hint is also given where the final .* is not a repetition: after \Q it is literal text, and
    without it the query accepts more. *)
Theorem C112_redundant_refuted fold : exists O q q' m x r r' s s' o f p p' pt pt' data,
  conforms fold O r /\ conforms fold O r' /\ r = r' ++ b ".*" /\
  parse_plain O q = QOk (NExpr o f [ARegex (encode r) s p] pt) /\ parse_plain O q' = QOk (NExpr o f [ARegex (encode r') s' p'] pt') /\
  new_matcher O q = NewOk m /\ In x (mt_messages m) /\ m_text x = HDotStar s /\
  answers O q data (Some false) /\ answers O q' data (Some true) /\ ~ answers O q' data (Some false).
Proof.
  exists small_oracle, (b "x:/\Qa.*/"), (b "x:/\Qa/"). do 2 eexists. exists (b "\Qa.*"), (b "\Qa"). do 8 eexists. exists (b "{""x"":""a""}").
  split; [apply (conforms_quoted fold (b "a.*")); cbn; tauto|]. split; [apply (conforms_quoted fold (b "a")); cbn; tauto|]. split; [reflexivity|].
  split; [vm_compute; reflexivity|]. split; [vm_compute; reflexivity|]. split; [vm_compute; reflexivity|]. split; [left; reflexivity|]. split; [vm_compute; reflexivity|].
  split; [do 3 eexists; (split; [vm_compute; reflexivity|]); (split; [apply af_none|]); vm_compute; reflexivity|].
  split; [do 3 eexists; (split; [vm_compute; reflexivity|]); (split; [apply af_none|]); vm_compute; reflexivity|].
  intros A. apply answers_iff in A as (t & m & P & B & An). vm_compute in P. injection P as <-. vm_compute in B. injection B as <-. vm_compute in An. discriminate.
Qed.
Print Assumptions C112_redundant_refuted.

(** Where the dot of the final .* is escaped nothing readable remains: /a\.*/ gets the hint. *)
Theorem C112_nothing_left_refuted fold : exists O q m x s r' o f p pt,
  parse_plain O q = QOk (NExpr o f [ARegex (encode (r' ++ b ".*")) s p] pt) /\
  new_matcher O q = NewOk m /\ In x (mt_messages m) /\ m_text x = HDotStar s /\
  (exists r, reads fold (r' ++ b ".*") r) /\ ~ exists r, reads fold r' r.
Proof.
  exists small_oracle, (b "x:/a\.*/"). do 3 eexists. exists (b "a\"). do 4 eexists.
  split; [vm_compute; reflexivity|]. split; [vm_compute; reflexivity|]. split; [left; reflexivity|]. split; [vm_compute; reflexivity|].
  split.
  - eexists. apply rd_plain, al_last. change (b "a\" ++ b ".*") with ([97] ++ ([92; 46] ++ b "*" ++ []) ++ []).
    apply sq_piece; [apply pc_once, at_char; cbn; intuition discriminate|]. apply sq_piece; [|constructor].
    apply pc_star; [|now left]. apply at_escape. repeat split; lia.
  - intros (r & H). apply only_plain in H; try discriminate; [|cbn; intuition discriminate].
    apply (sequence_char eq 97 (b "\")) in H as (s & H); [|cbn; intuition discriminate|intros d v E; injection E as <- _; cbn; intuition discriminate].
    apply (sequence_escape eq) in H as (d & w & E & _). discriminate.
Qed.
Print Assumptions C112_nothing_left_refuted.
