(** NewMatcher: acceptance, messages, and the matcher of a query. *)
From Verif Require Import Bytes Utf8 Utf8Proofs GoStrconv GoFloat GoTime GoNet Oracles Ast AstSpec Json Values StrMatch Matcher
  QueryMessages MatchApi MatchSpec StrProofs NetProofs MatchProofs Visitors VisitorProofs Validators ValidatorProofs ParseQuery.
From Verif Require GrammarSpec GrammarFacts Layout LayoutProofs Prop_Grammar Prop_Layout ParserTop Engine.

Section WithOracles.
Context (O : oracles).

(** ** Values of accepted queries *)
Lemma accepted_literal q t o f vs p v : parse_plain O q = QOk t -> subnode (NExpr o f vs p) t -> In v vs ->
  exists own, GrammarSpec.literal O own (val_pos v) v.
Proof.
  intros P S I. destruct (Prop_Grammar.C06_literal_positions _ _ _ _ _ _ _ _ P S I) as (bf & own & af & _ & L & E).
  exists own. now rewrite E.
Qed.

Lemma literal_val_ok own p v : GrammarSpec.literal O own p v -> val_ok v.
Proof.
  intros [t s q0 Q U|t v0 q0 R Nv|t v0 q0 R Nv|t v0 q0 R Nv|t v0 q0 R Nv|t v0 q0 R Nv|q0|q0]; try exact I.
  - unfold new_regexp_val in Nv. destruct (o_re_parse O _); [|discriminate]. injection Nv as <-. exact I.
  - unfold new_time_val in Nv. destruct (Nat.eqb _ 10).
    + destruct (parse_date _); [|discriminate]. injection Nv as <-. exact I.
    + destruct (parse_rfc3339 _); [|discriminate]. injection Nv as <-. exact I.
  - unfold new_net_val in Nv. cbn zeta in Nv. destruct (parse_prefix _ _) as [nv|] eqn:E; [|discriminate].
    injection Nv as <-. cbn. now apply parse_prefix_ok in E.
  - unfold new_float_val in Nv. destruct (parse_float _ _) as [fv|]; [|discriminate].
    destruct fv; try discriminate; injection Nv as <-; exact I.
  - unfold new_int_val in Nv. destruct (parse_int _); [|discriminate]. injection Nv as <-. exact I.
Qed.

Lemma literal_regex own p pat sv q0 : GrammarSpec.literal O own p (ARegex pat sv q0) -> o_re_parse O pat <> None.
Proof.
  intros L. remember (ARegex pat sv q0) as v eqn:Ev.
  destruct L as [t s p Q U|t v p R Nv|t v p R Nv|t v p R Nv|t v p R Nv|t v p R Nv|p|p]; try discriminate.
  - unfold new_regexp_val in Nv. destruct (o_re_parse O _) as [r|] eqn:E; [|discriminate]. cbn in Nv.
    subst v. injection Nv as <- _ _. now rewrite E.
  - unfold new_time_val in Nv. destruct (Nat.eqb _ 10).
    + destruct (parse_date _); [|discriminate]. subst v. discriminate.
    + destruct (parse_rfc3339 _); [|discriminate]. subst v. discriminate.
  - unfold new_net_val in Nv. destruct (parse_prefix _ _) as [nv|] eqn:E; [|discriminate]. subst v. discriminate.
  - unfold new_float_val in Nv. destruct (parse_float _ _) as [fv|]; [|discriminate]. subst v.
    destruct fv; try discriminate.
  - unfold new_int_val in Nv. destruct (parse_int _); [|discriminate]. subst v. discriminate.
Qed.

Lemma accepted_tree_ok q t : parse_plain O q = QOk t -> tree_ok t.
Proof.
  intros P o f vs p S. pose proof (proj1 (Prop_Grammar.C03_language O q t) P) as (text & _ & _ & _ & C).
  destruct (C _ _ _ _ S) as (A & _ & B). split; [exact A|]. split.
  - apply Forall_forall. intros v I. destruct (accepted_literal _ _ _ _ _ _ _ P S I) as (own & L).
    eapply literal_val_ok, L.
  - intros ->. destruct (B eq_refl) as (v & w & -> & R). exists v, w. split; [reflexivity|].
    destruct A as (v' & w' & [= <- <-] & Ov & Ow). split; [exact Ov|]. split; [exact Ow|].
    intros t0 d s p0 ->. inversion R; subst.
    + match goal with H : denotes_num (ATime _ _ _ _) _ |- _ => inversion H end.
    + eauto 6.
    + match goal with H : denotes_num (ATime _ _ _ _) _ |- _ => inversion H end.
Qed.

(** ** The message visitor *)
Definition node_msgs (n : node) : list (message hint) :=
  match n with NExpr o f vs _ => fst (values_messages O o f vs) | _ => [] end.
Definition msgs_ok (n : node) : Prop :=
  match n with NExpr o f vs _ => snd (values_messages O o f vs) = true | _ => True end.

Lemma values_messages_ok o f vs : (forall v, In v vs -> match v with ARegex pat _ _ => o_re_parse O pat <> None | _ => True end) ->
  values_messages O o f vs = (flat_map (fun v => fst (value_messages O o f v)) vs, true).
Proof.
  induction vs as [|v vs IH]; intros H; [reflexivity|]. cbn [values_messages flat_map].
  assert (snd (value_messages O o f v) = true) as E.
  { specialize (H v (or_introl eq_refl)). destruct v; try reflexivity. cbn.
    destruct (o_re_parse O pat) as [r|]; [|congruence]. now destruct (strip_group p r). }
  destruct (value_messages O o f v) as [ms ok]. cbn in E. subst ok. cbn [fst].
  rewrite IH by (intros w I; apply H; now right). reflexivity.
Qed.

Lemma walkr_messages n : (forall x, subnode x n -> msgs_ok x) -> forall t,
  walkr (message_visitor O) n (tt, t) = (VNone, (tt, fold_left add_msg (flat_map node_msgs (preorder n)) t)).
Proof.
  induction n as [l IHl r IHr|l IHl r IHr|e IHe|o f vs p]; intros H t; cbn [walkr visit message_visitor fst snd fold_left].
  - rewrite IHl by (intros x S; apply H, sub_and_l, S). rewrite IHr by (intros x S; apply H, sub_and_r, S).
    cbn [preorder flat_map node_msgs app]. rewrite flat_map_app, fold_left_app. reflexivity.
  - rewrite IHl by (intros x S; apply H, sub_or_l, S). rewrite IHr by (intros x S; apply H, sub_or_r, S).
    cbn [preorder flat_map node_msgs app]. rewrite flat_map_app, fold_left_app. reflexivity.
  - rewrite IHe by (intros x S; apply H, sub_not, S). reflexivity.
  - specialize (H _ (sub_refl _)). cbn in H. cbn [preorder flat_map node_msgs].
    destruct (values_messages O o f vs) as [ms ok]. cbn in H. subst ok. cbn [fst]. now rewrite app_nil_r.
Qed.

Lemma fold_add_messages {T} (ms : list (message T)) : forall t, messages (fold_left add_msg ms t) = messages t ++ ms.
Proof.
  induction ms as [|m ms IH]; intros t; cbn; [now rewrite app_nil_r|]. rewrite IH. cbn. now rewrite <- app_assoc.
Qed.

Lemma accepted_msgs_ok q t : parse_plain O q = QOk t -> forall x, subnode x t -> msgs_ok x.
Proof.
  intros P x S. destruct x as [| | |o f vs p]; try exact I. cbn. rewrite values_messages_ok; [reflexivity|].
  intros v J. destruct (accepted_literal _ _ _ _ _ _ _ P S J) as (own & L). destruct v; try exact I.
  eapply literal_regex, L.
Qed.

Lemma new_matcher_accepted q t : parse_plain O q = QOk t ->
  exists r, build O t = Ok r /\
    new_matcher O q = NewOk {| mt_root := r; mt_query := q; mt_messages := flat_map node_msgs (preorder t) |}.
Proof.
  intros P. destruct (build_ok O t (accepted_tree_ok _ _ P)) as (r & B). exists r. split; [exact B|].
  unfold new_matcher. pose proof (parse_query_plain O [(message_visitor O, empty_tape)] q tt) as H.
  rewrite P in H. rewrite H. cbn [run_visitors]. unfold walk.
  rewrite (walkr_messages t (accepted_msgs_ok _ _ P)).
  rewrite fold_add_none by reflexivity. cbn. rewrite B. do 2 f_equal. apply fold_add_messages.
Qed.

Lemma parse_plain_total q : parse_plain O q <> QFuel /\ parse_plain O q <> QPanic.
Proof.
  unfold parse_plain, parse_query. pose proof (ParserTop.parse_spec O q) as P.
  destruct (Engine.parse O q) as [v|s es|]; cbn [fst]; [| |contradiction].
  - destruct P as (rs & x & _ & _ & -> & _). pose proof (walk_validator_no_panic O x) as NP.
    destruct (walk_validator O x) as [|k p|]; cbn; [split; discriminate|split; discriminate|congruence].
  - split; discriminate.
Qed.

Lemma new_matcher_rejected q e : parse_plain O q = QErr e ->
  exists e', new_matcher O q = NewErr e' /\
    fst (fst (parse_query (W := unit) (E := unit) (T := hint) O [] q tt)) = QErr e'.
Proof.
  unfold parse_plain, new_matcher, parse_query. pose proof (ParserTop.parse_spec O q) as P.
  destruct (Engine.parse O q) as [v|s es|]; cbn [fst]; [| |contradiction].
  - destruct P as (rs & x & _ & _ & -> & _). pose proof (walk_validator_no_panic O x) as NP.
    destruct (walk_validator O x) as [|k p|]; cbn; [discriminate|eauto|congruence].
  - cbn. eauto.
Qed.

Lemma new_matcher_cases q :
  (exists t r, parse_plain O q = QOk t /\ build O t = Ok r /\
     new_matcher O q = NewOk {| mt_root := r; mt_query := q; mt_messages := flat_map node_msgs (preorder t) |}) \/
  (exists e e', parse_plain O q = QErr e /\ new_matcher O q = NewErr e').
Proof.
  destruct (parse_plain O q) as [t|e| |] eqn:P.
  - left. destruct (new_matcher_accepted q t P) as (r & B & E). eauto.
  - right. destruct (new_matcher_rejected q e P) as (e' & E & _). eauto.
  - now apply parse_plain_total in P.
  - now apply parse_plain_total in P.
Qed.

(** ** Counters do not matter *)
Lemma match_shape m data r m' : match_doc O m data = Ok (r, m') -> shape m' = shape m.
Proof.
  unfold match_doc. destruct (parse_json data) as [root|]; [|intros [= <- <-]; reflexivity].
  pose proof (result_ev O m root) as R. destruct (result O m root) as [[a m1]|]; [|discriminate].
  cbn. intros [= <- <-]. apply R.
Qed.
Lemma after_shape m m' : after O m m' -> shape m' = shape m.
Proof. induction 1; [reflexivity|]. apply match_shape in H0. congruence. Qed.

(** The answer of Match, without counters. *)
Definition answer (m : mnode) (data : bytes) : res (option bool) :=
  match parse_json data with
  | None => Ok None
  | Some root => bind (ev O m root) (fun a => Ok (Some a))
  end.
Lemma match_answer m data :
  match match_doc O m data with
  | Ok (r, _) => answer m data = Ok r
  | Panic => answer m data = Panic
  end.
Proof.
  unfold match_doc, answer. destruct (parse_json data) as [root|]; [|reflexivity].
  pose proof (result_ev O m root) as R. destruct (result O m root) as [[a m1]|]; cbn.
  - destruct R as [-> _]. reflexivity.
  - now rewrite R.
Qed.
Lemma answer_shape m m' data : shape m = shape m' -> answer m data = answer m' data.
Proof.
  intros E. unfold answer. destruct (parse_json data); [|reflexivity]. now rewrite <- (ev_shape O m), <- (ev_shape O m'), E.
Qed.

(** ** Positions do not matter *)
Lemma eq_matcher_set p v : eq_matcher O (Layout.set_pos p v) = eq_matcher O v.
Proof. now destruct v. Qed.
Lemma eq_matchers_set p vs : eq_matchers O (map (Layout.set_pos p) vs) = eq_matchers O vs.
Proof. induction vs as [|v vs IH]; [reflexivity|]. cbn. now rewrite eq_matcher_set, IH. Qed.
Lemma build_exprs_set p o vs : build_exprs O o (map (Layout.set_pos p) vs) = build_exprs O o vs.
Proof.
  assert (expr_eq O (map (Layout.set_pos p) vs) = expr_eq O vs) as E.
  { destruct vs; [reflexivity|]. unfold expr_eq. cbn [map]. rewrite <- map_cons. apply eq_matchers_set. }
  destruct o; cbn [build_exprs]; try exact E; try reflexivity.
  1-4: destruct vs as [|v [|w vs]]; [reflexivity|now destruct v|now destruct v, w].
  destruct vs as [|v [|w [|? vs]]]; [reflexivity|now destruct v| |reflexivity]. destruct v, w; reflexivity.
Qed.
Lemma friendly_set p o f vs : friendly_string O o f (map (Layout.set_pos p) vs) = friendly_string O o f vs.
Proof.
  unfold friendly_string.
  assert (map (val_string O) (map (Layout.set_pos p) vs) = map (val_string O) vs) as E.
  { rewrite map_map. apply map_ext. intros v. apply LayoutProofs.val_string_set. }
  destruct vs as [|v [|w vs]]; [reflexivity| |]; cbn [map] in *.
  - now rewrite LayoutProofs.val_string_set.
  - now rewrite E.
Qed.
Lemma build_strip n : build O (Layout.strip n) = build O n.
Proof.
  induction n as [l IHl r IHr|l IHl r IHr|e IHe|o f vs p]; cbn [Layout.strip build].
  1-2: now rewrite IHl, IHr.
  - now rewrite IHe.
  - now rewrite build_exprs_set, friendly_set.
Qed.

(** ** Answers *)
Lemma answers_iff q data r : answers O q data r <->
  exists t m, parse_plain O q = QOk t /\ build O t = Ok m /\ answer m data = Ok r.
Proof.
  split.
  - intros (m & m1 & m2 & Nm & A & M). destruct (new_matcher_cases q) as [(t & r0 & P & B & E)|(e & e' & P & E)]; [|congruence].
    rewrite E in Nm. injection Nm as <-. cbn in A. exists t, r0. repeat split; auto.
    rewrite <- (answer_shape m1); [|now apply after_shape].
    pose proof (match_answer m1 data) as H. now rewrite M in H.
  - intros (t & m & P & B & A). destruct (new_matcher_accepted q t P) as (r0 & B' & E).
    replace r0 with m in E by congruence.
    pose proof (match_answer m data) as H. destruct (match_doc O m data) as [[r' m']|] eqn:M; [|congruence].
    eexists _, m, m'. split; [exact E|]. split; [apply af_none|]. cbn. rewrite M. congruence.
Qed.

Lemma answers_fun q data r1 r2 : answers O q data r1 -> answers O q data r2 -> r1 = r2.
Proof. rewrite !answers_iff. intros (t & m & P & B & A) (t' & m' & P' & B' & A'). congruence. Qed.

(** ** Combined queries *)
Lemma answers_tokens q data r : answers O q data r ->
  exists t m k text, parse_plain O q = QOk t /\ build O t = Ok m /\ answer m data = Ok r /\
    Layout.tokens_tree O GrammarSpec.LOr k (Layout.strip t) /\ Layout.layout_query k text /\ scalars text /\ q = encode text /\ checked O t.
Proof.
  rewrite answers_iff. intros (t & m & P & B & A).
  pose proof (proj1 (Prop_Grammar.C03_language O q t) P) as (text & Sc & -> & (w1 & a & w2 & E & W1 & W2 & D) & C).
  destruct (LayoutProofs.derives_tokens _ _ _ _ _ D) as (k & T & L).
  exists t, m, k, text. refine (conj P (conj B (conj A (conj T (conj _ (conj Sc (conj eq_refl C))))))).
  exists w1, a, w2. auto.
Qed.

Lemma combined_answers k text n mn data r :
  Layout.tokens_tree O GrammarSpec.LOr k n -> Layout.layout_query k text -> scalars text -> checked O n ->
  build O n = Ok mn -> answer mn data = Ok r -> answers O (encode text) data r.
Proof.
  intros T L Sc C B A. destruct (proj2 (Prop_Layout.C05_same_verdict O k n text T L Sc) C) as (t & P & St).
  apply answers_iff. exists t, mn. split; [exact P|]. split; [|exact A]. now rewrite <- build_strip, St.
Qed.

Lemma layout_paren k text : Layout.layout_query k text -> Layout.layout (Layout.TParen k) (GrammarSpec.tx "(" ++ text ++ GrammarSpec.tx ")").
Proof.
  intros (w1 & a & w2 & -> & W1 & W2 & L). rewrite <- !app_assoc. now apply Layout.lay_paren.
Qed.

Lemma checked_and x y : checked O x -> checked O y -> checked O (NAnd x y).
Proof. intros H1 H2 o f vs p S. inversion S; subst; eauto. Qed.
Lemma checked_or x y : checked O x -> checked O y -> checked O (NOr x y).
Proof. intros H1 H2 o f vs p S. inversion S; subst; eauto. Qed.
Lemma checked_not x : checked O x -> checked O (NNot x).
Proof. intros H1 o f vs p S. inversion S; subst; eauto. Qed.

Lemma ws1_space : GrammarSpec.ws1 [32].
Proof. apply LayoutProofs.ws_one. Qed.

Lemma paren_cmp k x : Layout.tokens_tree O GrammarSpec.LOr k x -> Layout.tokens_tree O GrammarSpec.LNot (Layout.TParen k) x.
Proof. intros H. apply Layout.tt_not1, Layout.tt_paren, H. Qed.

Lemma all_ascii s : forallb (fun c => c <? 128) s = true -> Forall (fun c => c < 128) s.
Proof. intros H. apply Forall_forall. intros c I. rewrite forallb_forall in H. now apply N.ltb_lt, H. Qed.
Lemma scalars_ascii s : forallb (fun c => c <? 128) s = true -> scalars s.
Proof. intros H. now apply ascii_scalars, all_ascii. Qed.
Lemma encode_and x y : encode (b "(" ++ x ++ b ") AND (" ++ y ++ b ")") = q_and (encode x) (encode y).
Proof. unfold q_and. rewrite !encode_app. now rewrite !(encode_ascii (b _)) by (apply all_ascii; reflexivity). Qed.
Lemma encode_or x y : encode (b "(" ++ x ++ b ") OR (" ++ y ++ b ")") = q_or (encode x) (encode y).
Proof. unfold q_or. rewrite !encode_app. now rewrite !(encode_ascii (b _)) by (apply all_ascii; reflexivity). Qed.
Lemma encode_not x : encode (b "NOT (" ++ x ++ b ")") = q_not (encode x).
Proof. unfold q_not. rewrite !encode_app. now rewrite !(encode_ascii (b _)) by (apply all_ascii; reflexivity). Qed.

Lemma answers_and p q data a c : answers O p data (Some a) -> answers O q data (Some c) ->
  answers O (q_and p q) data (Some (a && c)).
Proof.
  intros Hp Hq. apply answers_tokens in Hp as (tp & mp & kp & xp & Pp & Bp & Ap & Tp & Lp & Sp & -> & Cp).
  apply answers_tokens in Hq as (tq & mq & kq & xq & Pq & Bq & Aq & Tq & Lq & Sq & -> & Cq).
  rewrite <- encode_and.
  eapply (combined_answers (Layout.TAnd (Layout.TParen kp) (Layout.TParen kq)) _ (NAnd (Layout.strip tp) (Layout.strip tq))
            (MAnd mp mq (new_stats (b "AND")))).
  - apply Layout.tt_or1, Layout.tt_and; [now apply paren_cmp|apply Layout.tt_and1; now apply paren_cmp].
  - exists [], (b "(" ++ xp ++ b ") AND (" ++ xq ++ b ")"), []. rewrite app_nil_r. repeat split; try constructor.
    replace (b "(" ++ xp ++ b ") AND (" ++ xq ++ b ")") with
      ((GrammarSpec.tx "(" ++ xp ++ GrammarSpec.tx ")") ++ [32] ++ GrammarSpec.tx "AND" ++ [32] ++ (GrammarSpec.tx "(" ++ xq ++ GrammarSpec.tx ")")).
    + apply Layout.lay_and; auto using ws1_space, layout_paren.
    + rewrite <- !app_assoc. reflexivity.
  - rewrite !LayoutProofs.scalars_app. repeat split; auto; now apply scalars_ascii.
  - apply checked_and; now apply LayoutProofs.checked_strip.
  - cbn. now rewrite !build_strip, Bp, Bq.
  - unfold answer in *. destruct (parse_json data) as [root|]; [|discriminate]. cbn.
    destruct (ev O mp root) as [a'|]; [|discriminate]. destruct (ev O mq root) as [c'|]; [|discriminate].
    cbn in *. injection Ap as ->. injection Aq as ->. now destruct a.
Qed.

Lemma answers_or p q data a c : answers O p data (Some a) -> answers O q data (Some c) ->
  answers O (q_or p q) data (Some (a || c)).
Proof.
  intros Hp Hq. apply answers_tokens in Hp as (tp & mp & kp & xp & Pp & Bp & Ap & Tp & Lp & Sp & -> & Cp).
  apply answers_tokens in Hq as (tq & mq & kq & xq & Pq & Bq & Aq & Tq & Lq & Sq & -> & Cq).
  rewrite <- encode_or.
  eapply (combined_answers (Layout.TOr (Layout.TParen kp) (Layout.TParen kq)) _ (NOr (Layout.strip tp) (Layout.strip tq))
            (MOr mp mq (new_stats (b "OR")))).
  - apply Layout.tt_or; [apply Layout.tt_and1; now apply paren_cmp|apply Layout.tt_or1, Layout.tt_and1; now apply paren_cmp].
  - exists [], (b "(" ++ xp ++ b ") OR (" ++ xq ++ b ")"), []. rewrite app_nil_r. repeat split; try constructor.
    replace (b "(" ++ xp ++ b ") OR (" ++ xq ++ b ")") with
      ((GrammarSpec.tx "(" ++ xp ++ GrammarSpec.tx ")") ++ [32] ++ GrammarSpec.tx "OR" ++ [32] ++ (GrammarSpec.tx "(" ++ xq ++ GrammarSpec.tx ")")).
    + apply Layout.lay_or; auto using ws1_space, layout_paren.
    + rewrite <- !app_assoc. reflexivity.
  - rewrite !LayoutProofs.scalars_app. repeat split; auto; now apply scalars_ascii.
  - apply checked_or; now apply LayoutProofs.checked_strip.
  - cbn. now rewrite !build_strip, Bp, Bq.
  - unfold answer in *. destruct (parse_json data) as [root|]; [|discriminate]. cbn.
    destruct (ev O mp root) as [a'|]; [|discriminate]. destruct (ev O mq root) as [c'|]; [|discriminate].
    cbn in *. injection Ap as ->. injection Aq as ->. now destruct a.
Qed.

Lemma answers_not p data a : answers O p data (Some a) -> answers O (q_not p) data (Some (negb a)).
Proof.
  intros Hp. apply answers_tokens in Hp as (tp & mp & kp & xp & Pp & Bp & Ap & Tp & Lp & Sp & -> & Cp).
  rewrite <- encode_not.
  eapply (combined_answers (Layout.TNot true (Layout.TParen kp)) _ (NNot (Layout.strip tp)) (MNot mp (new_stats (b "NOT")))).
  - apply Layout.tt_or1, Layout.tt_and1, Layout.tt_not, Layout.tt_paren, Tp.
  - exists [], (b "NOT (" ++ xp ++ b ")"), []. rewrite app_nil_r.
    refine (conj eq_refl (conj (Forall_nil _) (conj (Forall_nil _) _))).
    change (b "NOT (" ++ xp ++ b ")") with ((GrammarSpec.tx "NOT" ++ [32]) ++ (GrammarSpec.tx "(" ++ xp ++ GrammarSpec.tx ")")).
    apply Layout.lay_not; auto using ws1_space, layout_paren.
  - rewrite !LayoutProofs.scalars_app. repeat split; auto; now apply scalars_ascii.
  - apply checked_not; now apply LayoutProofs.checked_strip.
  - cbn. now rewrite !build_strip, Bp.
  - unfold answer in *. destruct (parse_json data) as [root|]; [|discriminate]. cbn.
    destruct (ev O mp root) as [a'|]; [|discriminate]. cbn in *. now injection Ap as ->.
Qed.
End WithOracles.
