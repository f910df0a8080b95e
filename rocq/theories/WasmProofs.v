(** Lemmas about the web page's functions. *)
From Verif Require Import Bytes Utf8 Utf8Proofs Oracles Ast AstSpec PegSyntax Engine EnginePositions GrammarSpec GrammarFacts ParserTop Validators ValidatorProofs Visitors VisitorProofs ParseQuery
  QueryMessages MessageSpec MessageProofs MatcherTop LiteralSpec StringProofs SimpleQuery Json JsonSpec Marshal MarshalSpec MarshalProofs Wasm WasmSpec.
From Verif Require Prop_Grammar Prop_Parser.
From Coq Require Import ZifyBool ZifyN ZifyNat.

(** ** Positions of a parsed tree lie inside the input *)
Definition pos_inside (q : bytes) (p : pos) : Prop := (0 <= p_off p /\ 0 <= p_len p /\ p_off p + p_len p <= Z.of_nat (length q))%Z.

Lemma encode_length_ge t : (length t <= length (encode t))%nat.
Proof. induction t as [|c t IH]; [cbn; lia|]. rewrite encode_cons, app_length. pose proof (encode_rune_len c). cbn [length]. lia. Qed.
Lemma pos_of_inside a k z : pos_inside (encode (a ++ k ++ z)) (pos_of a k).
Proof. unfold pos_inside, pos_of. cbn [p_off p_len]. rewrite !encode_app, !app_length. pose proof (encode_length_ge k). lia. Qed.

Section WithOracles.
Context (O : oracles).

Lemma tree_pos_inside text t o f vs p : query O text t -> subnode (NExpr o f vs p) t ->
  pos_inside (encode text) p /\ forall v, In v vs -> pos_inside (encode text) (val_pos v).
Proof.
  intros (w1 & a & w2 & -> & W1 & W2 & D) S0.
  destruct (derives_expr O _ _ _ _ _ _ _ _ D S0) as (a' & k & z & E & -> & K).
  assert (Et : w1 ++ a ++ w2 = a' ++ k ++ (z ++ w2)) by (rewrite (app_assoc w1), E; now rewrite <- !app_assoc). split.
  - rewrite Et. apply pos_of_inside.
  - intros v J. destruct (comparison_value_in O _ _ _ _ _ _ K J) as (a'' & k' & z' & E' & L).
    rewrite Et, (app_assoc a'), E', <- !app_assoc. rewrite (literal_pos O _ _ _ L). apply pos_of_inside.
Qed.

(** The errors of the checks. *)
Lemma rvals_loop_err o vs : forall seen i n k p, check_rvals_loop O o vs seen i n = CErr k p -> exists v, In v vs /\ p = val_pos v.
Proof.
  induction vs as [|v vs IH]; cbn [check_rvals_loop]; intros seen i n k p H; [discriminate|].
  destruct (existsb _ seen); [injection H as <- <-; exists v; split; [now left|reflexivity]|].
  destruct (_ && _); [injection H as <- <-; exists v; split; [now left|reflexivity]|].
  destruct (IH _ _ _ _ _ H) as (w & J & ->). exists w. split; [now right|reflexivity].
Qed.
Lemma op_checks_err e k p : op_checks O e = CErr k p -> p = x_pos e \/ exists v, In v (x_vals e) /\ p = val_pos v.
Proof.
  unfold op_checks. destruct (check_values e) as [|k' p'|] eqn:C1; [|intros [= <- <-]|discriminate].
  - destruct (check_arity e) as [|k' p'|] eqn:C2; [|intros [= <- <-]|discriminate].
    + destruct (check_rvals O e) as [|k' p'|] eqn:C3; [|intros [= <- <-]|discriminate].
      * unfold check_between. destruct (negb _); [discriminate|]. destruct (x_vals e) as [|v0 [|v1 l]]; try discriminate.
        intros H. right. exists v1. split; [right; now left|].
        destruct v0; try (match type of H with (if ?x then _ else _) = _ => destruct x end; [now injection H|discriminate]).
        destruct v1; try (now injection H). match type of H with (if ?x then _ else _) = _ => destruct x end; [now injection H|discriminate].
      * right. unfold check_rvals in C3. destruct (Nat.leb _ 1); [discriminate|]. eapply rvals_loop_err; eauto.
    + left. unfold check_arity in C2. destruct (arity _) as [mn mx]. cbn zeta in C2.
      repeat match type of C2 with (if ?x then _ else _) = _ => destruct x; try discriminate; try (now injection C2) end.
  - right. unfold check_values in C1. destruct (match x_op e with LT | LTE | GT | GTE | BET => _ | _ => _ end) as [[k0 ts]|]; [|discriminate].
    destruct (must_be_one_of ts (x_vals e)) as [i|]; [|discriminate]. unfold err_at_val in C1. destruct (nth_error (x_vals e) i) as [v|] eqn:En; [|discriminate].
    injection C1 as <- <-. exists v. split; [eapply nth_error_In; eauto|reflexivity].
Qed.
Lemma walkr_err n : forall s p k, fst (walkr (validator_visitor O) n s) = VParseErr p k ->
  exists o f vs p0, subnode (NExpr o f vs p0) n /\ (p = p0 \/ exists v, In v vs /\ p = val_pos v).
Proof.
  induction n as [l IHl r IHr|l IHl r IHr|e IH|o f vs p0]; intros [[] t] p k; cbn.
  - pose proof (walkr_validator O l (tt, t)) as Wl. specialize (IHl (tt, t) p k). destruct (walkr _ l _) as [rl sl]; cbn in *.
    destruct rl; cbn; try discriminate; try tauto.
    + destruct Wl as [-> _]. specialize (IHr (tt, t) p k). pose proof (walkr_validator O r (tt, t)) as Wr. destruct (walkr _ r _) as [rr sr]; cbn in *.
      destruct rr; cbn; try discriminate; try tauto. intros H. destruct (IHr H) as (o & f & vs & p1 & Sb & X). exists o, f, vs, p1. split; [now apply sub_and_r|exact X].
    + intros H. destruct (IHl H) as (o & f & vs & p1 & Sb & X). exists o, f, vs, p1. split; [now apply sub_and_l|exact X].
  - pose proof (walkr_validator O l (tt, t)) as Wl. specialize (IHl (tt, t) p k). destruct (walkr _ l _) as [rl sl]; cbn in *.
    destruct rl; cbn; try discriminate; try tauto.
    + destruct Wl as [-> _]. specialize (IHr (tt, t) p k). pose proof (walkr_validator O r (tt, t)) as Wr. destruct (walkr _ r _) as [rr sr]; cbn in *.
      destruct rr; cbn; try discriminate; try tauto. intros H. destruct (IHr H) as (o & f & vs & p1 & Sb & X). exists o, f, vs, p1. split; [now apply sub_or_r|exact X].
    + intros H. destruct (IHl H) as (o & f & vs & p1 & Sb & X). exists o, f, vs, p1. split; [now apply sub_or_l|exact X].
  - intros H. destruct (IH _ _ _ H) as (o & f & vs & p1 & Sb & X). exists o, f, vs, p1. split; [now apply sub_not|exact X].
  - destruct (op_checks O _) as [|k' p'|] eqn:C; cbn; try discriminate. intros [= <- <-]. apply op_checks_err in C. cbn in C. exists o, f, vs, p0. split; [apply sub_refl|exact C].
Qed.
Lemma walk_validator_err text t k p : query O text t -> walk_validator O t = CErr k p -> pos_inside (encode text) p.
Proof.
  intros Q. unfold walk_validator, walk. pose proof (walkr_validator O t (tt, empty_tape)) as W. pose proof (walkr_err t (tt, empty_tape)) as H. cbn zeta in W.
  destruct (walkr _ t _) as [r s]; cbn in *. destruct r; cbn; try discriminate; try tauto. intros [= <- <-].
  destruct (H _ _ eq_refl) as (o & f & vs & p9 & Sb & X). destruct (tree_pos_inside _ _ _ _ _ _ Q Sb) as (P1 & P2). destruct X as [->|(v & J & ->)]; auto.
Qed.

(** ** A rejected input *)
Lemma err_convert_cases e q :
  (exists l, pe_kind e = KNoMatch l /\ w_start (err_convert (QSyntax e) q) = (Z.of_nat (length q) - 1)%Z /\ w_end (err_convert (QSyntax e) q) = Z.of_nat (length q) /\ w_text (err_convert (QSyntax e) q) = WIncomplete) \/
  ((forall l, pe_kind e <> KNoMatch l) /\ w_start (err_convert (QSyntax e) q) = PegSyntax.off (pe_pos e) /\ w_end (err_convert (QSyntax e) q) = (PegSyntax.off (pe_pos e) + err_len (pe_kind e))%Z /\
   w_text (err_convert (QSyntax e) q) = WError (QSyntax e)).
Proof.
  destruct e as [k p]. destruct k as [|l| | | | | | | | | | | | | |]; try (right; repeat split; discriminate). left. exists l. cbn. repeat split. lia.
Qed.
Lemma Forall2_in_r {A B} (R : A -> B -> Prop) l l' : Forall2 R l l' -> forall y, In y l' -> exists x, In x l /\ R x y.
Proof. induction 1 as [|x y l l' H F IH]; intros z []; [subst; exists x; split; [now left|exact H]|]. destruct (IH _ H0) as (x' & I & Hx). exists x'. split; [now right|exact Hx]. Qed.

Lemma rejected q : (forall t, parse_plain O q <> QOk t) ->
  (exists e es, parse O q = PErr e es /\ p_wrap O q = WebRes [] [err_convert (QSyntax e) q]) \/
  (exists k p, pos_inside q p /\ p_wrap O q = WebRes [] [err_convert (QInvalid k p) q]).
Proof.
  intros R. unfold p_wrap, parse_query. pose proof (parse_spec O q) as P. unfold parse_plain, parse_query in R.
  destruct (parse O q) as [v|e es|]; [| |contradiction].
  - destruct P as (rs & x & Hs & -> & -> & Q). pose proof (walk_validator_no_panic O x) as NP.
    destruct (walk_validator O x) as [|k p|] eqn:W; [exfalso; apply (R x); reflexivity| |congruence]. right. exists k, p. split; [|reflexivity]. eapply walk_validator_err; eauto.
  - left. exists e, es. split; reflexivity.
Qed.
(** ** The web page's messages *)
Definition web_node_msgs (n : node) : list (message hint) :=
  match n with NExpr o f vs p => flat_map (fun v => fst (web_value_messages O o f p v)) vs | _ => [] end.
Definition regex_ok (v : aval) : Prop := match v with ARegex pat _ _ => o_re_parse O pat <> None | _ => True end.
Lemma web_values_ok o f p vs : (forall v, In v vs -> regex_ok v) ->
  web_values_messages O o f p vs = (flat_map (fun v => fst (web_value_messages O o f p v)) vs, true).
Proof.
  induction vs as [|v vs IH]; intros H; [reflexivity|]. cbn [web_values_messages flat_map].
  assert (snd (web_value_messages O o f p v) = true) as E.
  { specialize (H v (or_introl eq_refl)). destruct v; try reflexivity. cbn in *. destruct (o_re_parse O pat) as [r|]; [|congruence]. now destruct (strip_group _ r). }
  destruct (web_value_messages O o f p v) as [ms ok]. cbn in E. subst ok. cbn [fst].
  rewrite IH by (intros w I; apply H; now right). reflexivity.
Qed.
Lemma accepted_regex q t o f vs p : parse_plain O q = QOk t -> subnode (NExpr o f vs p) t -> forall v, In v vs -> regex_ok v.
Proof.
  intros P S0 v J. destruct (accepted_literal O _ _ _ _ _ _ _ P S0 J) as (own & L). destruct v; try exact I. cbn. eapply literal_regex, L.
Qed.
Lemma walkr_web n : (forall o f vs p, subnode (NExpr o f vs p) n -> forall v, In v vs -> regex_ok v) -> forall t,
  walkr (web_visitor O) n (tt, t) = (VNone, (tt, fold_left add_msg (flat_map web_node_msgs (preorder n)) t)).
Proof.
  induction n as [l IHl r IHr|l IHl r IHr|e IHe|o f vs p]; intros H t; cbn [walkr visit web_visitor fst snd fold_left].
  - rewrite IHl by (intros o f vs p Sb; eapply H, sub_and_l, Sb). rewrite IHr by (intros o f vs p Sb; eapply H, sub_and_r, Sb).
    cbn [preorder flat_map web_node_msgs app]. rewrite flat_map_app, fold_left_app. reflexivity.
  - rewrite IHl by (intros o f vs p Sb; eapply H, sub_or_l, Sb). rewrite IHr by (intros o f vs p Sb; eapply H, sub_or_r, Sb).
    cbn [preorder flat_map web_node_msgs app]. rewrite flat_map_app, fold_left_app. reflexivity.
  - rewrite IHe by (intros o f vs p Sb; eapply H, sub_not, Sb). reflexivity.
  - cbn [preorder flat_map web_node_msgs]. rewrite web_values_ok by (apply (H o f vs p), sub_refl). cbn [fst]. now rewrite app_nil_r.
Qed.
Lemma accepted_web q t : parse_plain O q = QOk t ->
  p_wrap O q = match marshal_indent (tree_of_node t) with
               | Some text => WebRes text (map msg_convert (flat_map web_node_msgs (preorder t)))
               | None => WebDeep
               end.
Proof.
  intros P. unfold p_wrap. pose proof (parse_query_plain O [(web_visitor O, empty_tape)] q tt) as H. rewrite P in H. rewrite H. cbn [run_visitors]. unfold walk.
  rewrite (walkr_web t (fun o f vs p Sb => accepted_regex q t o f vs p P Sb)).
  rewrite fold_add_none by reflexivity. unfold web_visitor. cbn [concat map]. destruct (marshal_indent (tree_of_node t)); [|reflexivity]. rewrite app_nil_r. do 2 f_equal. apply fold_add_messages.
Qed.

(** The messages for a value, compared with those of the matcher. *)
Definition retag (np : pos) (m : message hint) : message hint :=
  match m_text m with HSimRegex => {| m_type := m_type m; m_pos := np; m_text := m_text m |} | _ => m end.
Lemma retag_id np ms : Forall (fun m => m_text m <> HSimRegex) ms -> map (retag np) ms = ms.
Proof. induction 1 as [|m ms Hm _ IH]; [reflexivity|]. cbn. rewrite IH. f_equal. unfold retag. destruct (m_text m); congruence. Qed.
Lemma when_text c m : m_text m <> HSimRegex -> Forall (fun m => m_text m <> HSimRegex) (when c m).
Proof. intros H. destruct c; cbn; repeat constructor. exact H. Qed.
Lemma web_regex o f np pat s p : web_value_messages O o f np (ARegex pat s p) =
  (map (retag np) (fst (value_messages O o f (ARegex pat s p))), snd (value_messages O o f (ARegex pat s p))).
Proof.
  cbn [web_value_messages value_messages val_pos val_string]. destruct (o_re_parse O pat) as [r|].
  - destruct (strip_group p r) as [m4 r'] eqn:Es. cbn [fst snd]. f_equal. rewrite !map_app. f_equal; [now destruct (op_eqb o SIM)|]. symmetry.
    rewrite !retag_id; [reflexivity| | | |].
    + destruct r' as [k sub]. cbn [tree_messages]. apply Forall_app. split; [apply when_text; discriminate|].
      destruct (Nat.leb 2 _); [|constructor]. apply Forall_app. split; [apply when_text; discriminate|]. destruct (Nat.leb 3 _); [apply when_text; discriminate|constructor].
    + destruct r as [[] [|x []]]; cbn in Es; injection Es as <- <-; repeat constructor. discriminate.
    + apply when_text. discriminate.
    + apply when_text. discriminate.
  - cbn [fst snd]. f_equal. rewrite !map_app. f_equal; [now destruct (op_eqb o SIM)|]. symmetry. rewrite !retag_id; [reflexivity| |]; apply when_text; discriminate.
Qed.

Lemma retag_text np m : m_text (retag np m) = m_text m.
Proof. unfold retag. destruct (m_text m) eqn:E; cbn; congruence. Qed.
Lemma retag_type np m : m_type (retag np m) = m_type m.
Proof. unfold retag. now destruct (m_text m). Qed.
Lemma value_web o f np v : regex_ok v -> web_messages_for O (o, f, v, np) (fst (web_value_messages O o f np v)).
Proof.
  intros Ok. assert (Nil : forall v, (forall k h, ~ web_gives O o f v k h) -> web_messages_for O (o, f, v, np) []).
  { intros w Nw. split; [intros m []|]. split; [|constructor]. intros k h. split; [intros (m & [] & _)|intros G; now apply Nw in G]. }
  destruct v as [z s p|x s p|s p|x p|pat s p|n s p|t d s p]; try (apply Nil; intros k h G; cbn in G; try contradiction; inversion G; fail).
  - rewrite web_regex. cbn [fst]. destruct (value_messages_block O o f (ARegex pat s p)) as (B1 & _ & B3).
    pose proof (fun k h => value_messages_gives O o f (ARegex pat s p) k h Ok) as G.
    set (ms := fst (value_messages O o f (ARegex pat s p))) in *. split; [|split].
    + intros m I. apply in_map_iff in I as (m' & <- & I). rewrite retag_text. apply B1 in I. unfold retag. destruct (m_text m'); cbn; auto.
    + intros k h. cbn [web_gives]. rewrite <- G. split.
      * intros (m & I & E1 & E2). apply in_map_iff in I as (m' & <- & I). rewrite retag_text in E2. rewrite retag_type in E1. eauto.
      * intros (m & I & E1 & E2). exists (retag np m). rewrite retag_text, retag_type. split; [now apply in_map|]. now split.
    + clear -B3. induction B3 as [|m ms B3 IH F]; cbn; constructor; auto. rewrite Forall_map. eapply Forall_impl; [|exact F]. intros m'. now rewrite !retag_text.
  - cbn [web_value_messages fst]. split; [|split].
    + intros m I. apply when_in in I as (_ & ->). reflexivity.
    + intros k h. setoid_rewrite when_in. cbn [web_gives]. split.
      * intros (m & (E & ->) & <- & <-). split; [now destruct o|]. now split.
      * intros (-> & -> & ->). eexists. repeat split.
    + destruct (op_eqb o EQ); repeat constructor.
Qed.

Lemma web_blocks t : (forall o f vs p, subnode (NExpr o f vs p) t -> forall v, In v vs -> regex_ok v) ->
  exists blocks, flat_map web_node_msgs (preorder t) = concat blocks /\ Forall2 (web_messages_for O) (placed_values t) blocks.
Proof.
  assert (Ap : forall l r, (exists bl, flat_map web_node_msgs (preorder l) = concat bl /\ Forall2 (web_messages_for O) (placed_values l) bl) ->
    (exists bl, flat_map web_node_msgs (preorder r) = concat bl /\ Forall2 (web_messages_for O) (placed_values r) bl) ->
    exists bl, flat_map web_node_msgs (preorder l ++ preorder r) = concat bl /\ Forall2 (web_messages_for O) (placed_values l ++ placed_values r) bl).
  { intros l r (bl & E1 & F1) (br & E2 & F2). exists (bl ++ br). split; [|now apply Forall2_app]. rewrite flat_map_app, concat_app. congruence. }
  induction t as [l IHl r IHr|l IHl r IHr|e IHe|o f vs p]; intros H; cbn [preorder flat_map web_node_msgs placed_values].
  - apply Ap; [apply IHl|apply IHr]; intros o f vs p Sb; eapply H; [apply sub_and_l|apply sub_and_r]; exact Sb.
  - apply Ap; [apply IHl|apply IHr]; intros o f vs p Sb; eapply H; [apply sub_or_l|apply sub_or_r]; exact Sb.
  - apply IHe. intros o f vs p Sb. eapply H, sub_not, Sb.
  - specialize (H _ _ _ _ (sub_refl _)). exists (map (fun v => fst (web_value_messages O o f p v)) vs). rewrite app_nil_r. split; [apply flat_map_concat_map|].
    clear -H. induction vs as [|v vs IH]; cbn [map]; constructor; [apply value_web, H; now left|]. apply IH. intros; apply H; now right.
Qed.
Lemma placed_in t : forall o f v p, In (o, f, v, p) (placed_values t) -> exists vs, subnode (NExpr o f vs p) t /\ In v vs.
Proof.
  induction t as [l IHl r IHr|l IHl r IHr|e IHe|o f vs p]; intros o' f' v' p' I; cbn [placed_values] in I.
  - apply in_app_iff in I as [I|I]; [destruct (IHl _ _ _ _ I) as (vs & Sb & J)|destruct (IHr _ _ _ _ I) as (vs & Sb & J)]; exists vs; split; auto; [now apply sub_and_l|now apply sub_and_r].
  - apply in_app_iff in I as [I|I]; [destruct (IHl _ _ _ _ I) as (vs & Sb & J)|destruct (IHr _ _ _ _ I) as (vs & Sb & J)]; exists vs; split; auto; [now apply sub_or_l|now apply sub_or_r].
  - destruct (IHe _ _ _ _ I) as (vs & Sb & J). exists vs. split; [now apply sub_not|exact J].
  - apply in_map_iff in I as (v & [= <- <- <- <-] & J). exists vs. split; [apply sub_refl|exact J].
Qed.

(** ** What the tree on the page tells *)
Lemma op_text_inj o o' : op_text o = op_text o' -> o = o'.
Proof. destruct o, o'; try reflexivity; discriminate. Qed.
Lemma map_tstr_inj f : forall f', map TStr f = map TStr f' -> f = f'.
Proof. induction f as [|x f IH]; intros [|y f'] E; try discriminate; [reflexivity|]. injection E as -> E. f_equal. auto. Qed.
Lemma tree_alike t : forall u, tree_of_node t = tree_of_node u <-> alike t u.
Proof.
  induction t as [l IHl r IHr|l IHl r IHr|e IHe|o f vs p]; intros [l' r'|l' r'|e'|o' f' vs' p']; cbn [tree_of_node alike];
    try (split; [discriminate|intros []]; fail); try (rewrite <- IHl, <- IHr; split; [intros [= E1 E2]; auto|intros [-> ->]; reflexivity]; fail).
  - rewrite <- IHe. split; [intros [= E]; auto|intros ->; reflexivity].
  - split.
    + intros [= E1 E2 E3 E4 E5 E6 E7]. split; [now apply op_text_inj|]. split; [now apply map_tstr_inj|]. split.
      * destruct vs as [|v vs], vs' as [|v' vs']; try discriminate E3; [reflexivity|]. injection E3 as E3. apply (f_equal (@length jtree)) in E3. rewrite !map_length in E3. cbn. congruence.
      * destruct p, p'; cbn in *; congruence.
    + intros (-> & -> & E & ->). repeat f_equal. destruct vs as [|v vs], vs' as [|v' vs']; try discriminate E; [reflexivity|]. f_equal. injection E as E. cbn. f_equal.
      clear -E. revert vs' E. induction vs as [|x vs IH]; intros [|y vs'] E; try discriminate E; [reflexivity|]. cbn. f_equal. apply IH. now injection E.
Qed.

(** ** Texts in the tree are UTF-8 *)
Lemma string_scalars t u : denotes_string t u -> scalars t -> scalars u.
Proof.
  induction 1; intros Sc; try (constructor; [reflexivity|apply IHdenotes_string; apply Forall_app in Sc; tauto]).
  - constructor.
  - inversion Sc; subst. constructor; [assumption|now apply IHdenotes_string].
  - constructor; [now apply uni_scalar|]. apply IHdenotes_string. apply Forall_app in Sc as [_ Sc]. apply Forall_app in Sc. tauto.
Qed.
Lemma piece_utf8 t s : piece t s -> scalars t -> is_utf8 s.
Proof.
  intros [t' s' Q U|t' F Ne|] Sc.
  - apply (proj1 (unquote_spec t' Q Sc s')) in U as (body & u & -> & D & ->). exists u. split; [|reflexivity]. eapply string_scalars; [exact D|]. inversion Sc; subst. match goal with H : Forall _ (body ++ _) |- _ => now apply Forall_app in H as [H _] end.
  - exists t'. now split.
  - exists (tx "*"). split; [repeat constructor|reflexivity].
Qed.
Lemma pieces_utf8 t l : pieces t l -> scalars t -> Forall is_utf8 l.
Proof.
  induction 1 as [t s P|t s u l P _ IH]; intros Sc; [constructor; [eapply piece_utf8; eauto|constructor]|].
  apply Forall_app in Sc as [S1 S2]. apply Forall_app in S2 as [_ S2]. constructor; [eapply piece_utf8; eauto|auto].
Qed.
Lemma field_utf8 t l : field t l -> scalars t -> Forall is_utf8 l.
Proof.
  intros (l0 & P & ->) Sc. apply Forall_forall. intros x I. apply filter_In in I as [I _]. pose proof (pieces_utf8 _ _ P Sc) as F. rewrite Forall_forall in F. auto.
Qed.
Lemma derives_fields l pre t x : derives O l pre t x -> scalars t -> forall o f vs p, subnode (NExpr o f vs p) x -> Forall is_utf8 f.
Proof.
  assert (A : forall x y : text, scalars (x ++ y) -> scalars x /\ scalars y) by (intros u v H; now apply Forall_app in H).
  intros D; induction D as [pre a w1 w2 c x y W1 W2 Dx IHx Dy IHy|pre a x Dx IHx|pre a w1 w2 c x y W1 W2 Dx IHx Dy IHy|pre a x Dx IHx|pre n a x Nn Dx IHx|pre a x Dx IHx|pre w1 w2 a x W1 W2 Dx IHx|pre f l w1 w2 k o F W1 W2 K t|pre f l w1 w2 k o w3 v vs F W1 W2 K W3 V t];
    intros Sc o' f' vs' p' Sb; try (apply A in Sc as [Sa Sc]).
  - apply A in Sc as [_ Sc]. apply A in Sc as [_ Sc]. apply A in Sc as [_ Sc]. inversion Sb; subst; eauto.
  - eauto.
  - apply A in Sc as [_ Sc]. apply A in Sc as [_ Sc]. apply A in Sc as [_ Sc]. inversion Sb; subst; eauto.
  - eauto.
  - inversion Sb; subst; eauto.
  - eauto.
  - apply A in Sc as [_ Sc]. apply A in Sc as [Sc _]. eauto.
  - inversion Sb; subst. eapply field_utf8; eauto.
  - inversion Sb; subst. eapply field_utf8; eauto.
Qed.
Lemma ascii_utf8 s : Forall (fun c => c < 128) s -> is_utf8 s.
Proof. intros F. exists s. split; [now apply ascii_scalars|symmetry; now apply encode_ascii]. Qed.
Lemma tree_utf8 t : (forall o f vs p, subnode (NExpr o f vs p) t -> Forall is_utf8 f) -> utf8_tree (tree_of_node t).
Proof.
  assert (Nm : forall s, Forall (fun c => c < 128) (b s) -> is_utf8 (b s)) by (intros; now apply ascii_utf8).
  induction t as [l IHl r IHr|l IHl r IHr|e IHe|o f vs p]; intros H; cbn [tree_of_node].
  - apply ut_obj. constructor; [split; [apply Nm; repeat constructor|apply IHl; intros; eapply H, sub_and_l; eauto]|].
    constructor; [split; [apply Nm; repeat constructor|apply IHr; intros; eapply H, sub_and_r; eauto]|constructor].
  - apply ut_obj. constructor; [split; [apply Nm; repeat constructor|apply IHl; intros; eapply H, sub_or_l; eauto]|].
    constructor; [split; [apply Nm; repeat constructor|apply IHr; intros; eapply H, sub_or_r; eauto]|constructor].
  - apply ut_obj. constructor; [split; [apply Nm; repeat constructor|apply IHe; intros; eapply H, sub_not; eauto]|constructor].
  - apply ut_obj. repeat constructor; cbn [fst snd]; try (apply Nm; repeat constructor; fail).
    + apply ascii_utf8. destruct o; repeat constructor.
    + rewrite Forall_map. eapply Forall_impl; [|exact (H _ _ _ _ (sub_refl _))]. intros s U. now constructor.
    + destruct vs as [|v vs]; [constructor|]. constructor. rewrite Forall_map. apply Forall_forall. intros ? _. repeat constructor.
Qed.
Lemma accepted_utf8 q t : parse_plain O q = QOk t -> utf8_tree (tree_of_node t).
Proof.
  intros P. apply Prop_Grammar.C03_language in P as (text & Sc & -> & (w1 & a & w2 & -> & W1 & W2 & D) & _).
  apply tree_utf8. eapply derives_fields; [exact D|]. apply Forall_app in Sc as [_ Sc]. now apply Forall_app in Sc as [Sc _].
Qed.

(** ** Deep trees *)
Fixpoint chain (n : nat) : text := match n with 0%nat => tx "a:exists" | S m => tx "a:exists AND " ++ chain m end.
Lemma chain_scalars n : scalars (chain n).
Proof. induction n as [|n IH]; [repeat constructor|]. cbn [chain]. apply Forall_app. split; [repeat constructor|exact IH]. Qed.
Lemma chain_derives n : forall pre, exists x, derives O LAnd pre (chain n) x /\ checked O x /\ levels (tree_of_node x) = (n + 2)%nat.
Proof.
  assert (E : forall pre, derives O LNot pre (tx "a:exists") (NExpr EXS [b "a"] [] (pos_of pre (tx "a:exists")))).
  { intros pre. apply d_not1. change (tx "a:exists") with (tx "a" ++ [] ++ tx ":" ++ [] ++ tx "exists"). apply d_noarg; [apply field_a|constructor|constructor|constructor]. }
  induction n as [|n IH]; intros pre; cbn [chain].
  - eexists. split; [apply d_and1, E|]. split; [apply checked_exs|reflexivity].
  - destruct (IH (pre ++ tx "a:exists" ++ [32] ++ tx "AND" ++ [32])) as (x & D & C & L). eexists.
    change (tx "a:exists AND " ++ chain n) with (tx "a:exists" ++ [32] ++ tx "AND" ++ [32] ++ chain n). split.
    + apply d_and; [split; [repeat constructor|discriminate]|split; [repeat constructor|discriminate]|apply E|exact D].
    + split.
      * intros o f vs p Sb. inversion Sb; subst; [|eapply C; eauto]. eapply checked_exs; eauto.
      * match goal with |- ?l = _ => change l with (S (Nat.max 2 (Nat.max (levels (tree_of_node x)) 0))) end. rewrite L. lia.
Qed.
Lemma chain_accepted n : exists t, parse_plain O (encode (chain n)) = QOk t /\ levels (tree_of_node t) = (n + 2)%nat.
Proof.
  destruct (chain_derives n []) as (x & D & C & L). exists x. split; [|exact L]. apply Prop_Grammar.C03_language. exists (chain n).
  split; [apply chain_scalars|]. split; [reflexivity|]. split; [|exact C]. exists [], (chain n), []. rewrite app_nil_r. split; [reflexivity|].
  split; [constructor|]. split; [constructor|]. now apply d_or1.
Qed.
End WithOracles.
