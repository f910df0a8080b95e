(** C126-C128: the script of the web page. *)
From Verif Require Import Bytes Utf8 Utf8Proofs GoStrconv Oracles Ast AstSpec PegSyntax Engine Validators Visitors ParseQuery ParserTop QueryMessages MessageSpec
  Marshal MarshalSpec MarshalProofs Wasm WasmSpec WasmProofs Texts GrammarSpec FaultSpec Page PageSpec PageProofs TestOracle.
From Verif Require Prop_Grammar Prop_Fault Prop_Wasm Prop_Marshal.
From Coq Require Import ZifyBool ZifyN ZifyNat.

Lemma go_string_nil us : us <> [] -> go_string us <> [].
Proof.
  destruct us as [|u us]; [easy|]. intros _ E. unfold go_string in E.
  assert (H : exists c r, points (u :: us) = c :: r).
  { cbn [points]. destruct (_ || _); [eauto|]. destruct us as [|v us]; [eauto|]. destruct (_ && _); eauto. }
  destruct H as (c & r & H). rewrite H, encode_cons in E. destruct (RegexLitProofs.encode_rune_split c) as (x & y & Ex). rewrite Ex in E. discriminate.
Qed.
Lemma update_cons O T us : us <> [] -> aql_update O T us =
    match p_wrap O (go_string us) with
    | WebRes ast [] => Some {| sc_output := ast; sc_shown := false; sc_html := []; sc_marks := [] |}
    | WebRes _ ms =>
      let ps := map (page_of O T) ms in
      Some {| sc_output := []; sc_shown := true; sc_html := map (fun p => new_msg (pg_type p) (pg_msg p)) ps;
              sc_marks := map (fun p => (pg_start p, pg_end p)) ps |}
    | WebDeep =>
      Some {| sc_output := []; sc_shown := true; sc_html := [new_msg (b "undefined") (b "marshal error: exceeded max depth")]; sc_marks := [] |}
    | WebPanic | WebFuel => None
    end.
Proof. now destruct us. Qed.

(** ** C126: what is shown *)
Section P.
Context (O : oracles) (T : texts).
(** A refused query: one error with its mark, no tree. *)
Theorem C126_refused us : us <> [] -> (forall t, parse_plain O (go_string us) <> QOk t) ->
  exists msg mark, aql_update O T us = Some {| sc_output := []; sc_shown := true; sc_html := [new_msg (b "error") msg]; sc_marks := [mark] |}.
Proof.
  intros Ne R. rewrite (update_cons O T us Ne). destruct (refused_web O _ R) as [(e & P & W)|(k & p & P & W)]; rewrite W; cbn [map]; cbv zeta; do 2 eexists; [|reflexivity].
  replace (pg_type (page_of O T (err_convert (QSyntax e) (go_string us)))) with (b "error"); [reflexivity|].
  unfold page_of, pg_type. destruct e as [k p]. destruct k; reflexivity.
Qed.
(** An accepted query whose tree can be written: the tree, unless there is something to say about
    one of its values. *)
Theorem C126_accepted us t : us <> [] -> parse_plain O (go_string us) = QOk t -> (levels (tree_of_node t) <= N.to_nat 10000)%nat ->
  exists p, aql_update O T us = Some p /\
    (sc_output p <> [] <-> forall o f v np k h, In (o, f, v, np) (placed_values t) -> ~ web_gives O o f v k h) /\
    (sc_output p <> [] -> marshal_indent (tree_of_node t) = Some (sc_output p) /\ sc_shown p = false /\ sc_html p = [] /\ sc_marks p = []) /\
    (sc_output p = [] -> sc_shown p = true /\ sc_html p <> [] /\
       forall x, In x (sc_html p) -> exists ty msg, x = new_msg ty msg /\ (ty = b "hint" \/ ty = b "warning")).
Proof.
  intros Ne P Lv. rewrite (update_cons O T us Ne). destruct (Prop_Wasm.shallow_text _ Lv) as (text & E0 & Nt).
  rewrite (accepted_web O _ t P), E0.
  destruct (web_blocks O t (fun o f vs p Sb => accepted_regex O _ t o f vs p P Sb)) as (bl & E & F). rewrite E.
  assert (Em : concat bl = [] <-> forall o f v np k h, In (o, f, v, np) (placed_values t) -> ~ web_gives O o f v k h).
  { split.
    - intros Eb o f v np k h Iv G.
      assert (X : forall l l', Forall2 (web_messages_for O) l l' -> In (o, f, v, np) l -> exists ms, In ms l' /\ web_messages_for O (o, f, v, np) ms).
      { induction 1 as [|x y l l' Hx _ IH]; intros Hi; [destruct Hi|]. destruct Hi as [Hi|Hi]; [subst; exists y; split; [now left|exact Hx]|]. destruct (IH Hi) as (ms & Im & Hm). exists ms. split; [now right|exact Hm]. }
      destruct (X _ _ F Iv) as (ms & Im & (_ & M2 & _)). apply M2 in G as (m & Ix & _).
      assert (Ic : In m (concat bl)) by (apply in_concat; eauto). rewrite Eb in Ic. destruct Ic.
    - intros H. destruct (concat bl) as [|m r] eqn:Ec; [reflexivity|]. exfalso. assert (Ic : In m (concat bl)) by (rewrite Ec; now left).
      apply in_concat in Ic as (ms & Ib & Im). destruct (Forall2_in_r _ _ _ F _ Ib) as ([[[o f] v] np] & Iv & (_ & M2 & _)).
      apply (H o f v np (m_type m) (m_text m) Iv). apply M2. eauto. }
  destruct (concat bl) as [|m r] eqn:Ec; cbn [map].
  - eexists. split; [reflexivity|]. cbn [sc_output sc_shown sc_html sc_marks]. split; [split; [intros _; now apply Em|intros _; exact Nt]|]. split; [auto|]. intros X. now destruct Nt.
  - cbv zeta. eexists. split; [reflexivity|]. cbn [sc_output sc_shown sc_html sc_marks map]. split.
    { split; [now intros []|]. intros H. apply Em in H. discriminate. }
    split; [now intros []|]. intros _. split; [reflexivity|]. split; [discriminate|].
    intros x I0. change (In x (map (fun p => new_msg (pg_type p) (pg_msg p)) (map (page_of O T) (map msg_convert (m :: r))))) in I0.
    rewrite !map_map in I0. apply in_map_iff in I0 as (m0 & <- & I0). do 2 eexists. split; [reflexivity|]. cbn [page_of pg_type msg_convert w_kind].
    rewrite <- Ec in I0. apply in_concat in I0 as (ms & Ib & Im). destruct (Forall2_in_r _ _ _ F _ Ib) as ([[[o f] v] np] & Iv & (_ & M2 & _)).
    assert (G : web_gives O o f v (m_type m0) (m_text m0)) by (apply M2; eauto).
    destruct v; cbn in G; try contradiction; try (inversion G; cbn; auto; fail). destruct G as (_ & -> & _). now right.
Qed.
(** So an error is shown exactly for the queries that are refused. *)
Corollary C126_error us t : us <> [] -> parse_plain O (go_string us) = QOk t -> (levels (tree_of_node t) <= N.to_nat 10000)%nat ->
  forall p msg, aql_update O T us = Some p -> ~ In (new_msg (b "error") msg) (sc_html p).
Proof.
  intros Ne P Lv p msg E I0. destruct (C126_accepted us t Ne P Lv) as (p' & E' & _ & H1 & H2). rewrite E in E'. injection E' as <-.
  destruct (sc_output p) as [|c r] eqn:Eo.
  - destruct (H2 eq_refl) as (_ & _ & H). destruct (H _ I0) as (ty & m & Ex & [-> | ->]); vm_compute in Ex; congruence.
  - destruct H1 as (_ & _ & H & _); [discriminate|]. rewrite H in I0. destruct I0.
Qed.
(** Without a query nothing is shown. *)
Theorem C126_empty : aql_update O T [] = Some {| sc_output := b " "; sc_shown := false; sc_html := []; sc_marks := [] |}.
Proof. reflexivity. Qed.
(** A tree that is nested too deeply: a message of no kind. *)
Theorem C126_deep us t : parse_plain O (go_string us) = QOk t -> (N.to_nat 10000 < levels (tree_of_node t))%nat ->
  aql_update O T us = Some {| sc_output := []; sc_shown := true; sc_html := [new_msg (b "undefined") (b "marshal error: exceeded max depth")]; sc_marks := [] |}.
Proof.
  intros P Lv. assert (Ne : us <> []) by (intros ->; vm_compute in P; discriminate). rewrite (update_cons O T us Ne), (accepted_web O _ t P).
  apply Prop_Marshal.C97_depth in Lv. now rewrite Lv.
Qed.
End P.
Print Assumptions C126_refused.
Print Assumptions C126_accepted.
Print Assumptions C126_error.
Print Assumptions C126_deep.

(** Not every accepted query has its tree shown. *)
Theorem C126_tree_refuted : exists us, forall O T, exists t p, parse_plain O (go_string us) = QOk t /\ (levels (tree_of_node t) <= N.to_nat 10000)%nat /\
  aql_update O T us = Some p /\ sc_output p = [].
Proof.
  exists (b "a:2020-01-01"). intros O T. do 2 eexists. split; [vm_compute; reflexivity|]. split; [apply Prop_Wasm.small; vm_compute; reflexivity|]. split; [vm_compute; reflexivity|reflexivity].
Qed.
Print Assumptions C126_tree_refuted.

(** A chain of comparisons that is too long for its tree to be written *)
Fixpoint chain (n : nat) : list N := match n with 0%nat => tx "a:exists" | S n' => tx "a:exists" ++ tx " " ++ tx "AND" ++ tx " " ++ chain n' end.
Lemma chain_ascii n : Forall (fun c => c < 128) (chain n).
Proof.
  assert (L : forall s, forallb (fun c => c <? 128) s = true -> Forall (fun c => c < 128) s) by (intros s H; apply Forall_forall; intros c I0; rewrite forallb_forall in H; apply H in I0; lia).
  induction n as [|n IH]; [apply L; reflexivity|]. cbn [chain]. rewrite !Forall_app. split; [now apply L|]. split; [now apply L|]. split; [now apply L|]. split; [now apply L|exact IH].
Qed.
Lemma points_ascii x y : Forall (fun c => c < 128) x -> points (x ++ y) = x ++ points y.
Proof.
  induction 1 as [|c x Hc _ IH]; [reflexivity|]. cbn [app points]. replace ((c <? 55296) || (57343 <? c)) with true by lia. now rewrite IH.
Qed.
Lemma encode_ascii' x : Forall (fun c => c < 128) x -> encode x = x.
Proof. induction 1 as [|c x Hc _ IH]; [reflexivity|]. rewrite encode_cons, encode_rune_ascii by exact Hc. cbn. now rewrite IH. Qed.
Lemma go_ascii x y : Forall (fun c => c < 128) x -> go_string (x ++ y) = x ++ go_string y.
Proof. intros A. unfold go_string. rewrite points_ascii by exact A. rewrite encode_app, encode_ascii' by exact A. reflexivity. Qed.
Lemma chain_derives O n : forall pre, exists t, derives O LAnd pre (chain n) t /\ (n < levels (tree_of_node t))%nat /\
  forall o f vs p, subnode (NExpr o f vs p) t -> o = EXS /\ vs = [].
Proof.
  assert (A : forall pre, exists p, derives O LNot pre (tx "a:exists") (NExpr EXS [b "a"] [] p)).
  { intros pre. eexists. apply d_not1. apply (d_noarg O pre (tx "a") [b "a"] [] [] (tx "exists") EXS).
    - exists [b "a"]. split; [|reflexivity]. apply pcs_one. apply (pc_plain (tx "a")); [|discriminate]. constructor; [|constructor]. vm_compute. intuition (try discriminate; auto).
    - constructor.
    - constructor.
    - constructor. }
  induction n as [|n IH]; intros pre.
  - destruct (A pre) as (p & D). eexists. split; [apply d_and1; exact D|]. split; [cbn; lia|]. intros o f vs p' S. inversion S; subst. auto.
  - destruct (A pre) as (p & D). destruct (IH (pre ++ tx "a:exists" ++ tx " " ++ tx "AND" ++ tx " ")) as (t & Dt & Lt & St). eexists. split; [|split].
    + cbn [chain]. apply d_and; [| |exact D|exact Dt]; vm_compute; intuition (try discriminate; auto).
    + cbn [tree_of_node levels fold_right snd]. lia.
    + intros o f vs p' S. inversion S as [| | | | |]; subst; [|eauto].
      match goal with H : subnode _ (NExpr _ _ _ _) |- _ => inversion H; subst end. auto.
Qed.
Theorem C126_kind_refuted : exists us, forall O T, exists t p, parse_plain O (go_string us) = QOk t /\
  aql_update O T us = Some p /\ sc_html p = [new_msg (b "undefined") (b "marshal error: exceeded max depth")].
Proof.
  exists (chain (N.to_nat 10000)). intros O T. destruct (chain_derives O (N.to_nat 10000) []) as (t & D & Lt & St).
  assert (P : parse_plain O (go_string (chain (N.to_nat 10000))) = QOk t).
  { pose proof (chain_ascii (N.to_nat 10000)) as A. assert (G : go_string (chain (N.to_nat 10000)) = chain (N.to_nat 10000)).
    { rewrite <- (app_nil_r (chain (N.to_nat 10000))) at 1. rewrite (go_ascii _ [] A). apply app_nil_r. }
    rewrite G. apply Prop_Grammar.C03_language.
    exists (chain (N.to_nat 10000)). split; [|split; [symmetry; now apply encode_ascii'|split]].
    - revert A. apply Forall_impl. intros c Hc. unfold is_scalar. lia.
    - exists [], (chain (N.to_nat 10000)), []. split; [now rewrite app_nil_r|]. split; [constructor|]. split; [constructor|]. apply d_or1. exact D.
    - intros o f vs p S. destruct (St o f vs p S) as [-> ->].
      assert (X : op_checks O {| x_op := EXS; x_field := f; x_vals := []; x_pos := p |} = COk) by (vm_compute; reflexivity). apply ValidatorProofs.op_checks_ok in X. exact X. }
  pose proof (C126_deep O T _ t P Lt) as Dp. do 2 eexists. split; [exact P|]. split; [exact Dp|]. reflexivity.
Qed.
Print Assumptions C126_kind_refuted.

(** A tree; a refusal. *)
Example C126_example T : exists t p, parse_plain test_oracle (go_string (b "a:1")) = QOk t /\ (levels (tree_of_node t) <= N.to_nat 10000)%nat /\
  aql_update test_oracle T (b "a:1") = Some p /\ sc_output p <> [].
Proof. do 2 eexists. split; [vm_compute; reflexivity|]. split; [apply Prop_Wasm.small; vm_compute; reflexivity|]. split; [vm_compute; reflexivity|discriminate]. Qed.
Example C126_refused_example T : (forall t, parse_plain test_oracle (go_string (b "a:x")) <> QOk t) /\
  aql_update test_oracle T (b "a:x") = Some {| sc_output := []; sc_shown := true;
    sc_html := [new_msg (b "error") (b "unknown type of value [x] -- did you mean ""x""?")]; sc_marks := [(2, 3)%Z] |}.
Proof. split; [vm_compute; discriminate|vm_compute; reflexivity]. Qed.

(** ** C127: the text of a message as markup *)
(** What stands before the text, and the icons (fontawesome) of the kinds *)
Definition icons : list (bytes * bytes) := [(b "error", b "times-circle"); (b "hint", b "brain"); (b "warning", b "warning")].
Definition icon (ty : bytes) : bytes := match find (fun x => if list_eq_dec N.eq_dec (fst x) ty then true else false) icons with Some x => snd x | None => b "undefined" end.
Definition frame (ty : bytes) : list tok :=
  [Tag (b "div class=""alert alert-" ++ ty ++ b " alert-white rounded"""); Tag (b "div class=""icon""");
   Tag (b "i class=""fa fa-" ++ icon ty ++ b """"); Tag (b "/i"); Tag (b "/div"); Tag (b "alerttitle")]
  ++ map Ch ty ++ [Tag (b "/alerttitle"); Ch 32].
Definition kinds : list bytes := [b "error"; b "hint"; b "warning"; b "undefined"].
Lemma intag_head body quote s : forall c r, tokens (InTag body quote) s <> Ch c :: r.
Proof.
  revert body quote. induction s as [|x s IH]; intros body quote c r; [discriminate|]. cbn [tokens]. destruct quote; [apply IH|]. destruct (x =? 62); [discriminate|apply IH].
Qed.
Lemma tokens_inert_back s t r : tokens Data (s ++ t) = map Ch s ++ r -> (forall c u, t = c :: u -> opens c = false /\ refers c = false) -> inert s.
Proof.
  intros E F. revert r E. induction s as [|c s IH]; intros r E.
  { split; intros [|] ? ? X; discriminate. }
  cbn [app tokens map] in E. destruct ((c =? 60) && follows opens (s ++ t)) eqn:E1; [now apply intag_head in E|].
  destruct ((c =? 38) && follows refers (s ++ t)) eqn:E2; [discriminate|]. injection E as E. destruct (IH _ E) as [I1 I2].
  split; intros [|x u] d v X; cbn [app] in X; injection X as -> X.
  - rewrite X in E1. exact E1.
  - now apply (I1 u d v).
  - rewrite X in E2. exact E2.
  - now apply (I2 u d v).
Qed.
(** A message is read as it is written, with the tag that closes it, exactly if it is inert. *)
Theorem C127_read ty content : In ty kinds ->
  (tokens Data (new_msg ty content) = frame ty ++ map Ch content ++ [Tag (b "/div")] <-> inert content).
Proof.
  intros K. assert (G : tokens Data (new_msg ty content) = frame ty ++ tokens Data (content ++ b "</div>")).
  { unfold new_msg, frame. destruct K as [<-|[<-|[<-|[<-|[]]]]]; vm_compute; reflexivity. }
  rewrite G. split.
  - intros E. apply app_inv_head in E. eapply tokens_inert_back; [exact E|]. intros c u [= <- _]. auto.
  - intros I0. f_equal. rewrite tokens_inert; [reflexivity|exact I0|reflexivity|reflexivity].
Qed.
Print Assumptions C127_read.

Section M.
Context (O : oracles) (T : texts).
Context (Fl : forall f, clean (o_fmt_float O f)) (Re : forall s, clean s -> clean (t_re_error T s)).
(** Errors about a query that has none of the characters <, & and \ are. *)
Theorem C127_error us : us <> [] -> (forall t, parse_plain O (go_string us) <> QOk t) ->
  ~ In 60 (go_string us) -> ~ In 38 (go_string us) -> ~ In 92 (go_string us) ->
  exists msg mark, aql_update O T us = Some {| sc_output := []; sc_shown := true; sc_html := [new_msg (b "error") msg]; sc_marks := [mark] |} /\
    tokens Data (new_msg (b "error") msg) = frame (b "error") ++ map Ch msg ++ [Tag (b "/div")].
Proof.
  intros Ne R N1 N2 N3. assert (C : clean (go_string us)) by now apply clean_not.
  assert (W : exists m, p_wrap O (go_string us) = WebRes [] [m] /\ w_kind m = MError).
  { destruct (refused_web O _ R) as [(e & P & W)|(k & p & P & W)]; eexists; (split; [exact W|]); [|reflexivity]. destruct e as [k p]. destruct k; reflexivity. }
  destruct W as (m & W & Km). rewrite (update_cons O T us Ne), W. cbn [map]. cbv zeta. unfold pg_type at 1. cbn [page_of]. rewrite Km. cbn [type_page].
  do 2 eexists. split; [reflexivity|]. apply C127_read; [now left|].
  eapply (error_inert O Fl T Re (go_string us) m); [exact R|exact W|now left|exact C|exact N3].
Qed.
(** Messages about an accepted query without < and & are, except the one about similarity for
    regular expressions, if the library shows the expression in a group without them, and if no
    field is escaped. *)
Theorem C127_hint us t p : us <> [] -> parse_plain O (go_string us) = QOk t -> (levels (tree_of_node t) <= N.to_nat 10000)%nat ->
  aql_update O T us = Some p -> ~ In 60 (go_string us) -> ~ In 38 (go_string us) ->
  forall x, In x (sc_html p) -> exists h ty, x = new_msg ty (web_hint_text T h) /\
    (h <> HSimRegex -> (forall r, h = HOuterGroup r -> clean (t_re_show T r)) -> ((exists g, h = HAlternation g) -> ~ In 92 (go_string us)) ->
     tokens Data x = frame ty ++ map Ch (web_hint_text T h) ++ [Tag (b "/div")]).
Proof.
  intros Ne P Lv U N1 N2 x I0. assert (C : clean (go_string us)) by now apply clean_not. destruct (Prop_Wasm.shallow_text _ Lv) as (text & E0 & Nt).
  rewrite (update_cons O T us Ne) in U. pose proof (accepted_web O _ t P) as W. rewrite E0 in W. rewrite W in U.
  set (ms := map msg_convert (flat_map (web_node_msgs O) (preorder t))) in *.
  assert (Eh : sc_html p = map (fun p => new_msg (pg_type p) (pg_msg p)) (map (page_of O T) ms)) by (destruct ms; injection U as <-; reflexivity).
  rewrite Eh, map_map in I0. apply in_map_iff in I0 as (m & <- & Im).
  destruct (hint_inert O T (go_string us) t m ms _ P W Im C) as (h & Eh' & H).
  exists h, (pg_type (page_of O T m)).
  assert (Et : pg_msg (page_of O T m) = web_hint_text T h) by (unfold page_of, pg_msg; now rewrite Eh'). rewrite Et in *.
  split; [reflexivity|]. intros A1 A2 A3. apply C127_read; [|now apply H]. unfold page_of, pg_type. destruct (w_kind m); cbn; auto.
Qed.
End M.
Print Assumptions C127_error.
Print Assumptions C127_hint.

(** The word of a query becomes a tag of the page. *)
Theorem C127_tag_refuted : exists us, forall O T, exists p x, (forall t, parse_plain O (go_string us) <> QOk t) /\
  aql_update O T us = Some p /\ In x (sc_html p) /\ In (Tag (b "b")) (tokens Data x).
Proof.
  exists (b "a:x<b>"). intros O T. do 2 eexists. split; [vm_compute; discriminate|]. split; [vm_compute; reflexivity|]. split; [now left|].
  vm_compute. intuition.
Qed.
Print Assumptions C127_tag_refuted.
(** Escapes are undone: no < in the query, yet a tag on the page. *)
Theorem C127_escape_refuted : exists us, forall O T, exists p x, (forall t, parse_plain O (go_string us) <> QOk t) /\ ~ In 60 (go_string us) /\ ~ In 38 (go_string us) /\
  aql_update O T us = Some p /\ In x (sc_html p) /\ In (Tag (b "b")) (tokens Data x).
Proof.
  exists (b "a:(""" ++ [92; 117; 48; 48; 51; 99] ++ b "b>"", """ ++ [92; 117; 48; 48; 51; 99] ++ b "b>"")"). intros O T. do 2 eexists. split; [vm_compute; discriminate|]. split; [vm_compute; intuition discriminate|]. split; [vm_compute; intuition discriminate|].
  split; [vm_compute; reflexivity|]. split; [now left|]. vm_compute. intuition.
Qed.
Print Assumptions C127_escape_refuted.
(** The message about similarity swallows the tag that closes it, whatever the query. *)
Theorem C127_similar_refuted : exists us, forall T, exists t p x, parse_plain test_oracle (go_string us) = QOk t /\
  aql_update test_oracle T us = Some p /\ sc_html p = [x] /\ ~ In 60 (go_string us) /\ ~ In 38 (go_string us) /\ ~ In 92 (go_string us) /\
  In (Tag (b "regular expression/</div")) (tokens Data x) /\ last (tokens Data x) Ref <> Tag (b "/div").
Proof.
  exists (b "a:~/x/"). intros T. do 3 eexists. split; [vm_compute; reflexivity|]. split; [vm_compute; reflexivity|]. split; [reflexivity|].
  split; [vm_compute; intuition discriminate|]. split; [vm_compute; intuition discriminate|]. split; [vm_compute; intuition discriminate|]. split; [vm_compute; intuition|vm_compute; discriminate].
Qed.
Print Assumptions C127_similar_refuted.
(** An error and a hint that are read as they are written; the operator in brackets is no tag. *)
Definition page_texts : texts := {| t_re_error := fun s => s; t_re_show := fun _ => b "x"; t_panic := []; t_type := []; t_other := [] |}.
Example C127_example : exists p, (forall f, clean (o_fmt_float test_oracle f)) /\ (forall s, clean s -> clean (t_re_error page_texts s)) /\
  (forall t, parse_plain test_oracle (go_string (b "a:>=true")) <> QOk t) /\
  ~ In 60 (go_string (b "a:>=true")) /\ ~ In 38 (go_string (b "a:>=true")) /\ ~ In 92 (go_string (b "a:>=true")) /\
  aql_update test_oracle page_texts (b "a:>=true") = Some p /\ sc_html p = [new_msg (b "error") (b "[>=] operation needs numeric arguments")].
Proof.
  eexists. split; [intros f; now apply clean_lit|]. split; [auto|]. split; [vm_compute; discriminate|]. do 3 (split; [vm_compute; intuition discriminate|]). split; [vm_compute; reflexivity|reflexivity].
Qed.
Example C127_hint_example : exists t p, parse_plain test_oracle (go_string (b "a:/.*x/")) = QOk t /\ (levels (tree_of_node t) <= N.to_nat 10000)%nat /\
  ~ In 60 (go_string (b "a:/.*x/")) /\ ~ In 38 (go_string (b "a:/.*x/")) /\
  aql_update test_oracle page_texts (b "a:/.*x/") = Some p /\ In (new_msg (b "hint") (web_hint_text page_texts (HDotStar (b "/.*x/")))) (sc_html p).
Proof.
  do 2 eexists. split; [vm_compute; reflexivity|]. split; [apply Prop_Wasm.small; vm_compute; reflexivity|]. do 2 (split; [vm_compute; intuition discriminate|]). split; [vm_compute; reflexivity|now left].
Qed.

(** ** C128: marks *)
(** The string that reaches Go is the text in UTF-8. *)
Theorem C128_string cs : scalars cs -> go_string (units cs) = encode cs.
Proof.
  intros S. unfold go_string. f_equal. induction S as [|c cs Hc _ IH]; [reflexivity|]. unfold units in *. cbn [flat_map]. unfold unit_pair at 1. unfold is_scalar in Hc.
  destruct (N.ltb_spec c 65536) as [L|L].
  - cbn [app points]. replace ((c <? 55296) || (57343 <? c)) with true by lia. now rewrite IH.
  - cbn [app points]. set (h := 55296 + (c - 65536) / 1024). set (l := 56320 + (c - 65536) mod 1024).
    assert (Hh : 55296 <= h < 56320) by (unfold h; assert ((c - 65536) / 1024 < 1024) by (apply N.div_lt_upper_bound; lia); lia).
    assert (Hl : 56320 <= l <= 57343) by (unfold l; pose proof (N.mod_lt (c - 65536) 1024); lia).
    replace ((h <? 55296) || (57343 <? h)) with false by lia. replace ((h <? 56320) && (56320 <=? l) && (l <=? 57343)) with true by lia.
    rewrite IH. f_equal. unfold h, l. pose proof (N.div_mod (c - 65536) 1024). lia.
Qed.
Print Assumptions C128_string.
(** It is valid UTF-8 whatever is typed, so that the error about the encoding never shows. *)
Lemma points_scalars n : forall us, (length us <= n)%nat -> Forall (fun u => u < 65536) us -> scalars (points us).
Proof.
  induction n as [|n IH]; intros [|u us] L F; try (cbn in L; lia); try constructor. inversion F as [|? ? Hu F']; subst. cbn [points].
  destruct ((u <? 55296) || (57343 <? u)) eqn:E.
  - constructor; [unfold is_scalar; lia|apply IH; [cbn in L; lia|exact F']].
  - destruct us as [|v us]; [repeat constructor|]. destruct ((u <? 56320) && (56320 <=? v) && (v <=? 57343)) eqn:E2.
    + inversion F'; subst. constructor; [unfold is_scalar; lia|apply IH; [cbn in L; lia|assumption]].
    + constructor; [reflexivity|apply IH; [cbn in L; cbn; lia|exact F']].
Qed.
Lemma encode_prefix x : forall u tl, scalars u -> scalars x -> encode u = encode x ++ tl -> exists v, u = x ++ v /\ tl = encode v.
Proof.
  induction x as [|c x IH]; intros u tl Su Sx E; [exists u; auto|]. inversion Sx as [|? ? Hc Sx']; subst. rewrite encode_cons, <- app_assoc in E.
  destruct u as [|d u]; [destruct (RegexLitProofs.encode_rune_split c) as (p & q & Ec); rewrite Ec in E; discriminate|]. inversion Su as [|? ? Hd Su']; subst. rewrite encode_cons in E.
  pose proof (decode_encode_rune d (encode u) Hd) as D1. pose proof (decode_encode_rune c (encode x ++ tl) Hc) as D2. rewrite E in D1. rewrite D1 in D2. injection D2 as -> _.
  apply app_inv_head in E. destruct (IH u tl Su' Sx' E) as (v & -> & ->). exists v. auto.
Qed.
Theorem C128_encoding O us e : Forall (fun u => u < 65536) us -> parse_plain O (go_string us) = QErr (QSyntax e) -> pe_kind e <> KInvalidEncoding.
Proof.
  intros F P K. pose proof (points_scalars _ us (le_n _) F) as S.
  destruct (Prop_Fault.C109_error O _ e P) as [(l & E)|[(bf & af & E & Sb & Br & _ & _)|(bf & own & rest & af & _ & _ & _ & _ & Fl)]]; [congruence| |rewrite K in Fl; inversion Fl].
  apply (encode_prefix bf _ af S Sb) in E as (v & Ev & ->). destruct Br as [Ne Br]. destruct v as [|c v]; [now destruct Ne|].
  rewrite Ev in S. apply Forall_app in S as [_ S]. inversion S; subst. apply (Br c (encode v)); [assumption|reflexivity].
Qed.
Print Assumptions C128_encoding.

(** If only ASCII characters stand before the end of a mark, the units that are marked are the
    bytes that the message is about. *)
Lemma marks_range O T us p s e : aql_update O T us = Some p -> In (s, e) (sc_marks p) -> (0 <= s <= e)%Z.
Proof.
  intros U I0. destruct us as [|u us]; [injection U as <-; destruct I0|]. assert (Ne : u :: us <> []) by discriminate. revert U I0. generalize (u :: us) Ne. clear. intros us Ne U I0.
  rewrite (update_cons O T us Ne) in U. pose proof (go_string_nil us Ne) as Nq.
  destruct (p_wrap O (go_string us)) as [a ms| | |] eqn:W; [|injection U as <-; destruct I0|discriminate|discriminate].
  assert (Em : sc_marks p = map (fun p => (pg_start p, pg_end p)) (map (page_of O T) ms)) by (destruct ms; injection U as <-; reflexivity).
  rewrite Em, map_map in I0. apply in_map_iff in I0 as (m & X & Im). cbn [page_of pg_start pg_end] in X. injection X as <- <-.
  destruct (parse_plain O (go_string us)) as [t|e| |] eqn:P.
  - assert (Lv : (levels (tree_of_node t) <= N.to_nat 10000)%nat).
    { rewrite (accepted_web O _ t P) in W. destruct (marshal_indent (tree_of_node t)) eqn:Mi; [|discriminate]. destruct (Nat.le_gt_cases (levels (tree_of_node t)) (N.to_nat 10000)) as [H|H]; [exact H|]. apply Prop_Marshal.C97_depth in H. congruence. }
    destruct (Prop_Wasm.C91_message_range O _ t P Lv) as (text & ms' & W' & _ & H). rewrite W in W'. injection W' as _ <-. apply (H m Im).
  - destruct (Prop_Wasm.C91_error_range O (go_string us)) as (m' & W' & R1 & _ & R2 & _); [rewrite P; discriminate|]. rewrite W in W'. injection W' as _ ->. destruct Im as [<-|[]].
    assert (w_start m' <> -1)%Z by tauto. lia.
  - destruct (Prop_Wasm.C91_error_range O (go_string us)) as (m' & W' & R1 & _ & R2 & _); [rewrite P; discriminate|]. rewrite W in W'. injection W' as _ ->. destruct Im as [<-|[]].
    assert (w_start m' <> -1)%Z by tauto. lia.
  - destruct (Prop_Wasm.C91_error_range O (go_string us)) as (m' & W' & R1 & _ & R2 & _); [rewrite P; discriminate|]. rewrite W in W'. injection W' as _ ->. destruct Im as [<-|[]].
    assert (w_start m' <> -1)%Z by tauto. lia.
Qed.
Theorem C128_ascii O T us p s e : aql_update O T us = Some p -> In (s, e) (sc_marks p) -> Forall (fun u => u < 128) (firstn (Z.to_nat e) us) ->
  js_substring us s e = firstn (Z.to_nat (e - s)) (skipn (Z.to_nat s) (go_string us)).
Proof.
  intros U I0 A. pose proof (marks_range O T us p s e U I0) as R. clear U I0. rewrite <- (firstn_skipn (Z.to_nat e) us) at 2. rewrite go_ascii by exact A.
  unfold js_substring. set (n := length us). destruct (Nat.le_gt_cases n (Z.to_nat e)) as [L|L].
  - rewrite (skipn_all2 us L), (firstn_all2 us L). change (go_string []) with (@nil N). rewrite app_nil_r.
    replace (Z.to_nat (Z.max 0 (Z.min (Z.of_nat n) e))) with n by lia.
    destruct (Z.le_gt_cases s (Z.of_nat n)) as [Ls|Ls].
    + replace (Z.to_nat (Z.max 0 (Z.min (Z.of_nat n) s))) with (Z.to_nat s) by lia. rewrite Nat.max_r, Nat.min_l by lia.
      rewrite !firstn_all2; [reflexivity| |]; rewrite skipn_length; fold n; lia.
    + replace (Z.to_nat (Z.max 0 (Z.min (Z.of_nat n) s))) with n by lia. rewrite Nat.max_id, Nat.min_id, Nat.sub_diag. cbn [firstn].
      rewrite skipn_all2 by (fold n; lia). now rewrite firstn_nil.
  - replace (Z.to_nat (Z.max 0 (Z.min (Z.of_nat n) e))) with (Z.to_nat e) by lia. replace (Z.to_nat (Z.max 0 (Z.min (Z.of_nat n) s))) with (Z.to_nat s) by lia.
    rewrite Nat.max_r, Nat.min_l by lia. replace (Z.to_nat e - Z.to_nat s)%nat with (Z.to_nat (e - s)) by lia.
    rewrite skipn_app, firstn_app. rewrite skipn_length, firstn_length_le by (fold n; lia). replace (Z.to_nat (e - s) - (Z.to_nat e - Z.to_nat s))%nat with 0%nat by lia. cbn [firstn]. rewrite app_nil_r.
    rewrite <- (firstn_skipn (Z.to_nat e) us) at 1. rewrite skipn_app, firstn_app, skipn_length, firstn_length_le by (fold n; lia).
    replace (Z.to_nat (e - s) - (Z.to_nat e - Z.to_nat s))%nat with 0%nat by lia. cbn [firstn]. now rewrite app_nil_r.
Qed.
Print Assumptions C128_ascii.
(** A character outside ASCII shifts the marks: here a blank is marked instead of the word. *)
Theorem C128_mark_refuted : exists us, forall O T, exists p s e, aql_update O T us = Some p /\ sc_marks p = [(s, e)] /\
  firstn (Z.to_nat (e - s)) (skipn (Z.to_nat s) (go_string us)) = b "x" /\ js_substring us s e = b " ".
Proof.
  exists (tx "a:""" ++ [233] ++ tx """ AND b:x "). intros O T. do 3 eexists. split; [vm_compute; reflexivity|]. split; [reflexivity|]. split; vm_compute; reflexivity.
Qed.
Print Assumptions C128_mark_refuted.
Example C128_example T : exists p, aql_update test_oracle T (b "a:1 AND b:x") = Some p /\ In (10, 11)%Z (sc_marks p) /\ Forall (fun u => u < 128) (firstn (Z.to_nat 11) (b "a:1 AND b:x")) /\
  js_substring (b "a:1 AND b:x") 10 11 = b "x".
Proof. eexists. split; [vm_compute; reflexivity|]. split; [now left|]. split; [repeat constructor|reflexivity]. Qed.
Example C128_string_example : units [233; 128512] = [233; 55357; 56832] /\ go_string [233; 55357; 56832] = [195; 169; 240; 159; 152; 128] /\ go_string [55357; 97] = [239; 191; 189; 97].
Proof. repeat split; vm_compute; reflexivity. Qed.
