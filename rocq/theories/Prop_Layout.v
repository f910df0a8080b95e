(** C04, C05: white space and parentheses. *)
From Verif Require Import Bytes Utf8 Utf8Proofs Oracles Ast AstSpec PegSyntax Engine GrammarSpec GrammarFacts ParserTop Layout LayoutProofs
  ParseQuery Prop_Grammar TestOracle.

(** ** C05 *)
(** An accepted query is a layout of some tokens, and every other layout of the same tokens is
    accepted with the same tree up to positions. *)
Theorem C05_accepted O q t : parse_plain O q = QOk t ->
  exists k text, q = encode text /\ scalars text /\ layout_query k text /\ tokens_tree O LOr k (strip t) /\
    forall text', layout_query k text' -> exists t', parse_plain O (encode text') = QOk t' /\ strip t' = strip t.
Proof.
  intros P. apply C03_language in P as (rs & Hs & -> & (w1 & a & w2 & -> & W1 & W2 & D) & C).
  destruct (derives_tokens O _ _ _ _ D) as (k & T & L). exists k, (w1 ++ a ++ w2).
  split; auto. split; [exact Hs|]. split; [exists w1, a, w2; auto|]. split; auto.
  intros text' (w1' & a' & w2' & -> & W1' & W2' & L').
  destruct (layout_derives O _ _ _ T w1' a' L') as (t' & D' & E). exists t'. split; auto.
  apply C03_language. exists (w1' ++ a' ++ w2'). split; [|split; auto; split].
  - rewrite !scalars_app in *. destruct Hs as (_ & Ha & _). rewrite (layout_scalars _ _ L) in Ha. rewrite (layout_scalars _ _ L').
    auto using ws_scalars.
  - exists w1', a', w2'. auto.
  - apply checked_strip. rewrite E. now apply checked_strip.
Qed.
Print Assumptions C05_accepted.

(** Layouts of the same well-formed tokens are accepted or rejected together; they are accepted
    exactly when the tree passes the operator checks. *)
Theorem C05_same_verdict O k n text : tokens_tree O LOr k n -> layout_query k text -> scalars text ->
  (exists t, parse_plain O (encode text) = QOk t /\ strip t = n) <-> checked O n.
Proof.
  intros T (w1 & a & w2 & -> & W1 & W2 & L) Hs. split.
  - intros (t & P & <-). apply C03_language in P as (rs & _ & _ & _ & C). now apply checked_strip.
  - intros C. destruct (layout_derives O _ _ _ T w1 a L) as (t & D & E). exists t. split; auto.
    apply C03_language. exists (w1 ++ a ++ w2). split; auto. split; auto. split; [exists w1, a, w2; auto|].
    apply checked_strip. now rewrite E.
Qed.
Print Assumptions C05_same_verdict.

Example C05_example :
  let k := TAnd (TNot false (TOne (tx "a") (tx ">=") (tx "1"))) (TParen (TMany (tx "b") [] (tx "1") [tx "2"])) in
  layout_query k (tx "!a:>=1 AND (b:(1,2))") /\
  layout_query k ([10; 32] ++ tx "! a" ++ [9] ++ tx ": >= 1" ++ [13; 10] ++ tx "AND  ( b : ( 1 , 2 ) ) ").
Proof.
  assert (W : forall t, forallb (fun c => (c =? 32) || (c =? 9) || (c =? 10) || (c =? 13)) t = true -> ws t).
  { intros t H. apply Forall_forall. intros c I. rewrite forallb_forall in H. apply H in I.
    unfold ws_char. rewrite !orb_true_iff, !N.eqb_eq in I. tauto. }
  assert (W1 : forall t, forallb (fun c => (c =? 32) || (c =? 9) || (c =? 10) || (c =? 13)) t = true -> t <> [] -> ws1 t) by (split; auto).
  assert (C : forall w1 w2, ws w1 -> ws w2 -> commas [tx "2"] (w1 ++ tx "," ++ w2 ++ tx "2" ++ [])) by (intros; repeat constructor; auto).
  split.
  - exists [], (tx "!a:>=1 AND (b:(1,2))"), []. repeat split; try constructor.
    apply (lay_and _ _ (tx "!a:>=1") [32] [32] (tx "(b:(1,2))")); try (apply W1; [reflexivity|discriminate]).
    + apply (lay_bang _ (tx "a:>=1") []); [now apply W|]. apply (lay_one (tx "a") (tx ">=") (tx "1") [] [] []); now apply W.
    + apply (lay_paren _ (tx "b:(1,2)") [] []); try now apply W.
      apply (lay_many (tx "b") [] (tx "1") [tx "2"] [] [] [] [] [] (tx ",2")); try now apply W; try discriminate.
      * apply (C [] []); now apply W.
      * discriminate.
  - exists [10; 32], (tx "! a" ++ [9] ++ tx ": >= 1" ++ [13; 10] ++ tx "AND  ( b : ( 1 , 2 ) )"), [32]. repeat split; try now apply W.
    apply (lay_and _ _ (tx "! a" ++ [9] ++ tx ": >= 1") [13; 10] [32; 32] (tx "( b : ( 1 , 2 ) )")); try (apply W1; [reflexivity|discriminate]).
    + apply (lay_bang _ (tx "a" ++ [9] ++ tx ": >= 1") [32]); [now apply W|]. apply (lay_one (tx "a") (tx ">=") (tx "1") [9] [32] [32]); now apply W.
    + apply (lay_paren _ (tx "b : ( 1 , 2 )") [32] [32]); try now apply W.
      apply (lay_many (tx "b") [] (tx "1") [tx "2"] [32] [32] [] [32] [32] (tx " , 2")); try now apply W; try discriminate.
      * apply (C [32] [32]); now apply W.
      * discriminate.
Qed.
Example C05_hypotheses : exists k n text, tokens_tree test_oracle LOr k n /\ layout_query k text /\ scalars text /\ checked test_oracle n /\
  encode text = b "!a:>=1 AND (b:(1,2) OR c:null)".
Proof.
  assert (P : exists t, parse_plain test_oracle (b "!a:>=1 AND (b:(1,2) OR c:null)") = QOk t) by (eexists; vm_compute; reflexivity). destruct P as (t & P).
  destruct (C05_accepted _ _ _ P) as (k & text & E & Sc & L & T & _). exists k, (strip t), text. split; [exact T|]. split; [exact L|].
  split; [exact Sc|]. split; [|symmetry; exact E]. apply (C05_same_verdict test_oracle k (strip t) text T L Sc). exists t. split; [rewrite <- E; exact P|reflexivity].
Qed.

(** ** C04 *)
(** Rendering any checked tree, each path and value written with some literal of its own, gives
    a query that is read back as the same tree. *)
Theorem C04_roundtrip O spell_field spell n :
  checked O n ->
  (forall o f vs p, subnode (NExpr o f vs p) n ->
     scalars (spell_field f) /\ field (spell_field f) f /\
     forall v, In v vs -> scalars (spell v) /\ literal O (spell v) no_position (set_pos no_position v)) ->
  exists t, parse_plain O (encode (render spell_field spell LOr n)) = QOk t /\ strip t = strip n.
Proof.
  intros C S. apply (C05_same_verdict O (toks spell_field spell LOr n)).
  - apply toks_tree; auto. intros o f vs p H. destruct (S _ _ _ _ H) as (_ & F & L). split; auto. intros v I. now apply L.
  - exists [], (render spell_field spell LOr n), []. rewrite app_nil_r. repeat split; try constructor. apply toks_layout.
  - apply (layout_scalars _ _ (toks_layout _ _ _ _)).
    assert (R : forall o, scalars (render_op o)) by (intros []; apply ascii_scalars; repeat constructor).
    generalize LOr. clear C. induction n as [x IHx y IHy|x IHx y IHy|x IH|o f vs p]; intros l; cbn [toks].
    1-2: assert (X : forall l, tok_scalars (toks spell_field spell l x)) by (apply IHx; intros o f vs p H; apply (S o f vs p); auto using sub_and_l, sub_or_l);
         assert (Y : forall l, tok_scalars (toks spell_field spell l y)) by (apply IHy; intros o f vs p H; apply (S o f vs p); auto using sub_and_r, sub_or_r);
         destruct l; cbn; auto.
    + assert (X : forall l, tok_scalars (toks spell_field spell l x)) by (apply IH; intros o f vs p H; apply (S o f vs p); auto using sub_not).
      destruct l; cbn; auto.
    + destruct (S o f vs p) as (F & _ & L); [constructor|]. unfold toks_expr. destruct vs as [|v [|w r]]; cbn.
      * auto.
      * repeat split; auto. apply L. now left.
      * repeat split; auto; [apply L; now left|]. constructor; [apply L; right; now left|].
        apply Forall_forall. intros t I. apply in_map_iff in I as (u & <- & I). apply L. right. now right.
  - now apply checked_strip.
Qed.
Print Assumptions C04_roundtrip.

(** The tree (a AND (b OR c)) OR NOT (NOT d AND e), rendered. *)
Definition ex_field (f : list bytes) : text := concat f.
Definition ex_tree : node :=
  let e (f : string) := NExpr EXS [b f] [] no_position in
  NOr (NAnd (e "a"%string) (NOr (e "b"%string) (e "c"%string))) (NNot (NAnd (NNot (e "d"%string)) (e "e"%string))).
Example C04_example_text : render ex_field (fun _ => []) LOr ex_tree =
  tx "a:exists AND (b:exists OR c:exists) OR NOT (NOT d:exists AND e:exists)".
Proof. reflexivity. Qed.
Example C04_example : checked test_oracle ex_tree /\
  (forall o f vs p, subnode (NExpr o f vs p) ex_tree ->
     scalars (ex_field f) /\ field (ex_field f) f /\
     forall v, In v vs -> scalars [] /\ literal test_oracle [] no_position (set_pos no_position v)) /\
  exists t, parse_plain test_oracle (encode (render ex_field (fun _ => []) LOr ex_tree)) = QOk t /\ strip t = ex_tree.
Proof.
  assert (S : forall o f vs p, subnode (NExpr o f vs p) ex_tree -> o = EXS /\ vs = [] /\ exists c, 97 <= c <= 101 /\ f = [[c]]).
  { intros o f vs p H. unfold ex_tree in H.
    repeat match goal with H : subnode _ _ |- _ => inversion H; subst; clear H end;
      (split; [reflexivity|split; [reflexivity|eexists; split; [|reflexivity]; cbn; lia]]). }
  split; [|split].
  - intros o f vs p H. apply S in H as (-> & -> & _). split; [reflexivity|]. split; [|discriminate].
    split; [intros [|i] j v w E; discriminate|discriminate].
  - intros o f vs p H. apply S in H as (-> & -> & c & R & ->). unfold ex_field. cbn [concat app].
    assert (A : Forall name_char [c]) by (constructor; [left; lia|constructor]).
    assert (E : encode [c] = [c]) by (apply encode_ascii; constructor; [lia|constructor]).
    split; [|split; [|intros v []]].
    + apply ascii_scalars. constructor; [lia|constructor].
    + exists [[c]]. split.
      * rewrite <- E at 2. apply pcs_one, pc_plain; [auto|discriminate].
      * cbn. replace (c =? 42) with false by (symmetry; apply N.eqb_neq; lia). reflexivity.
  - vm_compute. eexists. split; reflexivity.
Qed.
