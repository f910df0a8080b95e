(** C02, C03, C06, C14: ParseQuery against the grammar specification. *)
From Verif Require Import Bytes Utf8 Utf8Proofs Oracles Ast AstSpec PegSyntax Engine GrammarSpec GrammarFacts ClauseProofs ParserTop
  Validators ValidatorProofs Visitors VisitorProofs ParseQuery TestOracle.

(** ** C02 *)
Theorem C02_no_panic_text O q e : parse_plain O q = QErr e ->
  (exists s, e = QSyntax s /\ pe_kind s <> KPanic) \/ (exists k p, e = QInvalid k p).
Proof.
  unfold parse_plain, parse_query. pose proof (parse_spec O q) as P.
  destruct (parse O q) as [v|s es|]; cbn [fst]; [| |contradiction].
  - destruct P as (rs & x & _ & _ & -> & _). pose proof (walk_validator_no_panic O x) as NP.
    destruct (walk_validator O x) as [|k p|]; cbn; [discriminate| |congruence]. intros [= <-]. right. eauto.
  - intros [= <-]. left. exists s. split; auto. apply P.
Qed.
Print Assumptions C02_no_panic_text.

Example C02_example : exists s, parse_plain test_oracle (b "a:(1,)") = QErr (QSyntax s) /\ pe_kind s <> KPanic.
Proof. vm_compute. eexists. split; [reflexivity|discriminate]. Qed.
(** The panic kind exists in the model: an action applied to a value of the wrong kind. *)
Example C02_kind_exists : exists e, parse_result (RPanic (init_state (b "a"))) = PErr e [] /\ pe_kind e = KPanic.
Proof. vm_compute. eauto. Qed.

(** ** C03 *)
Theorem C03_language O q t : parse_plain O q = QOk t <->
  exists text, scalars text /\ q = encode text /\ query O text t /\ checked O t.
Proof.
  rewrite parse_plain_ok, walk_validator_ok. rewrite (all_ok_subnodes O t). split.
  - intros [P C]. pose proof (parse_spec O q) as S. rewrite P in S. destruct S as (rs & x & Hs & -> & [= <-] & Q). eauto.
  - intros (rs & Hs & -> & Q & C). split; auto. now apply parse_query_iff.
Qed.
Print Assumptions C03_language.

(** The grammar gives each text at most one tree. *)
Theorem C03_unambiguous O text t u : query O text t -> query O text u -> t = u.
Proof. apply query_unique. Qed.
Print Assumptions C03_unambiguous.

(** AND binds tighter than OR, chains nest to the right, NOT covers one comparison. *)
Example C03_example :
  let e f p := NExpr EXS [b f] [] p in
  exists p1 p2 p3 p4 p5, parse_plain test_oracle (b "!a:exists OR b:exists AND c:exists AND d:exists OR e:exists") =
    QOk (NOr (NNot (e "a" p1)) (NOr (NAnd (e "b" p2) (NAnd (e "c" p3) (e "d" p4))) (e "e" p5)))%string.
Proof. vm_compute. do 5 eexists. reflexivity. Qed.
Example C03_example_derivation : exists t, query test_oracle (tx "a:1") t /\ checked test_oracle t.
Proof.
  eexists. assert (P : parse_plain test_oracle (b "a:1") = QOk (NExpr EQ [b "a"] [AInt 1 (b "1") {| p_line := 1; p_col := 3; p_off := 2; p_len := 1 |}] {| p_line := 1; p_col := 1; p_off := 0; p_len := 3 |})) by (vm_compute; reflexivity).
  apply C03_language in P as (x & Hs & E & Q & C). change (b "a:1") with (encode (tx "a:1")) in E.
  apply encode_inj in E; [subst; eauto| |auto]. apply ascii_scalars. repeat constructor.
Qed.

(** ** C06 *)
Theorem C06_comparison_positions O q t o f vs p :
  parse_plain O q = QOk t -> subnode (NExpr o f vs p) t ->
  exists before own after, q = encode (before ++ own ++ after) /\
    comparison O before own o f vs /\ p = pos_of before own.
Proof.
  intros P S. apply C03_language in P as (rs & Hs & -> & (w1 & a & w2 & -> & W1 & W2 & D) & C).
  destruct (derives_expr O _ _ _ _ _ _ _ _ D S) as (a' & k & z & E & -> & K).
  exists a', k, (z ++ w2). repeat split; auto. f_equal. rewrite (app_assoc w1), E. now rewrite <- !app_assoc.
Qed.
Print Assumptions C06_comparison_positions.

Theorem C06_literal_positions O q t o f vs p v :
  parse_plain O q = QOk t -> subnode (NExpr o f vs p) t -> In v vs ->
  exists before own after, q = encode (before ++ own ++ after) /\
    literal O own (pos_of before own) v /\ val_pos v = pos_of before own.
Proof.
  intros P S I. destruct (C06_comparison_positions _ _ _ _ _ _ _ P S) as (a & k & z & -> & K & _).
  destruct (comparison_value_in O _ _ _ _ _ _ K I) as (a' & k' & z' & E & L).
  exists a', k', (z' ++ z). repeat split; auto. 2: eapply literal_pos; eauto.
  f_equal. rewrite (app_assoc a), E. now rewrite <- !app_assoc.
Qed.
Print Assumptions C06_literal_positions.

(** What [pos_of] says, in bytes: the offset is the length in bytes of what comes before. *)
Theorem C06_offset O q t o f vs p :
  parse_plain O q = QOk t -> subnode (NExpr o f vs p) t ->
  exists own after, q = firstn (Z.to_nat (p_off p)) q ++ encode own ++ after /\
    p_len p = Z.of_nat (length own) /\ (0 <= p_off p)%Z /\
    p_line p = (1 + Z.of_nat (count_occ N.eq_dec (firstn (Z.to_nat (p_off p)) q) 10%N))%Z.
Proof.
  intros P S. destruct (C06_comparison_positions _ _ _ _ _ _ _ P S) as (a & k & z & -> & _ & ->).
  exists k, (encode z). unfold pos_of. cbn [p_off p_len p_line]. rewrite Nat2Z.id, !encode_app.
  rewrite firstn_app, Nat.sub_diag, firstn_all, firstn_O, app_nil_r. repeat split; [lia|].
  do 2 f_equal. clear. induction a as [|c a IH]; [reflexivity|]. rewrite encode_cons, count_occ_app, <- IH.
  cbn [count_occ]. destruct (N.eq_dec c 10) as [->|N]; [reflexivity|].
  replace (count_occ N.eq_dec (encode_rune c) 10) with 0%nat; [reflexivity|].
  symmetry. apply count_occ_not_In. intros I. destruct (N.lt_ge_cases c 128) as [L|L].
  - rewrite encode_rune_ascii in I by auto. destruct I as [I|[]]; congruence.
  - apply (proj1 (Forall_forall _ _) (encode_rune_high c L)) in I. lia.
Qed.
Print Assumptions C06_offset.

(** The literal on the second line after a two-byte character. *)
Example C06_example : exists p1 p2 p3, parse_plain test_oracle (encode (tx "a:exists AND" ++ [10] ++ tx """" ++ [233] ++ tx """: 12")) =
    QOk (NAnd (NExpr EXS [b "a"] [] p1) (NExpr EQ [[195; 169]] [AInt 12 (b "12") p3] p2)) /\
  p2 = {| p_line := 2; p_col := 1; p_off := 13; p_len := 7 |} /\
  p3 = {| p_line := 2; p_col := 6; p_off := 19; p_len := 2 |}.
Proof. vm_compute. do 3 eexists. repeat split; reflexivity. Qed.

(** ** C14 *)
Theorem C14_invalid_utf8 O q : (~ exists text, scalars text /\ q = encode text) -> exists e, parse_plain O q = QErr e.
Proof.
  intros N. unfold parse_plain, parse_query. pose proof (parse_spec O q) as S.
  destruct (parse O q) as [v|e es|]; cbn; [|eauto|contradiction].
  destruct S as (rs & x & Hs & E & _). exfalso. apply N. eauto.
Qed.
Print Assumptions C14_invalid_utf8.

(** Invalid UTF-8 inside a quoted literal, and a surrogate. *)
Example C14_example : (~ exists text, scalars text /\ b "a:""" ++ [255] ++ b """" = encode text) /\
  (~ exists text, scalars text /\ b "a:""" ++ [237; 160; 128] ++ b """" = encode text).
Proof. split; intros H; apply valid_utf8_spec in H; vm_compute in H; discriminate. Qed.
