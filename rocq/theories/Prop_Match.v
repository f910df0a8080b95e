(** C21-C31, C36, C44-C46, C72-C74: NewMatcher and Match against the specification. *)
From Verif Require Import Bytes Utf8 GoStrconv GoFloat GoTime GoNet Oracles Ast AstSpec Json JsonSpec JsonProofs Values StrMatch Matcher
  QueryMessages MatchApi MatchSpec MatchProofs MatcherTop Visitors ParseQuery TestOracle.
From Verif Require Layout.

(** ** C21 (acceptance; the messages are in Prop_Messages.v) *)
Theorem C21_accepts O q : (exists m, new_matcher O q = NewOk m) <-> (exists t, parse_plain O q = QOk t).
Proof.
  split.
  - intros (m & E). destruct (new_matcher_cases O q) as [(t & r & P & _)|(e & e' & _ & E')]; [eauto|congruence].
  - intros (t & P). destruct (new_matcher_accepted O q t P) as (r & _ & E). eauto.
Qed.
Print Assumptions C21_accepts.

(** A rejected query gives the error ParseQuery gives. *)
Theorem C21_same_error O q e : new_matcher O q = NewErr e <->
  fst (fst (parse_query (W := unit) (E := unit) (T := hint) O [] q tt)) = QErr e.
Proof.
  split.
  - intros E. destruct (new_matcher_cases O q) as [(t & r & P & _ & E')|(e0 & e' & P & E')]; [congruence|].
    destruct (new_matcher_rejected O q e0 P) as (e1 & E1 & H). congruence.
  - intros H. destruct (new_matcher_cases O q) as [(t & r & P & _ & E')|(e0 & e' & P & E')].
    + exfalso. pose proof (VisitorProofs.parse_query_plain (W := unit) (E := unit) (T := hint) O [] q tt) as Q. rewrite P in Q.
      rewrite Q in H. discriminate.
    + destruct (new_matcher_rejected O q e0 P) as (e1 & E1 & H'). congruence.
Qed.
Print Assumptions C21_same_error.

Example C21_example : (exists m, new_matcher test_oracle (b "a:~/.*x/ AND b:2020-01-01T00:00:00Z") = NewOk m /\ length (mt_messages m) = 3%nat) /\
  exists e, new_matcher test_oracle (b "a:<true") = NewErr e.
Proof. split; vm_compute; eexists; [split|]; reflexivity. Qed.

(** ** C22 *)
Theorem C22_no_panic O q : new_matcher O q <> NewPanic /\ new_matcher O q <> NewFuel.
Proof. destruct (new_matcher_cases O q) as [(t & r & _ & _ & ->)|(e & e' & _ & ->)]; split; discriminate. Qed.
Print Assumptions C22_no_panic.

(** The backstop panics exist in the model. *)
Example C22_backstops : build test_oracle (NExpr LT [b "a"] [] no_position) = Panic /\
  build test_oracle (NExpr EQ [b "a"] [] no_position) = Panic /\
  build test_oracle (NExpr BET [b "a"] [ATime {| i_sec := 0; i_nsec := 0 |} true [] no_position; AInt 1 [] no_position] no_position) = Panic.
Proof. vm_compute. auto. Qed.

(** ** C23 *)
(** A path made of stars only makes Match panic on every valid document. *)
Theorem C23_star_path_refuted : exists q data, forall O, exists m,
  new_matcher O q = NewOk m /\ match_doc O (mt_root m) data = Panic.
Proof. exists (b "*:exists"), (b "{}"). intros O. eexists. split; [vm_compute; reflexivity|vm_compute; reflexivity]. Qed.
Print Assumptions C23_star_path_refuted.
(** So does an empty first segment on a top-level array. *)
Theorem C23_empty_segment_refuted : exists q data, forall O, exists m,
  new_matcher O q = NewOk m /\ match_doc O (mt_root m) data = Panic.
Proof. exists (b """"":exists"), (b "[]"). intros O. eexists. split; [vm_compute; reflexivity|vm_compute; reflexivity]. Qed.
Print Assumptions C23_empty_segment_refuted.

(** ** C72: otherwise Match returns normally, whatever was matched before *)
Theorem C72_match_returns O q m m1 data :
  new_matcher O q = NewOk m -> after O (mt_root m) m1 ->
  (forall t o f vs p j, parse_plain O q = QOk t -> subnode (NExpr o f vs p) t -> document data j -> path_safe j f) ->
  exists r m2, match_doc O m1 data = Ok (r, m2).
Proof.
  intros Nm A Sf. destruct (new_matcher_cases O q) as [(t & r & P & B & E)|(e & e' & _ & E)]; [|congruence].
  rewrite E in Nm. injection Nm as <-. cbn in A.
  pose proof (match_answer O m1 data) as H. rewrite (answer_shape O m1 r) in H by now apply after_shape in A.
  destruct (match_doc O m1 data) as [[r' m']|]; [eauto|]. exfalso. unfold answer in H.
  destruct (parse_json data) as [root|] eqn:J; [|discriminate]. apply parse_json_spec in J.
  destruct (ev_safe O t root (accepted_tree_ok O q t P) ltac:(intros; eapply Sf; eassumption) r B) as (a & Ea).
  rewrite Ea in H. discriminate.
Qed.
Print Assumptions C72_match_returns.

(** For a query that is a single comparison, the condition is exact. *)
Theorem C72_panics_exactly O q m m1 data o f vs p j :
  new_matcher O q = NewOk m -> after O (mt_root m) m1 ->
  parse_plain O q = QOk (NExpr o f vs p) -> document data j ->
  match_doc O m1 data = Panic <-> f = [] \/ exists rest els, f = [] :: rest /\ j = JArr els.
Proof.
  intros Nm A P D. destruct (new_matcher_accepted O q _ P) as (r & B & E).
  rewrite E in Nm. injection Nm as <-. cbn in A.
  pose proof (match_answer O m1 data) as H. rewrite (answer_shape O m1 r) in H by now apply after_shape in A.
  unfold answer in H. apply parse_json_spec in D. rewrite D in H.
  assert (Hp : match_doc O m1 data = Panic <-> ev O r j = Panic).
  { destruct (match_doc O m1 data) as [[r' m']|]; destruct (ev O r j); cbn in H; split; congruence. }
  rewrite Hp. clear Hp H A E. cbn in B. destruct (build_exprs O o vs) as [es|] eqn:Be; [|discriminate]. injection B as <-. cbn [ev].
  split.
  - intros Ep. destruct f as [|[|c f0] rest]; [now left| |].
    + assert (K : ~ forall els, j <> JArr els).
      { intros K. destruct (expr_result_safe O o ([] :: rest) vs es j (accepted_tree_ok O q _ P _ _ _ _ (sub_refl _)) Be K) as (a & Ea).
        pose proof (eq_trans (eq_sym Ep) Ea). discriminate. }
      right. destruct j as [|x|x|x|els|ms]; try (exfalso; apply K; discriminate). eauto.
    + exfalso. destruct (expr_result_safe O o ((c :: f0) :: rest) vs es j (accepted_tree_ok O q _ P _ _ _ _ (sub_refl _)) Be I) as (a & Ea).
      pose proof (eq_trans (eq_sym Ep) Ea). discriminate.
  - intros [->|(rest & els & -> & ->)]; reflexivity.
Qed.
Print Assumptions C72_panics_exactly.

Example C72_example : exists m m1 m2, new_matcher test_oracle (b "a.*.b:>1 OR *:exists") = NewOk m /\
  after test_oracle (mt_root m) m1 /\ match_doc test_oracle m1 (b "{""a"":[{""b"":2}]}") = Ok (Some true, m2).
Proof.
  do 3 eexists. split; [vm_compute; reflexivity|]. split.
  - eapply af_match with (data := b "nonsense"); [apply af_none|vm_compute; reflexivity].
  - vm_compute. reflexivity.
Qed.

(** ** C24 *)
(** The answer of Match is given by the meaning [holds] of the tree. *)
Theorem C24_meaning O q t data j : parse_plain O q = QOk t -> document data j ->
  (forall o f vs p, subnode (NExpr o f vs p) t -> path_safe j f /\ no_index j f) ->
  (answers O q data (Some true) <-> holds O t j) /\ (answers O q data (Some false) <-> ~ holds O t j).
Proof.
  intros P D Sf. pose proof (accepted_tree_ok O q t P) as T. destruct (build_ok O t T) as (m & B).
  destruct (ev_holds O t j T Sf m B) as (a & E & H). apply parse_json_spec in D.
  assert (An : forall r, answers O q data r <-> r = Some a).
  { intros r. rewrite answers_iff. unfold answer. split.
    - intros (t' & m' & P' & B' & A). rewrite D in A. replace m' with m in A by congruence. rewrite E in A. cbn in A. congruence.
    - intros ->. exists t, m. rewrite D, E. auto. }
  rewrite !An, <- H. split; [|destruct a; split; congruence]. split; congruence.
Qed.
Print Assumptions C24_meaning.
Example C24_hypotheses : exists t j, parse_plain test_oracle (b "a.b:>1 AND NOT (c:""x"" OR d:null)") = QOk t /\
  document (b "{""a"":[{""b"":2},5],""c"":""y""}") j /\
  (forall o f vs p, subnode (NExpr o f vs p) t -> path_safe j f /\ no_index j f) /\
  answers test_oracle (b "a.b:>1 AND NOT (c:""x"" OR d:null)") (b "{""a"":[{""b"":2},5],""c"":""y""}") (Some true).
Proof.
  do 2 eexists. split; [vm_compute; reflexivity|]. split; [apply parse_json_spec; vm_compute; reflexivity|]. split.
  - intros o f vs p H. repeat match goal with H : subnode _ _ |- _ => inversion H; clear H; subst end; split; exact I.
  - do 3 eexists. split; [vm_compute; reflexivity|]. split; [apply af_none|]. vm_compute. reflexivity.
Qed.

Theorem C24_and O p q data x y : answers O p data (Some x) -> answers O q data (Some y) ->
  answers O (q_and p q) data (Some (x && y)).
Proof. apply answers_and. Qed.
Print Assumptions C24_and.
Theorem C24_or O p q data x y : answers O p data (Some x) -> answers O q data (Some y) ->
  answers O (q_or p q) data (Some (x || y)).
Proof. apply answers_or. Qed.
Print Assumptions C24_or.
Theorem C24_not O p data x : answers O p data (Some x) -> answers O (q_not p) data (Some (negb x)).
Proof. apply answers_not. Qed.
Print Assumptions C24_not.

(** Laws, for all queries that give an answer on the document. *)
Theorem C24_laws O p q r data x y z :
  answers O p data (Some x) -> answers O q data (Some y) -> answers O r data (Some z) ->
  let same u v := forall a, answers O u data a <-> answers O v data a in
  same (q_not (q_and p q)) (q_or (q_not p) (q_not q)) /\
  same (q_not (q_or p q)) (q_and (q_not p) (q_not q)) /\
  same (q_not (q_not p)) p /\
  same (q_and p (q_or q r)) (q_or (q_and p q) (q_and p r)) /\
  same (q_or p (q_and q r)) (q_and (q_or p q) (q_or p r)).
Proof.
  intros Hp Hq Hr. cbn zeta.
  assert (Same : forall u v a c, answers O u data (Some a) -> answers O v data (Some c) -> a = c ->
    forall d, answers O u data d <-> answers O v data d).
  { intros u v a c Hu Hv -> d. split; intros Hd.
    - rewrite (answers_fun _ _ _ _ _ Hd Hu). exact Hv.
    - rewrite (answers_fun _ _ _ _ _ Hd Hv). exact Hu. }
  pose proof (C24_not O p data x Hp) as Np. pose proof (C24_not O q data y Hq) as Nq.
  refine (conj _ (conj _ (conj _ (conj _ _)))).
  - apply (Same _ _ _ _ (C24_not _ _ _ _ (C24_and _ _ _ _ _ _ Hp Hq)) (C24_or _ _ _ _ _ _ Np Nq)). now destruct x, y.
  - apply (Same _ _ _ _ (C24_not _ _ _ _ (C24_or _ _ _ _ _ _ Hp Hq)) (C24_and _ _ _ _ _ _ Np Nq)). now destruct x, y.
  - apply (Same _ _ _ _ (C24_not _ _ _ _ Np) Hp). now destruct x.
  - apply (Same _ _ _ _ (C24_and _ _ _ _ _ _ Hp (C24_or _ _ _ _ _ _ Hq Hr))
             (C24_or _ _ _ _ _ _ (C24_and _ _ _ _ _ _ Hp Hq) (C24_and _ _ _ _ _ _ Hp Hr))). now destruct x, y, z.
  - apply (Same _ _ _ _ (C24_or _ _ _ _ _ _ Hp (C24_and _ _ _ _ _ _ Hq Hr))
             (C24_and _ _ _ _ _ _ (C24_or _ _ _ _ _ _ Hp Hq) (C24_or _ _ _ _ _ _ Hp Hr))). now destruct x, y, z.
Qed.
Print Assumptions C24_laws.

Example C24_example :
  let q := b "NOT (a:1 AND b:""x"") OR c:null" in
  answers test_oracle q (b "{""a"":1,""b"":""x"",""c"":1}") (Some false) /\
  answers test_oracle q (b "{""a"":1,""b"":""x"",""c"":null}") (Some true).
Proof.
  split; do 3 eexists; (split; [vm_compute; reflexivity|]); (split; [apply af_none|]); vm_compute; reflexivity.
Qed.

(** ** C25 *)
Theorem C25_no_memory O m m1 data r : after O m m1 ->
  (exists m2, match_doc O m1 data = Ok (r, m2)) <-> (exists m2, match_doc O m data = Ok (r, m2)).
Proof.
  intros A. pose proof (match_answer O m1 data) as H1. pose proof (match_answer O m data) as H2.
  rewrite (answer_shape O m1 m) in H1 by now apply after_shape in A.
  destruct (match_doc O m1 data) as [[r1 n1]|], (match_doc O m data) as [[r2 n2]|]; split; intros (n & E); try congruence;
    injection E as -> _; eexists; f_equal; f_equal; congruence.
Qed.
Print Assumptions C25_no_memory.
Theorem C25_one_answer O q data r1 r2 : answers O q data r1 -> answers O q data r2 -> r1 = r2.
Proof. apply answers_fun. Qed.
Print Assumptions C25_one_answer.

Example C25_example : exists m m1 m2, new_matcher test_oracle (b "a:1") = NewOk m /\ after test_oracle (mt_root m) m1 /\
  m1 <> mt_root m /\ match_doc test_oracle m1 (b "{""a"":1}") = Ok (Some true, m2).
Proof.
  do 3 eexists. split; [vm_compute; reflexivity|]. split; [|split].
  - eapply af_match with (data := b "{""a"":2}"); [apply af_none|vm_compute; reflexivity].
  - discriminate.
  - vm_compute. reflexivity.
Qed.

(** ** C26 *)
(** The values found for a path are the ones it resolves to. *)
Theorem C26_paths path j : path_safe j path -> no_index j path ->
  exists vs, get_field path j = Ok vs /\ forall v, In v vs <-> resolves path j v.
Proof. apply get_field_spec. Qed.
Print Assumptions C26_paths.

(** In an object all of whose names can be decoded, the member selected by a name is the first
    one with that name. *)
Theorem C26_member key ms child : (forall m, In m ms -> unescape (fst m) <> None) ->
  member key (JObj ms) child <->
  exists before raw after, ms = before ++ (raw, child) :: after /\ unescape raw = Some key /\
    forall m, In m before -> unescape (fst m) <> Some key.
Proof.
  intros Dec. split.
  - intros (bf & raw & af & [= ->] & U & F). exists bf, raw, af. repeat split; auto.
    intros m I E. rewrite Forall_forall in F. destruct (F _ I) as (k & Uk & Nk). congruence.
  - intros (bf & raw & af & -> & U & F). exists bf, raw, af. repeat split; auto.
    apply Forall_forall. intros m I. destruct (unescape (fst m)) as [k|] eqn:E.
    + exists k. split; [reflexivity|]. intros ->. now apply (F m I).
    + exfalso. apply (Dec m); [|exact E]. apply in_or_app. now left.
Qed.
Print Assumptions C26_member.

(** A name that cannot be decoded hides the members after it. *)
Theorem C26_hidden_member_refuted : exists q data ms v, forall O,
  document data (JObj ms) /\ In (b "a", v) ms /\ answers O q data (Some false) /\
  exists p, parse_plain O q = QOk (NExpr EXS [b "a"] [] p).
Proof.
  exists (b "a:exists"), (b "{""\ud800"":1,""a"":2}"), [(b "\ud800", JNum (b "1")); (b "a", JNum (b "2"))], (JNum (b "2")).
  intros O. split; [apply parse_json_spec; vm_compute; reflexivity|]. split; [right; now left|]. split.
  - do 3 eexists. split; [vm_compute; reflexivity|]. split; [apply af_none|]. vm_compute. reflexivity.
  - eexists. vm_compute. reflexivity.
Qed.
Print Assumptions C26_hidden_member_refuted.

Example C26_example : exists j, document (b "{""a"":[{""b"":1},7,{""b"":[2,3]},[{""b"":9}]],""a"":5}") j /\
  get_field [b "a"; b "b"] j = Ok [JNum (b "1"); JArr [JNum (b "2"); JNum (b "3")]] /\ path_safe j [b "a"; b "b"] /\ no_index j [b "a"; b "b"].
Proof.
  eexists. split; [apply parse_json_spec; vm_compute; reflexivity|]. split; [vm_compute; reflexivity|]. split; exact I.
Qed.

(** ** C27, C28, C29 *)
Theorem C27_exists O q f vs p data j : parse_plain O q = QOk (NExpr EXS f vs p) -> document data j ->
  path_safe j f -> no_index j f ->
  (answers O q data (Some true) <-> exists v, resolves f j v) /\
  (answers O q data (Some false) <-> ~ exists v, resolves f j v).
Proof.
  intros P D S N. apply (C24_meaning O q _ data j P D). intros o f' vs' p' Sub. inversion Sub; subst. now split.
Qed.
Print Assumptions C27_exists.
Example C27_example : exists f vs p j, parse_plain test_oracle (b "a.b:exists") = QOk (NExpr EXS f vs p) /\
  document (b "{""a"":[1,{""b"":null}]}") j /\ path_safe j f /\ no_index j f /\
  answers test_oracle (b "a.b:exists") (b "{""a"":[1,{""b"":null}]}") (Some true) /\
  answers test_oracle (b "a.b:exists") (b "{""a"":[1,[{""b"":null}]]}") (Some false).
Proof.
  do 4 eexists. split; [vm_compute; reflexivity|]. split; [apply parse_json_spec; vm_compute; reflexivity|]. split; [exact I|]. split; [exact I|].
  split; do 3 eexists; (split; [vm_compute; reflexivity|]); (split; [apply af_none|]); vm_compute; reflexivity.
Qed.

Theorem C28_null O q f vs p data j : parse_plain O q = QOk (NExpr NUL f vs p) -> document data j ->
  path_safe j f -> no_index j f ->
  (answers O q data (Some true) <-> (exists v, resolves f j v) /\ forall v, resolves f j v -> v = JNull).
Proof.
  intros P D S N. apply (C24_meaning O q _ data j P D). intros o f' vs' p' Sub. inversion Sub; subst. now split.
Qed.
Print Assumptions C28_null.
(** Hence null implies exists. *)
Theorem C28_null_exists O q q' f vs p vs' p' data : parse_plain O q = QOk (NExpr NUL f vs p) ->
  parse_plain O q' = QOk (NExpr EXS f vs' p') -> answers O q data (Some true) -> answers O q' data (Some true).
Proof.
  intros P P'. rewrite !answers_iff. intros (t & m & Pt & B & A). rewrite P in Pt. injection Pt as <-.
  cbn in B. injection B as <-. exists (NExpr EXS f vs' p'). eexists. split; [exact P'|]. split; [reflexivity|].
  unfold answer in *. destruct (parse_json data) as [root|]; [|discriminate]. cbn [ev] in *. unfold expr_result in *.
  destruct (get_field f root) as [js|]; [|discriminate]. cbn [bind] in *. destruct js as [|x js]; [discriminate|]. reflexivity.
Qed.
Print Assumptions C28_null_exists.
Example C28_hypotheses : exists f vs p vs' p' j, parse_plain test_oracle (b "a.b:null") = QOk (NExpr NUL f vs p) /\
  parse_plain test_oracle (b "a.b:exists") = QOk (NExpr EXS f vs' p') /\
  document (b "{""a"":[{""b"":null},{""b"":null},3]}") j /\ path_safe j f /\ no_index j f /\
  answers test_oracle (b "a.b:null") (b "{""a"":[{""b"":null},{""b"":null},3]}") (Some true).
Proof.
  do 6 eexists. split; [vm_compute; reflexivity|]. split; [vm_compute; reflexivity|]. split; [apply parse_json_spec; vm_compute; reflexivity|].
  split; [exact I|]. split; [exact I|]. do 3 eexists. split; [vm_compute; reflexivity|]. split; [apply af_none|]. vm_compute. reflexivity.
Qed.

(** A comparison with values holds iff some tested scalar satisfies it. *)
Theorem C29_scalars O q o f vs p data j : parse_plain O q = QOk (NExpr o f vs p) -> o <> EXS -> o <> NUL ->
  document data j -> path_safe j f -> no_index j f ->
  answers O q data (Some true) <->
  exists s, scalar s /\ (resolves f j s \/ exists els, resolves f j (JArr els) /\ In s els) /\
    match o with
    | BET => exists v w, vs = [v; w] /\ in_range O v w s
    | EQ | SIM => exists v, In v vs /\ equals O v s
    | _ => exists v, vs = [v] /\ ordered O o v s
    end.
Proof.
  intros P N1 N2 D S N. destruct (C24_meaning O q _ data j P D) as [H _].
  { intros o' f' vs' p' Sub. inversion Sub; subst. now split. }
  rewrite H. destruct o; try congruence; cbn [holds]; split.
  all: try (intros (v & s & I & (Ss & T) & R); exists s; split; [exact Ss|]; split; [exact T|]; eauto; fail).
  all: try (intros (s & Ss & T & v & I & R); exists v, s; split; [exact I|]; split; [now split|exact R]).
  - intros (v & w & s & I & (Ss & T) & R); exists s; split; [exact Ss|]; split; [exact T|]; eauto.
  - intros (s & Ss & T & v & w & I & R). exists v, w, s. split; [exact I|]. split; [now split|exact R].
Qed.
Print Assumptions C29_scalars.
Example C29_hypotheses : exists f vs p j, parse_plain test_oracle (b "a.b:><(1,5)") = QOk (NExpr BET f vs p) /\
  document (b "{""a"":[{""b"":[9,[2],4]}]}") j /\ path_safe j f /\ no_index j f /\
  answers test_oracle (b "a.b:><(1,5)") (b "{""a"":[{""b"":[9,[2],4]}]}") (Some true).
Proof.
  do 4 eexists. split; [vm_compute; reflexivity|]. split; [apply parse_json_spec; vm_compute; reflexivity|]. split; [exact I|]. split; [exact I|].
  do 3 eexists. split; [vm_compute; reflexivity|]. split; [apply af_none|]. vm_compute. reflexivity.
Qed.

Example C29_example : let doc := b "{""a"":[1,[2],{""b"":3},{""b"":[4,[5]]}]}" in
  answers test_oracle (b "a:1") doc (Some true) /\ answers test_oracle (b "a:2") doc (Some false) /\
  answers test_oracle (b "a.b:3") doc (Some true) /\ answers test_oracle (b "a.b:4") doc (Some true) /\
  answers test_oracle (b "a.b:5") doc (Some false) /\ answers test_oracle (b "a:null") doc (Some false) /\
  answers test_oracle (b "a.b:exists") doc (Some true).
Proof.
  cbn zeta. repeat match goal with |- _ /\ _ => split end;
    do 3 eexists; (split; [vm_compute; reflexivity|]); (split; [apply af_none|]); vm_compute; reflexivity.
Qed.
Example C28_example : answers test_oracle (b "a.b:null") (b "{""a"":[{""b"":null},{""b"":null},3]}") (Some true) /\
  answers test_oracle (b "a.b:null") (b "{""a"":[{""b"":null},{""b"":1}]}") (Some false) /\
  answers test_oracle (b "a:null") (b "{""b"":null}") (Some false).
Proof.
  repeat match goal with |- _ /\ _ => split end;
    do 3 eexists; (split; [vm_compute; reflexivity|]); (split; [apply af_none|]); vm_compute; reflexivity.
Qed.

(** ** C30 *)
Lemma same_value_matcher O v w : same_value v w -> eq_matcher O v = eq_matcher O w.
Proof. unfold same_value. intros E. rewrite <- (eq_matcher_set O no_position v), <- (eq_matcher_set O no_position w). now rewrite E. Qed.

Theorem C30_set_is_or O q f vs p data qs rs r :
  parse_plain O q = QOk (NExpr EQ f vs p) ->
  Forall2 (fun v qv => exists v' p', parse_plain O qv = QOk (NExpr EQ f [v'] p') /\ same_value v v') vs qs ->
  Forall2 (fun qv rv => answers O qv data (Some rv)) qs rs ->
  answers O q data (Some r) -> r = existsb (fun x => x) rs.
Proof.
  intros P F G A. apply answers_iff in A as (t & m & Pt & B & A). rewrite P in Pt. injection Pt as <-.
  cbn [build build_exprs] in B. destruct (expr_eq O vs) as [es|] eqn:E; [|discriminate]. cbn [bind] in B. injection B as <-.
  unfold answer in A. destruct (parse_json data) as [root|] eqn:J; [|discriminate]. cbn [ev] in A. unfold expr_result in A.
  destruct (get_field f root) as [js|] eqn:Gf; [|discriminate]. cbn [bind] in A.
  assert (Each : forall qv v' p' rv e, parse_plain O qv = QOk (NExpr EQ f [v'] p') -> eq_matcher O v' = Ok e ->
    answers O qv data (Some rv) -> match js with [] => Ok false | _ => any_expr O [e] js end = Ok rv).
  { intros qv v' p' rv e Pv Ev Av. apply answers_iff in Av as (t & m & Pt & B & Av). rewrite Pv in Pt. injection Pt as <-.
    cbn [build build_exprs expr_eq eq_matchers] in B. rewrite Ev in B. cbn [bind] in B. injection B as <-.
    unfold answer in Av. rewrite J in Av. cbn [ev] in Av. unfold expr_result in Av. rewrite Gf in Av. cbn [bind] in Av.
    destruct (match js with [] => Ok false | _ :: _ => any_expr O [e] js end); [|discriminate]. cbn in Av. congruence. }
  assert (Nn : vs <> []) by (destruct vs; [discriminate|discriminate]).
  assert (E' : eq_matchers O vs = Ok es) by (destruct vs; [congruence|exact E]). clear E P p.
  assert (Main : match js with [] => Ok false | _ => any_expr O es js end = Ok (existsb (fun x => x) rs)).
  { clear A Nn. revert qs rs es F G E'. induction vs as [|v vs IH]; intros qs rs es F G E'.
    - inversion F; subst. inversion G; subst. injection E' as <-. now destruct js.
    - inversion F as [|? qv ? qs' (v' & p' & Pv & Sv) F' ]; subst. inversion G as [|? rv ? rs' Av G']; subst.
      cbn [eq_matchers] in E'. destruct (eq_matcher O v) as [e|] eqn:Ee; [|discriminate]. cbn [bind] in E'.
      destruct (eq_matchers O vs) as [es'|]; [|discriminate]. cbn [bind] in E'. injection E' as <-.
      specialize (IH _ _ _ F' G' eq_refl). rewrite (same_value_matcher O v v' Sv) in Ee.
      specialize (Each _ _ _ _ _ Pv Ee Av). destruct js as [|x js].
      + injection Each as <-. cbn. exact IH.
      + cbn [any_expr] in *. destruct (matches O e (x :: js)) as [y|]; [|discriminate]. cbn [bind] in *.
        destruct y; injection Each as <-; cbn [existsb]; [reflexivity|exact IH]. }
  rewrite Main in A. cbn in A. congruence.
Qed.
Print Assumptions C30_set_is_or.

Example C30_example : exists f p v1 v2 v1' v2' p1 p2,
  parse_plain test_oracle (b "a:(1, ""x"")") = QOk (NExpr EQ f [v1; v2] p) /\
  parse_plain test_oracle (b "a:1") = QOk (NExpr EQ f [v1'] p1) /\ same_value v1 v1' /\
  parse_plain test_oracle (b "a:""x""") = QOk (NExpr EQ f [v2'] p2) /\ same_value v2 v2' /\
  answers test_oracle (b "a:(1, ""x"")") (b "{""a"":""xy""}") (Some false) /\
  answers test_oracle (b "a:(1, ""x"")") (b "{""a"":""x y""}") (Some true) /\
  answers test_oracle (b "a:1") (b "{""a"":""x y""}") (Some false).
Proof.
  do 8 eexists. do 5 (split; [vm_compute; reflexivity|]). repeat match goal with |- _ /\ _ => split end;
    do 3 eexists; (split; [vm_compute; reflexivity|]); (split; [apply af_none|]); vm_compute; reflexivity.
Qed.

(** ** C31 *)
Theorem C31_similar_is_equal O q q' f vs vs' p p' data r :
  parse_plain O q = QOk (NExpr SIM f vs p) -> parse_plain O q' = QOk (NExpr EQ f vs' p') -> Forall2 same_value vs vs' ->
  answers O q data r <-> answers O q' data r.
Proof.
  intros P P' F.
  assert (E : expr_eq O vs = expr_eq O vs').
  { assert (eq_matchers O vs = eq_matchers O vs').
    { clear P P'. induction F as [|v v' vs vs' Sv F IH]; [reflexivity|]. cbn. now rewrite (same_value_matcher O v v' Sv), IH. }
    inversion F; subst; [reflexivity|]. exact H. }
  rewrite !answers_iff. split; intros (t & m & Pt & B & A).
  - rewrite P in Pt. injection Pt as <-. cbn in B. rewrite E in B. destruct (expr_eq O vs') as [es|] eqn:E'; [|discriminate].
    cbn in B. injection B as <-. eexists _, _. split; [exact P'|]. split; [cbn; rewrite E'; reflexivity|]. exact A.
  - rewrite P' in Pt. injection Pt as <-. cbn in B. rewrite <- E in B. destruct (expr_eq O vs) as [es|] eqn:E'; [|discriminate].
    cbn in B. injection B as <-. eexists _, _. split; [exact P|]. split; [cbn; rewrite E'; reflexivity|]. exact A.
Qed.
Print Assumptions C31_similar_is_equal.

Example C31_example : exists f vs vs' p p', parse_plain test_oracle (b "a:~(""x"", /y/)") = QOk (NExpr SIM f vs p) /\
  parse_plain test_oracle (b "a:(""x"", /y/)") = QOk (NExpr EQ f vs' p') /\ Forall2 same_value vs vs' /\
  answers test_oracle (b "a:~(""x"", /y/)") (b "{""a"":""y""}") (Some true).
Proof.
  do 5 eexists. split; [vm_compute; reflexivity|]. split; [vm_compute; reflexivity|]. split; [repeat constructor|].
  do 3 eexists. split; [vm_compute; reflexivity|]. split; [apply af_none|]. vm_compute. reflexivity.
Qed.

(** ** C36 *)
Theorem C36_bool O q f x sp p data j : parse_plain O q = QOk (NExpr EQ f [ABool x sp] p) -> document data j ->
  path_safe j f -> no_index j f -> answers O q data (Some true) <-> tested f j (JBool x).
Proof.
  intros P D S N. rewrite (C29_scalars O q EQ f _ p data j P) by (assumption || discriminate). split.
  - intros (s & Ss & T & v & [<-|[]] & E). cbn in E. subst. now split.
  - intros (Ss & T). exists (JBool x). split; [exact Ss|]. split; [exact T|]. eexists. split; [now left|reflexivity].
Qed.
Print Assumptions C36_bool.

Theorem C36_exclusive O q q' f s1 s2 p p' data j :
  parse_plain O q = QOk (NExpr EQ f [ABool true s1] p) -> parse_plain O q' = QOk (NExpr EQ f [ABool false s2] p') ->
  document data j -> path_safe j f -> no_index j f ->
  (forall x y, tested f j x -> tested f j y -> x = y) ->
  ~ (answers O q data (Some true) /\ answers O q' data (Some true)).
Proof.
  intros P P' D S N U [A A']. apply (C36_bool O q f true s1 p data j P D S N) in A.
  apply (C36_bool O q' f false s2 p' data j P' D S N) in A'. pose proof (U _ _ A A'). discriminate.
Qed.
Print Assumptions C36_exclusive.
Example C36_hypotheses : exists f s1 s2 p p' j, parse_plain test_oracle (b "a:true") = QOk (NExpr EQ f [ABool true s1] p) /\
  parse_plain test_oracle (b "a:false") = QOk (NExpr EQ f [ABool false s2] p') /\
  document (b "{""a"":[false,{""b"":true}]}") j /\ path_safe j f /\ no_index j f /\
  (forall x y, tested f j x -> tested f j y -> x = y) /\
  answers test_oracle (b "a:false") (b "{""a"":[false,{""b"":true}]}") (Some true).
Proof.
  do 6 eexists. split; [vm_compute; reflexivity|]. split; [vm_compute; reflexivity|]. split; [apply parse_json_spec; vm_compute; reflexivity|].
  split; [exact I|]. split; [exact I|]. split.
  - assert (U : forall x, tested [b "a"] (JObj [(b "a", JArr [JBool false; JObj [(b "b", JBool true)]])]) x -> x = JBool false).
    { intros x (Sc & [R|(els & R & Hin)]); inversion R as [? ? ? Hm|? ? ? ? ? Hm R'|? ? ? ? ? ? Hm Hi R']; subst;
        try (now inversion R'); apply lookup_member in Hm; vm_compute in Hm; injection Hm as <-.
      - exfalso. destruct Sc as [A B]. first [eapply A; reflexivity|eapply B; reflexivity].
      - destruct Hin as [<-|[<-|[]]]; [reflexivity|]. exfalso. destruct Sc as [A B]. first [eapply A; reflexivity|eapply B; reflexivity]. }
    intros x y Hx Hy. now rewrite (U x Hx), (U y Hy).
  - do 3 eexists. split; [vm_compute; reflexivity|]. split; [apply af_none|]. vm_compute. reflexivity.
Qed.

Example C36_example : answers test_oracle (b "a:true") (b "{""a"":[0,""true"",true]}") (Some true) /\
  answers test_oracle (b "a:true") (b "{""a"":[1,""true"",false,null,""t""]}") (Some false).
Proof.
  split; do 3 eexists; (split; [vm_compute; reflexivity|]); (split; [apply af_none|]); vm_compute; reflexivity.
Qed.

(** ** C44 *)
Theorem C44_invalid O m data : (~ exists j, document data j) -> match_doc O m data = Ok (None, m).
Proof.
  intros H. unfold match_doc. destruct (parse_json data) as [j|] eqn:E; [|reflexivity].
  exfalso. apply H. exists j. now apply parse_json_spec.
Qed.
Print Assumptions C44_invalid.
Theorem C44_valid O m data j m' : document data j -> match_doc O m data <> Ok (None, m').
Proof.
  intros D. apply parse_json_spec in D. unfold match_doc. rewrite D.
  destruct (result O m j) as [[a m1]|]; cbn; discriminate.
Qed.
Print Assumptions C44_valid.
Example C44_example : (~ exists j, document (b "{""a"":1,}") j) /\ (exists j, document (b " {""a"":1} ") j).
Proof.
  split.
  - intros (j & D). apply parse_json_spec in D. vm_compute in D. discriminate.
  - eexists. apply parse_json_spec. vm_compute. reflexivity.
Qed.

(** ** C45 *)
Theorem C45_named_members O q t d1 d2 ms1 ms2 r :
  parse_plain O q = QOk t -> document d1 (JObj ms1) -> document d2 (JObj ms2) ->
  (forall o key rest vs p, subnode (NExpr o (key :: rest) vs p) t ->
     forall child, member key (JObj ms1) child <-> member key (JObj ms2) child) ->
  answers O q d1 r <-> answers O q d2 r.
Proof.
  intros P D1 D2 Ag. apply parse_json_spec in D1, D2.
  assert (Ev : forall m, build O t = Ok m -> ev O m (JObj ms1) = ev O m (JObj ms2)).
  { clear P. induction t as [l IHl rr IHr|l IHl rr IHr|e IHe|o f vs p]; intros m; cbn [build].
    - destruct (build O l) as [x|]; [|discriminate]. destruct (build O rr) as [y|]; [|discriminate]. cbn. intros [= <-]. cbn [ev].
      rewrite (IHl ltac:(intros; eapply Ag, sub_and_l; eassumption) _ eq_refl).
      now rewrite (IHr ltac:(intros; eapply Ag, sub_and_r; eassumption) _ eq_refl).
    - destruct (build O l) as [x|]; [|discriminate]. destruct (build O rr) as [y|]; [|discriminate]. cbn. intros [= <-]. cbn [ev].
      rewrite (IHl ltac:(intros; eapply Ag, sub_or_l; eassumption) _ eq_refl).
      now rewrite (IHr ltac:(intros; eapply Ag, sub_or_r; eassumption) _ eq_refl).
    - destruct (build O e) as [x|]; [|discriminate]. cbn. intros [= <-]. cbn [ev].
      now rewrite (IHe ltac:(intros; eapply Ag, sub_not; eassumption) _ eq_refl).
    - destruct (build_exprs O o vs) as [es|]; [|discriminate]. cbn [bind]. intros [= <-]. cbn [ev]. unfold expr_result, get_field.
      destruct f as [|key rest]; [reflexivity|].
      replace (get_values (key :: rest) (JObj ms2)) with (get_values (key :: rest) (JObj ms1)); [reflexivity|].
      cbn [get_values json_get].
      replace (lookup key ms2) with (lookup key ms1); [reflexivity|].
      pose proof (Ag o key rest vs p (sub_refl _)) as H.
      destruct (lookup key ms1) as [c|] eqn:L1.
      + apply lookup_member, H, lookup_member in L1. congruence.
      + destruct (lookup key ms2) as [c|] eqn:L2; [|reflexivity]. apply lookup_member, H, lookup_member in L2. congruence. }
  rewrite !answers_iff. unfold answer. rewrite D1, D2.
  split; intros (t' & m & P' & B & A); exists t', m; (split; [exact P'|]); (split; [exact B|]);
    rewrite P in P'; injection P' as <-; rewrite <- A; [symmetry|]; f_equal; now apply Ev.
Qed.
Print Assumptions C45_named_members.
Example C45_hypotheses : exists t ms1 ms2, parse_plain test_oracle (b "a.b:1 AND !c:exists") = QOk t /\
  document (b "{""x"":null,""a"":{""b"":1},""y"":[]}") (JObj ms1) /\ document (b "{""a"":{""b"":1}}") (JObj ms2) /\
  (forall o key rest vs p, subnode (NExpr o (key :: rest) vs p) t ->
     forall child, member key (JObj ms1) child <-> member key (JObj ms2) child).
Proof.
  do 3 eexists. split; [vm_compute; reflexivity|]. split; [apply parse_json_spec; vm_compute; reflexivity|]. split; [apply parse_json_spec; vm_compute; reflexivity|].
  intros o key rest vs p H child. rewrite <- !lookup_member.
  repeat match goal with H : subnode _ _ |- _ => inversion H; clear H; subst end; vm_compute; tauto.
Qed.
Example C45_example : answers test_oracle (b "a.b:1 AND !c:exists") (b "{""x"":null,""a"":{""b"":1},""y"":[]}") (Some true) /\
  answers test_oracle (b "a.b:1 AND !c:exists") (b "{""a"":{""b"":1}}") (Some true).
Proof.
  split; do 3 eexists; (split; [vm_compute; reflexivity|]); (split; [apply af_none|]); vm_compute; reflexivity.
Qed.

(** ** C46 *)
Theorem C46_top_level_array_refuted : exists q data els element, forall O,
  document data (JArr els) /\ (exists j, els = [j] /\ document element j) /\
  answers O q element (Some true) /\ answers O q data (Some false).
Proof.
  exists (b "a:exists"), (b "[{""a"":1}]"), [JObj [(b "a", JNum (b "1"))]], (b "{""a"":1}"). intros O.
  split; [apply parse_json_spec; vm_compute; reflexivity|]. split.
  { eexists. split; [reflexivity|]. apply parse_json_spec. vm_compute. reflexivity. }
  split; do 3 eexists; (split; [vm_compute; reflexivity|]); (split; [apply af_none|]); vm_compute; reflexivity.
Qed.
Print Assumptions C46_top_level_array_refuted.

(** ** C73: nothing is found in a document that is not an object *)
Theorem C73_not_an_object O q o f vs p data j : parse_plain O q = QOk (NExpr o f vs p) -> document data j ->
  (forall ms, j <> JObj ms) -> path_safe j f -> no_index j f -> answers O q data (Some false).
Proof.
  intros P D No S N. destruct (C24_meaning O q _ data j P D) as [_ H].
  { intros o' f' vs' p' Sub. inversion Sub; subst. now split. }
  apply H. assert (Nr : forall v, ~ resolves f j v).
  { intros v R. destruct (resolves_object _ _ _ R) as (ms & E). now apply (No ms). }
  assert (Nt : forall s, ~ tested f j s) by (intros s (_ & [R|(els & R & _)]); eapply Nr; exact R).
  destruct o; cbn [holds]; intros X;
    try (destruct X as (v & s & _ & T & _); exact (Nt _ T)).
  - destruct X as (v & w & s & _ & T & _). exact (Nt _ T).
  - destruct X as (v & R). exact (Nr _ R).
  - destruct X as ((v & R) & _). exact (Nr _ R).
Qed.
Print Assumptions C73_not_an_object.
Example C73_example : exists f vs p j, parse_plain test_oracle (b "a.b:>1") = QOk (NExpr GT f vs p) /\
  document (b "[{""a"":{""b"":2}},[7]]") j /\ (forall ms, j <> JObj ms) /\ path_safe j f /\ no_index j f.
Proof.
  do 4 eexists. split; [vm_compute; reflexivity|]. split; [apply parse_json_spec; vm_compute; reflexivity|]. split; [discriminate|].
  split; vm_compute; intuition discriminate.
Qed.
(** The exception: a segment that looks like an index, on a top-level array. *)
Example C73_index : answers test_oracle (b """[1]"":2") (b "[1,2]") (Some true) /\
  answers test_oracle (b "a.""[1]"":2") (b "{""a"":[1,2]}") (Some false).
Proof.
  split; do 3 eexists; (split; [vm_compute; reflexivity|]); (split; [apply af_none|]); vm_compute; reflexivity.
Qed.
