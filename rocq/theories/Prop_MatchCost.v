(** C148: how many comparisons a call of Match makes. *)
From Verif Require Import Bytes Utf8 Utf8Proofs GoStrconv GoFloat GoTime GoNet Oracles Ast AstSpec Json JsonSpec JsonProofs Values StrMatch Matcher
  QueryMessages MatchApi MatchSpec MatchProofs MatcherTop Visitors ParseQuery TestOracle MatchCost.
From Verif Require GrammarSpec Prop_Grammar.
From Verif Require Import NestCost.

(** The values in a document, itself included. *)
Fixpoint size (j : json) : nat :=
  S (match j with
     | JArr els => list_sum (map size els)
     | JObj ms => list_sum (map (fun x => size (snd x)) ms)
     | _ => 0%nat
     end).
(** The literals of a query; an operator without literals counts as one. *)
Fixpoint literals (t : node) : nat :=
  match t with
  | NAnd l r | NOr l r => (literals l + literals r)%nat
  | NNot e => literals e
  | NExpr _ _ vs _ => Nat.max 1 (length vs)
  end.

(** A document has at most as many values as bytes. *)
Lemma number_nonempty s : number_text s -> s <> [].
Proof. intros [sg i f e _ Hi _ _] E. apply app_eq_nil in E as (_ & E). apply app_eq_nil in E as (E & _). subst i. inversion Hi. Qed.
Lemma size_text : (forall s j, value_text s j -> (size j <= length s)%nat) /\
  (forall s vs, elements_text s vs -> (list_sum (map size vs) <= length s)%nat) /\
  (forall s ms, members_text s ms -> (list_sum (map (fun x => size (snd x)) ms) <= length s)%nat).
Proof.
  apply json_ind; intros; cbn [size map list_sum fold_right snd length]; rewrite ?app_length; cbn [length]; rewrite ?app_length; cbn [length];
    rewrite ?app_length; cbn [length]; rewrite ?app_length; cbn [length]; rewrite ?app_length; cbn [length]; unfold list_sum in *; try lia; try (vm_compute; lia).
  match goal with H : number_text ?s |- _ => apply number_nonempty in H; destruct s; [congruence|cbn; lia] end.
Qed.
Lemma size_document data j : document data j -> (size j <= length data)%nat.
Proof. intros (w1 & s & w2 & -> & _ & V & _). apply (proj1 size_text) in V. rewrite !app_length. lia. Qed.

(** The values a path leads to lie apart from each other in the document. *)
Lemma lookup_size key ms c : lookup key ms = Some c -> (size c <= list_sum (map (fun x => size (snd x)) ms))%nat.
Proof.
  induction ms as [|[k v] ms IH]; cbn; [discriminate|]. destruct (unescape k); [|discriminate].
  destruct (beqb _ _); [intros [= ->]; lia|]. intros H. apply IH in H. unfold list_sum in H. lia.
Qed.
Lemma nth_size els i c : nth_error els i = Some c -> (size c <= list_sum (map size els))%nat.
Proof.
  revert i. induction els as [|e els IH]; intros [|i]; cbn; try discriminate; [intros [= ->]; lia|]. intros H. apply IH in H. unfold list_sum in H. lia.
Qed.
Lemma get_size key j c : json_get key j = Ok (Some c) -> (S (size c) <= size j)%nat.
Proof.
  destruct j as [|x|x|x|els|ms]; cbn [json_get]; try discriminate.
  - destruct key as [|h t]; [discriminate|]. destruct (h =? 91); [|discriminate]. destruct (rev t) as [|e i]; [discriminate|]. destruct (e =? 93); [|discriminate].
    destruct (parse_int _) as [z|]; [|discriminate]. destruct (z <? 0)%Z; [discriminate|]. intros [= H]. apply nth_size in H. cbn. lia.
  - intros [= H]. apply lookup_size in H. cbn. lia.
Qed.
Lemma values_size path : forall j vs, get_values path j = Ok vs -> (list_sum (map size vs) <= size j)%nat.
Proof.
  induction path as [|key rest IH]; intros j vs; cbn [get_values]; [discriminate|].
  destruct (json_get key j) as [[c|]|] eqn:G; cbn [bind]; [|intros [= <-]; cbn; lia|discriminate]. apply get_size in G.
  destruct rest as [|k2 rest]; [intros [= <-]; cbn; lia|]. destruct c as [|x|x|x|els|ms]; try (intros [= <-]; cbn; lia).
  - intros H. assert (Q : (list_sum (map size vs) <= list_sum (map size els))%nat); [|cbn in G; lia]. clear G.
    revert vs H. induction els as [|e els IHe]; intros vs; cbn [map concat_res].
    + intros [= <-]. cbn. lia.
    + destruct (if is_object e then get_values (k2 :: rest) e else Ok []) as [a|] eqn:Ea; [|discriminate]. cbn [bind].
      destruct (concat_res _) as [c|]; [|discriminate]. cbn [bind]. intros [= <-]. specialize (IHe c eq_refl).
      assert (La : (list_sum (map size a) <= size e)%nat) by (destruct (is_object e); [now apply IH|injection Ea as <-; cbn; lia]).
      rewrite map_app, list_sum_app. cbn [list_sum fold_right]. unfold list_sum in *. lia.
  - intros H. apply IH in H. lia.
Qed.
Lemma scalars_size vs : (length (scalar_values vs) <= list_sum (map size vs))%nat.
Proof.
  assert (F : forall els, (length (filter is_scalar_json els) <= list_sum (map size els))%nat).
  { induction els as [|e els IH]; cbn [filter map list_sum fold_right]; [cbn; lia|]. destruct (is_scalar_json e); cbn [length]; unfold list_sum in IH; destruct e; cbn [size]; lia. }
  induction vs as [|v vs IH]; [cbn; lia|]. cbn [scalar_values map list_sum fold_right]. unfold list_sum in IH.
  destruct v as [|x|x|x|els|ms]; cbn [length size]; try lia. rewrite app_length. specialize (F els). unfold list_sum in *. lia.
Qed.
Lemma length_size vs : (length vs <= list_sum (map size vs))%nat.
Proof. induction vs as [|v vs IH]; [cbn; lia|]. cbn [map list_sum fold_right length]. unfold list_sum in IH. destruct v; cbn [size]; lia. Qed.

Section P.
Context (O : oracles).

(** The counting does not change what is done. *)
Lemma any_same f vs : fst (any_count f vs) = any_res f vs /\ snd (any_count f vs) <= N.of_nat (length vs).
Proof.
  induction vs as [|v vs (IH & L)]; [split; [reflexivity|cbn; lia]|]. cbn [any_count any_res]. destruct (f v) as [[|]|]; cbn [bind fst snd length]; [split; [reflexivity|lia]| |split; [reflexivity|lia]].
  destruct (any_count f vs) as [r k]. cbn [fst snd] in *. split; [exact IH|lia].
Qed.
Lemma nulls_same vs : fst (nulls_count vs) = Ok (forallb is_null vs) /\ snd (nulls_count vs) <= N.of_nat (length vs).
Proof.
  induction vs as [|v vs (IH & L)]; [split; [reflexivity|cbn; lia]|]. cbn [nulls_count forallb]. destruct (is_null v); cbn [andb]; [|cbn [fst snd length]; split; [reflexivity|lia]].
  destruct (nulls_count vs) as [r k]. cbn [fst snd length] in *. split; [exact IH|lia].
Qed.
Lemma matches_same e vs : fst (matches_count O e vs) = matches O e vs /\ snd (matches_count O e vs) <= N.of_nat (list_sum (map size vs)).
Proof.
  pose proof (scalars_size vs) as Ls. pose proof (length_size vs) as Lv.
  destruct e; cbn [matches_count matches];
    try match goal with |- context [any_count ?f ?l] => destruct (any_same f l) as (E & L); split; [exact E|lia] end.
  - split; [reflexivity|cbn; lia].
  - destruct (nulls_same vs) as (E & L). split; [exact E|lia].
Qed.
Lemma exprs_same es vs : fst (any_expr_count O es vs) = any_expr O es vs /\ snd (any_expr_count O es vs) <= N.of_nat (length es * list_sum (map size vs)).
Proof.
  induction es as [|e es (IH & L)]; [split; [reflexivity|cbn; lia]|]. cbn [any_expr_count any_expr]. destruct (matches_same e vs) as (E & Le).
  destruct (matches_count O e vs) as [[[|]|] k]; cbn [fst snd] in E, Le; rewrite <- E; cbn [bind fst snd length]; try (split; [reflexivity|nia]).
  destruct (any_expr_count O es vs) as [r k']. cbn [fst snd] in *. split; [exact IH|nia].
Qed.
Lemma expr_same path es j : fst (expr_count O path es j) = expr_result O path es j /\ snd (expr_count O path es j) <= N.of_nat (length es * size j).
Proof.
  unfold expr_count, expr_result, get_field. destruct (get_values path j) as [vs|] eqn:G; [|split; [reflexivity|cbn; lia]]. apply values_size in G.
  destruct (exprs_same es vs) as (E & L). destruct vs as [|v vs]; [split; [reflexivity|cbn; lia]|]. cbn [bind]. split; [exact E|]. nia.
Qed.
Lemma result_same m j : fst (result_count O m j) = ev O m j.
Proof.
  induction m as [l IHl r IHr st|l IHl r IHr st|e IHe st|path es st]; cbn [result_count ev].
  - rewrite <- IHl, <- IHr. destruct (result_count O l j) as [[[|]|] k], (result_count O r j); reflexivity.
  - rewrite <- IHl, <- IHr. destruct (result_count O l j) as [[[|]|] k], (result_count O r j); reflexivity.
  - rewrite <- IHe. destruct (result_count O e j) as [[[|]|] k]; reflexivity.
  - apply expr_same.
Qed.

Lemma exprs_length o vs es : build_exprs O o vs = Ok es -> (length es <= Nat.max 1 (length vs))%nat.
Proof.
  assert (Q : forall vs es, eq_matchers O vs = Ok es -> length es = length vs).
  { clear. induction vs as [|v vs IH]; intros es; cbn [eq_matchers]; [intros [= <-]; reflexivity|].
    destruct (eq_matcher O v); [|discriminate]. cbn [bind]. destruct (eq_matchers O vs) as [l|]; [|discriminate]. cbn [bind]. intros [= <-]. cbn. now rewrite (IH l). }
  assert (Q2 : expr_eq O vs = Ok es -> (length es <= Nat.max 1 (length vs))%nat) by (unfold expr_eq; destruct vs; [discriminate|intros H; apply Q in H; lia]).
  assert (Q3 : forall e, bind e (fun x => Ok [x]) = Ok es -> (length es <= Nat.max 1 (length vs))%nat).
  { intros [x|] H; cbn in H; [injection H as <-; cbn [length]; lia|discriminate]. }
  destruct o; cbn [build_exprs]; first [exact Q2 | exact (Q3 _) | intros [= <-]; cbn [length]; lia].
Qed.
Lemma result_bound t j : forall r m, build O t = Ok r -> shape m = shape r -> snd (result_count O m j) <= N.of_nat (literals t * size j).
Proof.
  induction t as [l IHl r0 IHr|l IHl r0 IHr|e IHe|o f vs p]; intros r m; cbn [build literals].
  - destruct (build O l) as [bl|]; [|discriminate]. destruct (build O r0) as [br|]; [|discriminate]. cbn [bind]. intros [= <-]. destruct m as [ml mr st| | |]; try discriminate.
    cbn [shape]. intros [= Sl Sr _]. specialize (IHl _ ml eq_refl Sl). specialize (IHr _ mr eq_refl Sr). cbn [result_count].
    destruct (result_count O ml j) as [[[|]|] k], (result_count O mr j) as [x k']; cbn [snd] in *; nia.
  - destruct (build O l) as [bl|]; [|discriminate]. destruct (build O r0) as [br|]; [|discriminate]. cbn [bind]. intros [= <-]. destruct m as [|ml mr st| |]; try discriminate.
    cbn [shape]. intros [= Sl Sr _]. specialize (IHl _ ml eq_refl Sl). specialize (IHr _ mr eq_refl Sr). cbn [result_count].
    destruct (result_count O ml j) as [[[|]|] k], (result_count O mr j) as [x k']; cbn [snd] in *; nia.
  - destruct (build O e) as [be|]; [|discriminate]. cbn [bind]. intros [= <-]. destruct m as [| |me st|]; try discriminate.
    cbn [shape]. intros [= Se _]. specialize (IHe _ me eq_refl Se). cbn [result_count]. destruct (result_count O me j) as [[[|]|] k]; exact IHe.
  - destruct (build_exprs O o vs) as [es|] eqn:E; [|discriminate]. cbn [bind]. intros [= <-]. destruct m as [| | |pt ms st]; try discriminate.
    cbn [shape]. intros [= -> -> _]. cbn [result_count]. apply exprs_length in E. destruct (expr_same f es j) as (_ & L). nia.
Qed.

(** A query has at most as many literals as bytes. *)
Lemma more_length pre t vs : GrammarSpec.more_values O pre t vs -> (length vs <= length t)%nat.
Proof. induction 1; cbn [length]; rewrite !app_length; cbn; [lia|]. lia. Qed.
Lemma derives_length l pre t n : GrammarSpec.derives O l pre t n -> (literals n <= length t)%nat.
Proof.
  induction 1; cbn [literals]; try assumption; try (rewrite ?app_length in *; lia).
  - unfold t. rewrite !app_length. cbn. lia.
  - unfold t. rewrite !app_length. match goal with V : GrammarSpec.values O _ _ _ |- _ => inversion V; subst end.
    + cbn. lia.
    + match goal with M : GrammarSpec.more_values O _ _ _ |- _ => apply more_length in M end. rewrite !app_length. cbn. lia.
Qed.
Lemma literals_length q t : parse_plain O q = QOk t -> (literals t <= length q)%nat.
Proof.
  intros P. apply Prop_Grammar.C03_language in P as (text & _ & -> & (w1 & a & w2 & -> & _ & _ & D) & _). apply derives_length in D.
  pose proof (text_len (w1 ++ a ++ w2)) as L. rewrite !app_length in L. lia.
Qed.
End P.

(** What Match does, and how many comparisons it makes for it: at most the literals of the query times the values of the
    document, and so at most the length of the query times the length of the text; whatever was matched before. *)
Theorem C148_bound O q t m m1 data : parse_plain O q = QOk t -> new_matcher O q = NewOk m -> after O (mt_root m) m1 ->
  fst (match_count O m1 data) = bind (match_doc O m1 data) (fun x => Ok (fst x)) /\
  (forall j, document data j -> snd (match_count O m1 data) <= N.of_nat (literals t * size j)) /\
  snd (match_count O m1 data) <= N.of_nat (length q * length data).
Proof.
  intros P Nm A. destruct (new_matcher_accepted O q t P) as (r & B & E). rewrite E in Nm. injection Nm as <-. cbn in A.
  assert (Sh : shape m1 = shape r) by now apply after_shape in A.
  assert (Bd : forall j, document data j -> snd (match_count O m1 data) <= N.of_nat (literals t * size j)).
  { intros j D. apply parse_json_spec in D. unfold match_count. rewrite D. pose proof (result_bound O t j r m1 B Sh) as L. destruct (result_count O m1 j). exact L. }
  split; [|split; [exact Bd|]].
  - unfold match_count, match_doc. destruct (parse_json data) as [j|]; [|reflexivity]. pose proof (result_same O m1 j) as R. pose proof (result_ev O m1 j) as V.
    destruct (result_count O m1 j) as [x k]. cbn [fst] in *. subst x. destruct (result O m1 j) as [[a m']|]; [destruct V as (-> & _)|rewrite V]; reflexivity.
  - destruct (parse_json data) as [j|] eqn:J; [|unfold match_count; rewrite J; cbn; lia]. apply parse_json_spec in J. specialize (Bd j J).
    apply size_document in J. apply literals_length in P. nia.
Qed.
Print Assumptions C148_bound.

(** The values that one comparison looks at are parts of the document that do not overlap: the sum of their sizes is at
    most the size of the document. *)
Theorem C148_apart path j vs : get_field path j = Ok vs -> (list_sum (map size vs) <= size j)%nat.
Proof. exact (values_size path j vs). Qed.
Print Assumptions C148_apart.

(** The bound is what it takes to answer no: each literal is compared with each scalar value of the field. *)
Theorem C148_exact O q f vs p m data j vals : parse_plain O q = QOk (NExpr EQ f vs p) -> new_matcher O q = NewOk m -> document data j ->
  get_field f j = Ok vals -> fst (match_count O (mt_root m) data) = Ok (Some false) ->
  snd (match_count O (mt_root m) data) = N.of_nat (length vs) * N.of_nat (length (scalar_values vals)).
Proof.
  intros P Nm D G. destruct (new_matcher_accepted O q _ P) as (r & B & E). rewrite E in Nm. injection Nm as <-. cbn [mt_root].
  apply parse_json_spec in D. unfold match_count. rewrite D. cbn [build] in B. destruct (build_exprs O EQ vs) as [es|] eqn:Be; [|discriminate]. cbn [bind] in B. injection B as <-.
  cbn [result_count]. unfold expr_count. rewrite G. cbn [build_exprs] in Be. unfold expr_eq in Be.
  assert (Be2 : eq_matchers O vs = Ok es) by (destruct vs; [discriminate|exact Be]). clear Be P E.
  assert (A : forall f0 l, fst (any_count f0 l) = Ok false -> snd (any_count f0 l) = N.of_nat (length l)).
  { clear. induction l as [|v l IH]; [reflexivity|]. cbn [any_count]. destruct (f0 v) as [[|]|]; try discriminate. destruct (any_count f0 l) as [x k]. cbn [fst snd length] in *. intros H. rewrite IH by exact H. lia. }
  assert (Mc : forall v e, eq_matcher O v = Ok e -> fst (matches_count O e vals) = Ok false -> snd (matches_count O e vals) = N.of_nat (length (scalar_values vals))).
  { intros v e He. destruct v; cbn [eq_matcher] in He; try (match type of He with context [if ?x then _ else _] => destruct x end);
      try (injection He as <-; cbn [matches_count]; apply A).
    all: unfold string_matcher in He; destruct (negb _ && negb _); [injection He as <-; apply A|]; destruct (rx_compile _); [injection He as <-; apply A|discriminate]. }
  assert (Ex : fst (any_expr_count O es vals) = Ok false -> snd (any_expr_count O es vals) = N.of_nat (length vs) * N.of_nat (length (scalar_values vals))).
  { clear G D j. revert es Be2. induction vs as [|v vs IH]; intros es; cbn [eq_matchers]; [intros [= <-]; reflexivity|].
    destruct (eq_matcher O v) as [e|] eqn:Ev; [|discriminate]. cbn [bind]. destruct (eq_matchers O vs) as [es'|]; [|discriminate]. cbn [bind]. intros [= <-]. cbn [any_expr_count].
    specialize (Mc v e Ev). destruct (matches_count O e vals) as [[[|]|] k]; try discriminate. specialize (IH es' eq_refl). destruct (any_expr_count O es' vals) as [x k']. cbn [fst snd length] in *.
    intros H. rewrite Mc, IH by (exact H || reflexivity). lia. }
  destruct vals as [|v0 vals]; [intros _; cbn; lia|]. destruct (any_expr_count O es (v0 :: vals)) as [[x|] k]; cbn [bind fst snd] in *; [|discriminate]. intros [= ->]. now apply Ex.
Qed.
Print Assumptions C148_exact.

(** A question for null that is answered with yes looks at every value of its field; one that is answered with no stops at
    the first value that is not null; a question whether the field exists compares nothing. *)
Theorem C148_null O q f vs p m data j vals : parse_plain O q = QOk (NExpr NUL f vs p) -> new_matcher O q = NewOk m -> document data j ->
  get_field f j = Ok vals ->
  (fst (match_count O (mt_root m) data) = Ok (Some true) -> snd (match_count O (mt_root m) data) = N.of_nat (length vals)) /\
  (forall l v r, vals = l ++ v :: r -> (forall x, In x l -> x = JNull) -> v <> JNull ->
     match_count O (mt_root m) data = (Ok (Some false), N.of_nat (length l) + 1)).
Proof.
  intros P Nm D G. destruct (new_matcher_accepted O q _ P) as (r & B & E). rewrite E in Nm. injection Nm as <-. cbn [mt_root].
  apply parse_json_spec in D. unfold match_count. rewrite D. cbn [build build_exprs bind] in B. injection B as <-. cbn [result_count]. unfold expr_count. rewrite G.
  assert (A : fst (nulls_count vals) = Ok true -> snd (nulls_count vals) = N.of_nat (length vals)).
  { clear. induction vals as [|v l IH]; [reflexivity|]. cbn [nulls_count]. destruct (is_null v); [|discriminate]. destruct (nulls_count l) as [x k]. cbn [fst snd length] in *. intros H. rewrite IH by exact H. lia. }
  assert (S : forall l v r, vals = l ++ v :: r -> (forall x, In x l -> x = JNull) -> v <> JNull -> nulls_count vals = (Ok false, N.of_nat (length l) + 1)).
  { clear. intros l v r -> Hl Hv. induction l as [|x l IH]; cbn [app nulls_count length].
    - destruct v; [contradiction| | | | |]; reflexivity.
    - rewrite (Hl x (or_introl eq_refl)). cbn [is_null]. rewrite IH by (intros y Hy; apply Hl; now right). f_equal. lia. }
  destruct vals as [|v0 vals]; [split; [discriminate|intros [|? ?] ? ?; discriminate]|]. cbn [any_expr_count matches_count].
  destruct (nulls_count (v0 :: vals)) as [[[|]|] k] eqn:Ek; cbn [bind fst snd] in *.
  - split; [intros _; now apply A|]. intros l v r Hs Hl Hv. specialize (S l v r Hs Hl Hv). discriminate.
  - split; [discriminate|]. intros l v r Hs Hl Hv. specialize (S l v r Hs Hl Hv). injection S as ->. rewrite N.add_0_r. reflexivity.
  - split; [discriminate|]. intros l v r Hs Hl Hv. specialize (S l v r Hs Hl Hv). discriminate.
Qed.
Print Assumptions C148_null.
Theorem C148_exists O q f vs p m data : parse_plain O q = QOk (NExpr EXS f vs p) -> new_matcher O q = NewOk m ->
  snd (match_count O (mt_root m) data) = 0.
Proof.
  intros P Nm. destruct (new_matcher_accepted O q _ P) as (r & B & E). rewrite E in Nm. injection Nm as <-. cbn [mt_root].
  unfold match_count. destruct (parse_json data) as [j|]; [|reflexivity]. cbn [build build_exprs bind] in B. injection B as <-. cbn [result_count]. unfold expr_count.
  destruct (get_field f j) as [[|v vals]|]; reflexivity.
Qed.
Print Assumptions C148_exists.

(** The number of literals times the number of values is reached up to the array and the object around them. *)
Example C148_example : exists t m, let q := b "a:(1,2,3)" in let data := b "{""a"":[4,5,6,7]}" in
  parse_plain test_oracle q = QOk t /\ new_matcher test_oracle q = NewOk m /\ after test_oracle (mt_root m) (mt_root m) /\
  literals t = 3%nat /\ document data (JObj [(b "a", JArr [JNum (b "4"); JNum (b "5"); JNum (b "6"); JNum (b "7")])]) /\
  match_count test_oracle (mt_root m) data = (Ok (Some false), 12).
Proof.
  do 2 eexists. cbn zeta. split; [vm_compute; reflexivity|]. split; [vm_compute; reflexivity|]. split; [apply af_none|]. split; [vm_compute; reflexivity|].
  split; [apply parse_json_spec; vm_compute; reflexivity|vm_compute; reflexivity].
Qed.
(** Both answers to a question for null, and a question whether a field exists. *)
Example C148_null_example : exists m me f p, let yes := b "{""a"":[{""b"":null},{""b"":null},{""b"":null}]}" in let no := b "{""a"":[{""b"":null},{""b"":1},{""b"":null}]}" in
  parse_plain test_oracle (b "a.b:null") = QOk (NExpr NUL f [] p) /\ new_matcher test_oracle (b "a.b:null") = NewOk m /\
  match_count test_oracle (mt_root m) yes = (Ok (Some true), 3) /\ match_count test_oracle (mt_root m) no = (Ok (Some false), 2) /\
  new_matcher test_oracle (b "a.b:exists") = NewOk me /\ match_count test_oracle (mt_root me) no = (Ok (Some true), 0).
Proof. do 4 eexists. cbn zeta. repeat (split; [vm_compute; reflexivity|]). vm_compute. reflexivity. Qed.
