(** C119: what happens when the advice of the messages about times and strings is followed. *)
From Verif Require Import Bytes Utf8 Utf8Proofs GoStrconv GoFloat GoTime GoNet Oracles Ast AstSpec LiteralSpec LiteralProofs Json JsonSpec JsonProofs Values StrMatch Matcher
  QueryMessages MatchApi MatchSpec MatchProofs MatcherTop Visitors ParseQuery ParserTop Validators TestOracle DateSpec DateProofs Prop_Match Prop_Dates Prop_Validators SimpleQuery Wasm Texts.
From Verif Require GrammarSpec.
From Coq Require Import ZifyBool ZifyN ZifyNat.

(** ** The web page: use [:~] (wasm/aqlparse/warnings.go:56-58) *)
(** No accepted query compares a time with the similarity operator, *)
Theorem C119_no_similar_time O q t f vs p i d s u : parse_plain O q = QOk t -> subnode (NExpr SIM f vs p) t -> ~ In (ATime i d s u) vs.
Proof. intros P Sb Iv. destruct (C16_accepted_arguments O q t SIM f vs p P Sb) as [_ H]. specialize (H _ Iv). inversion H. Qed.
Print Assumptions C119_no_similar_time.
Lemma SIM_dates O : exists p, parse_plain O (b "a:~2021-01-01") = QErr (QInvalid (VeNeedsStringy SIM) p) /\ p_off p = 3%Z.
Proof. eexists. split; vm_compute; reflexivity. Qed.
(** and what is written as the page says is refused. *)
Theorem C119_similar_refuted : exists q q', q = b "a:2021-01-01" /\ q' = b "a:~2021-01-01" /\
  forall O, (exists text m, p_wrap O q = WebRes text [m] /\ w_kind m = MWarning /\ w_text m = WHint HExactTime) /\
    (forall t, parse_plain O q' <> QOk t) /\ exists m, p_wrap O q' = WebRes [] [m] /\ w_kind m = MError.
Proof.
  do 2 eexists. split; [reflexivity|]. split; [reflexivity|]. intros O. split; [|split].
  - do 2 eexists. split; [vm_compute; reflexivity|]. split; vm_compute; reflexivity.
  - intros t. destruct (SIM_dates O) as (p & -> & _). discriminate.
  - eexists. split; [vm_compute; reflexivity|]. vm_compute; reflexivity.
Qed.
Print Assumptions C119_similar_refuted.

(** ** The matcher: use [:] and a short date (jsonmatcher/query_messages.go:57-60) *)
(** The first ten characters of a timestamp are the date that is written there. *)
Lemma stamp_date u s ns : timestamp_denotes u s ns -> exists n, date_denotes (firstn 10 u) n.
Proof.
  intros T. destruct T as [d n h m se f ns z off D H M S R1 R2 R3 F Z]. exists n. pose proof (date_len _ (date_denotes_lit _ _ D)) as Ln.
  rewrite firstn_app, Ln. change (10 - 10)%nat with 0%nat. rewrite firstn_O, app_nil_r, (firstn_all2 d) by lia. exact D.
Qed.
(** With it in place of the timestamp the query is one on the same field, *)
Theorem C119_short O ft f u s ns n : GrammarSpec.field ft f -> scalars ft -> timestamp_denotes u s ns -> date_denotes (firstn 10 u) n ->
  exists v w p p',
    parse_plain O (encode (ft ++ b ":" ++ u)) = QOk (NExpr EQ f [ATime {| i_sec := s; i_nsec := ns |} false u v] p) /\
    parse_plain O (encode (ft ++ b ":" ++ firstn 10 u)) = QOk (NExpr EQ f [ATime {| i_sec := n * 86400; i_nsec := 0 |} true (firstn 10 u) w] p').
Proof.
  intros F Sf T D. pose proof (timestamp_denotes_lit _ _ _ T) as Lt. pose proof (date_denotes_lit _ _ D) as Ld.
  do 4 eexists. split.
  - apply (accept_one O ft f u); [exact F|exact Sf|now apply ascii_scalars, datetime_ascii|]. apply timestamp_literal; [exact Lt|]. eauto.
  - apply (accept_one O ft f (firstn 10 u)); [exact F|exact Sf|now apply ascii_scalars, date_ascii|]. apply date_literal; [exact Ld|]. eauto.
Qed.
Print Assumptions C119_short.
(** and it answers true for the documents of the exact query if the instant lies on that day in UTC. *)
Theorem C119_day O ft f u s ns n data j : GrammarSpec.field ft f -> scalars ft -> timestamp_denotes u s ns -> date_denotes (firstn 10 u) n ->
  (-106751 <= n < 106751)%Z -> near {| i_sec := s; i_nsec := ns |} -> document data j -> path_safe j f -> no_index j f ->
  (forall x i, tested f j x -> instant_of O x i -> normal i /\ near i) -> (s / 86400 = n)%Z ->
  answers O (encode (ft ++ b ":" ++ u)) data (Some true) -> answers O (encode (ft ++ b ":" ++ firstn 10 u)) data (Some true).
Proof.
  intros F Sf T D Rn Nr Dc Ps Ni All Dy A. destruct (C119_short O ft f u s ns n F Sf T D) as (v & w & p & p' & P & P').
  pose proof (timestamp_denotes_lit _ _ _ T) as Lt. pose proof (date_denotes_lit _ _ D) as Ld.
  assert (L : GrammarSpec.literal O u v (ATime {| i_sec := s; i_nsec := ns |} false u v)) by (apply timestamp_literal; eauto).
  rewrite (C75_time_line O _ EQ f _ p u _ data j (or_introl eq_refl) (fun _ X => not_both _ X Lt) P L (ni_time _ _ _ T) Nr Dc Ps Ni All) in A.
  destruct A as (x & i & Tx & Hi & E). cbn [time_rel] in E. subst i.
  assert (L' : GrammarSpec.literal O (firstn 10 u) w (ATime {| i_sec := n * 86400; i_nsec := 0 |} true (firstn 10 u) w)) by (apply date_literal; eauto).
  apply (C76_day O _ f _ p' (firstn 10 u) n data j P' L' D Rn Dc Ps Ni All). exists x. eexists. split; [exact Tx|]. split; [exact Hi|exact Dy].
Qed.
Print Assumptions C119_day.
Example C119_example : exists u s ns n, u = b "2021-01-01T20:00:00-03:00" /\ GrammarSpec.field (b "a") [b "a"] /\ scalars (b "a") /\ timestamp_denotes u s ns /\
  date_denotes (firstn 10 u) n /\ (-106751 <= n < 106751)%Z /\ near {| i_sec := s; i_nsec := ns |} /\ (s / 86400 = n)%Z /\
  (exists m x, new_matcher test_oracle (b "a:2021-01-01T20:00:00-03:00") = NewOk m /\ mt_messages m = [x] /\ m_text x = HExactTime) /\
  answers test_oracle (b "a:2021-01-01T20:00:00-03:00") (b "{""a"":""2021-01-01T23:00:00Z""}") (Some true) /\
  answers test_oracle (b "a:2021-01-01") (b "{""a"":""2021-01-01T23:00:00Z""}") (Some true).
Proof.
  assert (D : date_denotes (b "2021-01-01") 18628) by (apply (date_names (b "2021") (b "01") (b "01")); try digits_of; vm_compute; reflexivity).
  do 4 eexists. split; [reflexivity|]. split; [exact field_a|]. split; [repeat constructor|]. split.
  { apply (ts (b "2021-01-01") 18628 (b "20") (b "00") (b "00") [] 0 (b "-03:00") (-10800) D); try digits_of; try (vm_compute; discriminate); [constructor|].
    apply (zn_minus (b "03") (b "00")); try digits_of; vm_compute; discriminate. }
  split; [exact D|]. split; [lia|]. split; [vm_compute; split; [discriminate|reflexivity]|]. split; [vm_compute; reflexivity|].
  split; [do 2 eexists; split; [vm_compute; reflexivity|]; split; vm_compute; reflexivity|].
  split; do 3 eexists; (split; [vm_compute; reflexivity|]); (split; [apply af_none|]); vm_compute; reflexivity.
Qed.
(** Otherwise the day of the short date may be another one. *)
Theorem C119_day_refuted : exists q q' data, q = b "a:2021-01-01T20:00:00-05:00" /\ q' = b "a:2021-01-01" /\
  (forall O, exists m x, new_matcher O q = NewOk m /\ mt_messages m = [x] /\ m_text x = HExactTime) /\
  answers test_oracle q data (Some true) /\ answers test_oracle q' data (Some false).
Proof.
  do 2 eexists. exists (b "{""a"":""2021-01-01T20:00:00-05:00""}"). split; [reflexivity|]. split; [reflexivity|].
  split; [intros O; do 2 eexists; split; [vm_compute; reflexivity|]; split; vm_compute; reflexivity|].
  split; do 3 eexists; (split; [vm_compute; reflexivity|]); (split; [apply af_none|]); vm_compute; reflexivity.
Qed.
Print Assumptions C119_day_refuted.

(** ** Both: a fuzzy match (jsonmatcher/query_messages.go:30, wasm/aqlparse/warnings.go:27) *)
(** The query that is proposed is accepted; the second string is no language but another string to look for,
    and the matcher advises against both. *)
Definition fuzzy : bytes := b "field:~(""value"", ""language"")".
Theorem C119_fuzzy : exists v w p, (forall O, parse_plain O fuzzy = QOk (NExpr SIM [b "field"] [AStr (b "value") v; AStr (b "language") w] p)) /\
  (forall O, exists m, new_matcher O fuzzy = NewOk m /\ map m_text (mt_messages m) = [HSimString; HSimString]).
Proof. do 3 eexists. split; intros O; [vm_compute; reflexivity|]. eexists. split; vm_compute; reflexivity. Qed.
Print Assumptions C119_fuzzy.
Theorem C119_fuzzy_refuted : exists data, data = b "{""field"":""my language""}" /\ answers test_oracle fuzzy data (Some true).
Proof. eexists. split; [reflexivity|]. do 3 eexists. split; [vm_compute; reflexivity|]. split; [apply af_none|]. vm_compute. reflexivity. Qed.
Print Assumptions C119_fuzzy_refuted.
