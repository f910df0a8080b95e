(** C37, C38, C75, C76: timestamps. *)
From Verif Require Import Bytes Utf8 GoStrconv GoFloat GoTime GoNet Oracles Ast AstSpec LiteralSpec LiteralProofs Json JsonSpec JsonProofs Values StrMatch Matcher
  QueryMessages MatchApi MatchSpec MatchProofs MatcherTop Visitors ParseQuery TestOracle DateSpec DateProofs Prop_Match.
From Verif Require GrammarSpec.
From Coq Require Import ZifyBool ZifyN ZifyNat.

Lemma date_names (y m d : bytes) n : GrammarSpec.ndigits 4 y -> GrammarSpec.ndigits 2 m -> GrammarSpec.ndigits 2 d ->
  parse_date (y ++ b "-" ++ m ++ b "-" ++ d) = Some {| i_sec := n * 86400; i_nsec := 0 |} -> date_denotes (y ++ b "-" ++ m ++ b "-" ++ d) n.
Proof.
  intros Y M D P. assert (Dl : GrammarSpec.date_lit (y ++ b "-" ++ m ++ b "-" ++ d)) by (exists y, m, d; auto).
  assert (L : GrammarSpec.literal test_oracle (y ++ b "-" ++ m ++ b "-" ++ d) no_position (ATime {| i_sec := n * 86400; i_nsec := 0 |} true (y ++ b "-" ++ m ++ b "-" ++ d) no_position)).
  { apply GrammarSpec.lit_time; [now right|]. rewrite (Utf8Proofs.encode_ascii _ (date_ascii _ Dl)). unfold new_time_val.
    rewrite (date_len _ Dl). cbn [Nat.eqb]. now rewrite P. }
  apply date_literal in L; [|exact Dl]. destruct L as (n' & Dn & E). injection E as E. replace n with n' by lia. exact Dn.
Qed.
Ltac digits_of := split; [repeat (constructor; [vm_compute; split; discriminate|]); constructor|reflexivity].

Lemma single_tested raw s : tested [b "a"] (JObj [(b "a", JStr raw)]) s <-> s = JStr raw.
Proof.
  assert (M : forall c, member (b "a") (JObj [(b "a", JStr raw)]) c <-> c = JStr raw).
  { intros c. rewrite <- lookup_member. cbn. split; congruence. }
  split.
  - intros (Sc & [R|(els & R & I)]); inversion R as [? ? ? Hm|? ? ? ? ? Hm R'|? ? ? ? ? ? Hm Hi R']; subst; apply M in Hm; try congruence; inversion R'.
  - intros ->. split; [split; discriminate|]. left. apply rs_last. now apply M.
Qed.

(** ** C37 *)
(** An instant before the literal is found to be after it. *)
Theorem C37_time_line_refuted : exists q data i t p p',
  names_instant (b "1500-01-01") i /\ names_instant (b "2020-01-01") t /\ before i t /\
  document data (JObj [(b "a", JStr (b "1500-01-01"))]) /\
  forall O, parse_plain O q = QOk (NExpr GT [b "a"] [ATime t true (b "2020-01-01") p] p') /\
    (o_dateparse O (b "1500-01-01") = Some i -> answers O q data (Some true)).
Proof.
  exists (b "a:>2020-01-01"), (b "{""a"":""1500-01-01""}"), {| i_sec := -171664 * 86400; i_nsec := 0 |}, {| i_sec := 18262 * 86400; i_nsec := 0 |}.
  do 2 eexists. split; [apply ni_date, (date_names (b "1500") (b "01") (b "01")); try digits_of; vm_compute; reflexivity|].
  split; [apply ni_date, (date_names (b "2020") (b "01") (b "01")); try digits_of; vm_compute; reflexivity|].
  split; [left; reflexivity|].
  assert (Dc : document (b "{""a"":""1500-01-01""}") (JObj [(b "a", JStr (b "1500-01-01"))])) by (apply parse_json_spec; vm_compute; reflexivity).
  split; [exact Dc|]. intros O. assert (P : exists p p', parse_plain O (b "a:>2020-01-01") = QOk (NExpr GT [b "a"] [ATime {| i_sec := 18262 * 86400; i_nsec := 0 |} true (b "2020-01-01") p] p')).
  { do 2 eexists. vm_compute. reflexivity. }
  split; [vm_compute; reflexivity|]. intros Dp. destruct P as (p & p' & P).
  apply (C29_scalars O _ GT _ _ _ _ (JObj [(b "a", JStr (b "1500-01-01"))]) P ltac:(discriminate) ltac:(discriminate) Dc I I).
  destruct (proj2 (single_tested (b "1500-01-01") (JStr (b "1500-01-01"))) eq_refl) as (S1 & S2). eexists. split; [exact S1|]. split; [exact S2|].
  eexists. split; [reflexivity|]. exists {| i_sec := -171664 * 86400; i_nsec := 0 |}. split; [|vm_compute; reflexivity]. exists (b "1500-01-01"). split; [|exact Dp]. apply tof_string. reflexivity.
Qed.
Print Assumptions C37_time_line_refuted.

(** ** C38 *)
(** Noon of 11 April 2262 is not found by the date: the end of the day overflows, although
    both the literal and the instant can be represented. *)
Theorem C38_day_refuted : exists q data i t p p' n,
  date_denotes (b "2262-04-11") n /\ names_instant (b "2262-04-11T12:00:00Z") i /\ (i_sec i / 86400 = n)%Z /\ near i /\ near t /\
  document data (JObj [(b "a", JStr (b "2262-04-11T12:00:00Z"))]) /\
  forall O, parse_plain O q = QOk (NExpr EQ [b "a"] [ATime t true (b "2262-04-11") p] p') /\
    (o_dateparse O (b "2262-04-11T12:00:00Z") = Some i -> answers O q data (Some false)).
Proof.
  exists (b "a:2262-04-11"), (b "{""a"":""2262-04-11T12:00:00Z""}"), {| i_sec := 106751 * 86400 + dec_num (b "12") * 3600 + dec_num (b "00") * 60 + dec_num (b "00") - 0; i_nsec := 0 |}, {| i_sec := 106751 * 86400; i_nsec := 0 |}.
  do 2 eexists. exists 106751%Z. assert (Dd : date_denotes (b "2262-04-11") 106751).
  { apply (date_names (b "2262") (b "04") (b "11")); try digits_of; vm_compute; reflexivity. }
  split; [exact Dd|]. split.
  { apply ni_time, (ts (b "2262-04-11") 106751 (b "12") (b "00") (b "00") [] 0 (b "Z") 0 Dd); try digits_of; try (vm_compute; discriminate); constructor. }
  split; [reflexivity|]. split; [vm_compute; split; [discriminate|reflexivity]|]. split; [vm_compute; split; [discriminate|reflexivity]|].
  assert (Dc : document (b "{""a"":""2262-04-11T12:00:00Z""}") (JObj [(b "a", JStr (b "2262-04-11T12:00:00Z"))])) by (apply parse_json_spec; vm_compute; reflexivity).
  split; [exact Dc|]. intros O. assert (P : exists p p', parse_plain O (b "a:2262-04-11") = QOk (NExpr EQ [b "a"] [ATime {| i_sec := 106751 * 86400; i_nsec := 0 |} true (b "2262-04-11") p] p')).
  { do 2 eexists. vm_compute. reflexivity. }
  split; [vm_compute; reflexivity|]. intros Dp. destruct P as (p & p' & P).
  destruct (C24_meaning O _ _ _ _ P Dc) as [_ H].
  { intros o f vs p0 Sub. inversion Sub; subst. split; exact I. }
  apply H. cbn [holds]. intros (v & s & [<-|[]] & T & i & (x & Tx & Ex) & R). apply single_tested in T. subst s.
  inversion Tx as [raw x' U|]; subst. vm_compute in U. injection U as <-. change (o_dateparse O (b "2262-04-11T12:00:00Z") = Some i) in Ex.
  rewrite Dp in Ex. injection Ex as <-. vm_compute in R. destruct R as [_ R]. now apply R.
Qed.
Print Assumptions C38_day_refuted.

(** ** C75: within 2^63 nanoseconds of 1970 comparisons follow the time line *)
Theorem C75_time_line O q o f v p own t data j :
  In o [EQ; LT; LTE; GT; GTE] -> (o = EQ -> ~ GrammarSpec.date_lit own) -> parse_plain O q = QOk (NExpr o f [v] p) ->
  GrammarSpec.literal O own (val_pos v) v -> names_instant own t -> near t ->
  document data j -> path_safe j f -> no_index j f ->
  (forall s i, tested f j s -> instant_of O s i -> normal i /\ near i) ->
  answers O q data (Some true) <-> exists s i, tested f j s /\ instant_of O s i /\ time_rel o i t.
Proof.
  intros Io Nd P L Nm Rt D Sf Ni All. pose proof (names_normal _ _ Nm) as Nt.
  destruct (instant_literal O own _ v t L Nm) as (d & Ev & Ed). rewrite Ev in P. clear L. set (u := val_pos v) in *. clearbody u. subst v.
  rewrite (C29_scalars O q o f _ p data j P) by (auto; cbn in Io; intros ->; intuition discriminate).
  assert (Core : forall s, tested f j s -> (exists i, instant_of O s i /\ match o with EQ => unix_nano i = unix_nano t | _ => nano_rel o (unix_nano i) (unix_nano t) end) <->
     exists i, instant_of O s i /\ time_rel o i t).
  { intros s T. split; intros (i & Hi & R); exists i; (split; [exact Hi|]); destruct (All s i T Hi) as (A1 & A2); now apply (nano_rel_time o i t Io A1 Nt A2 Rt). }
  split.
  - intros (s & S1 & S2 & R). assert (T : tested f j s) by (split; assumption). exists s.
    enough (exists i, instant_of O s i /\ time_rel o i t) as (i & Hi & Ri) by (exists i; auto). apply (Core s T).
    cbn in Io. destruct Io as [<-|[<-|[<-|[<-|[<-|[]]]]]].
    + destruct R as (w & [<-|[]] & E). cbn [equals] in E. destruct d; [exfalso; apply Nd; tauto|]. exact E.
    + destruct R as (w & [= <-] & E). exact E.
    + destruct R as (w & [= <-] & E). exact E.
    + destruct R as (w & [= <-] & E). exact E.
    + destruct R as (w & [= <-] & E). exact E.
  - intros (s & i & T & Hi & Ri). assert (E : exists i, instant_of O s i /\ time_rel o i t) by eauto. apply (Core s T) in E.
    destruct T as (S1 & S2). exists s. split; [exact S1|]. split; [exact S2|].
    cbn in Io. destruct Io as [<-|[<-|[<-|[<-|[<-|[]]]]]]; try (eexists; split; [reflexivity|exact E]).
    eexists. split; [now left|]. cbn [equals]. destruct d; [exfalso; apply Nd; tauto|]. exact E.
Qed.
Print Assumptions C75_time_line.

(** Ranges: both ends included. *)
Theorem C75_between O q f v w p own own' t t' data j :
  parse_plain O q = QOk (NExpr BET f [v; w] p) ->
  GrammarSpec.literal O own (val_pos v) v -> names_instant own t -> near t ->
  GrammarSpec.literal O own' (val_pos w) w -> names_instant own' t' -> near t' ->
  document data j -> path_safe j f -> no_index j f ->
  (forall s i, tested f j s -> instant_of O s i -> normal i /\ near i) ->
  answers O q data (Some true) <-> exists s i, tested f j s /\ instant_of O s i /\ time_rel GTE i t /\ time_rel LTE i t'.
Proof.
  intros P L Nm Rt L' Nm' Rt' D Sf Ni All. pose proof (names_normal _ _ Nm) as Nt. pose proof (names_normal _ _ Nm') as Nt'.
  destruct (instant_literal O own _ v t L Nm) as (d & Ev & _). destruct (instant_literal O own' _ w t' L' Nm') as (d' & Ew & _).
  rewrite Ev, Ew in P. clear L L'.
  rewrite (C29_scalars O q BET f _ p data j P) by (auto; discriminate).
  assert (Core : forall s i, tested f j s -> instant_of O s i -> (unix_nano t <= unix_nano i <= unix_nano t')%Z <-> time_rel GTE i t /\ time_rel LTE i t').
  { intros s i T Hi. destruct (All s i T Hi) as (A1 & A2).
    rewrite <- (nano_rel_time GTE i t ltac:(cbn; tauto) A1 Nt A2 Rt), <- (nano_rel_time LTE i t' ltac:(cbn; tauto) A1 Nt' A2 Rt').
    cbn [nano_rel]. lia. }
  split.
  - intros (s & S1 & S2 & v' & w' & [= <- <-] & R). cbn [in_range] in R. destruct R as (i & Hi & R).
    assert (T : tested f j s) by (split; assumption). exists s, i. split; [exact T|]. split; [exact Hi|]. now apply (Core s i T Hi).
  - intros (s & i & T & Hi & R). apply (Core s i T Hi) in R. destruct T as (S1 & S2). exists s. split; [exact S1|]. split; [exact S2|].
    do 2 eexists. split; [reflexivity|]. cbn [in_range]. eauto.
Qed.
Print Assumptions C75_between.
Example C75_hypotheses : exists f v p v' w' p' j t t',
  parse_plain test_oracle (b "a:>2021-06-01T10:00:00Z") = QOk (NExpr GT f [v] p) /\
  GrammarSpec.literal test_oracle (b "2021-06-01T10:00:00Z") (val_pos v) v /\ names_instant (b "2021-06-01T10:00:00Z") t /\ near t /\
  parse_plain test_oracle (b "a:><(2021-06-01T10:00:00Z, 2021-06-30)") = QOk (NExpr BET f [v'; w'] p') /\
  GrammarSpec.literal test_oracle (b "2021-06-01T10:00:00Z") (val_pos v') v' /\
  GrammarSpec.literal test_oracle (b "2021-06-30") (val_pos w') w' /\ names_instant (b "2021-06-30") t' /\ near t' /\
  document (b "{""a"":""2021-06-02""}") j /\ path_safe j f /\ no_index j f /\
  (forall s i, tested f j s -> instant_of test_oracle s i -> normal i /\ near i) /\
  (exists s i, tested f j s /\ instant_of test_oracle s i /\ time_rel GT i t /\ time_rel GTE i t /\ time_rel LTE i t').
Proof.
  assert (Dd : date_denotes (b "2021-06-01") 18779) by (apply (date_names (b "2021") (b "06") (b "01")); try digits_of; vm_compute; reflexivity).
  assert (De : date_denotes (b "2021-06-30") 18808) by (apply (date_names (b "2021") (b "06") (b "30")); try digits_of; vm_compute; reflexivity).
  assert (Dt : timestamp_denotes (b "2021-06-01T10:00:00Z") (18779 * 86400 + dec_num (b "10") * 3600 + dec_num (b "00") * 60 + dec_num (b "00") - 0) 0).
  { apply (ts (b "2021-06-01") 18779 (b "10") (b "00") (b "00") [] 0 (b "Z") 0 Dd); try digits_of; try (vm_compute; discriminate); constructor. }
  assert (Lt : forall p v, new_time_val (encode (b "2021-06-01T10:00:00Z")) p = Some v -> GrammarSpec.literal test_oracle (b "2021-06-01T10:00:00Z") p v).
  { intros p v Hv. apply GrammarSpec.lit_time; [left; eapply timestamp_denotes_lit; exact Dt|exact Hv]. }
  exists [b "a"]. do 5 eexists. exists (JObj [(b "a", JStr (b "2021-06-02"))]). do 2 eexists.
  split; [vm_compute; reflexivity|]. split; [apply Lt; vm_compute; reflexivity|]. split; [apply ni_time; exact Dt|].
  split; [vm_compute; split; [discriminate|reflexivity]|].
  split; [vm_compute; reflexivity|]. split; [apply Lt; vm_compute; reflexivity|].
  split; [apply GrammarSpec.lit_time; [right; eapply date_denotes_lit; exact De|vm_compute; reflexivity]|].
  split; [apply ni_date; exact De|]. split; [vm_compute; split; [discriminate|reflexivity]|].
  split; [apply parse_json_spec; vm_compute; reflexivity|]. split; [exact I|]. split; [exact I|].
  assert (U : forall i, instant_of test_oracle (JStr (b "2021-06-02")) i <-> i = {| i_sec := 1622592000; i_nsec := 0 |}).
  { intros i. split.
    - intros (x & Tx & Ex). inversion Tx as [raw x' U|]; subst. vm_compute in U. injection U as <-. vm_compute in Ex. now injection Ex as <-.
    - intros ->. exists (b "2021-06-02"). split; [apply tof_string|]; vm_compute; reflexivity. }
  split.
  - intros s i T Hi. apply single_tested in T. subst s. apply U in Hi. subst i. vm_compute. intuition discriminate.
  - exists (JStr (b "2021-06-02")). eexists. split; [now apply single_tested|]. split; [now apply U|].
    vm_compute. intuition discriminate.
Qed.

(** ** C76: a date matches its whole day, for the 213502 days that fit *)
Theorem C76_day O q f v p own n data j :
  parse_plain O q = QOk (NExpr EQ f [v] p) -> GrammarSpec.literal O own (val_pos v) v -> date_denotes own n ->
  (-106751 <= n < 106751)%Z -> document data j -> path_safe j f -> no_index j f ->
  (forall s i, tested f j s -> instant_of O s i -> normal i /\ near i) ->
  answers O q data (Some true) <-> exists s i, tested f j s /\ instant_of O s i /\ (i_sec i / 86400 = n)%Z.
Proof.
  intros P L Dn Rn D Sf Ni All. set (t := {| i_sec := n * 86400; i_nsec := 0 |}).
  destruct (instant_literal O own _ v t L (ni_date _ _ Dn)) as (d & Ev & Ed). rewrite (proj2 Ed (date_denotes_lit _ _ Dn)) in Ev. rewrite Ev in P. clear L Ev Ed.
  rewrite (C29_scalars O q EQ f _ p data j P) by (auto; discriminate).
  assert (Core : forall s i, tested f j s -> instant_of O s i ->
    (unix_nano t <= unix_nano i <= wrap64 (wrap64 (exact_nanos t + 86400 * 1000000000) - 1))%Z <-> (i_sec i / 86400 = n)%Z).
  { intros s i T Hi. destruct (All s i T Hi) as (A1 & A2). rewrite (unix_nano_near i A2).
    assert (Nt : near t) by (unfold near, t; cbn [i_sec i_nsec]; lia). rewrite (unix_nano_near t Nt).
    rewrite (wrap64_id (exact_nanos t + _)) by (unfold exact_nanos, t; cbn [i_sec i_nsec]; lia).
    rewrite wrap64_id by (unfold exact_nanos, t; cbn [i_sec i_nsec]; lia). unfold exact_nanos, t, normal in *. cbn [i_sec i_nsec].
    pose proof (Z.div_mod (i_sec i) 86400 ltac:(lia)). pose proof (Z.mod_pos_bound (i_sec i) 86400 ltac:(lia)). split; [intros|intros <-]; nia. }
  split.
  - intros (s & S1 & S2 & v' & [<-|[]] & E). cbn [equals] in E. destruct E as (i & Hi & R). assert (T : tested f j s) by (split; assumption).
    exists s, i. split; [exact T|]. split; [exact Hi|]. now apply (Core s i T Hi).
  - intros (s & i & T & Hi & R). apply (Core s i T Hi) in R. destruct T as (S1 & S2). exists s. split; [exact S1|]. split; [exact S2|].
    eexists. split; [now left|]. cbn [equals]. eauto.
Qed.
Print Assumptions C76_day.

Example C76_example :
  answers test_oracle (b "a:2021-06-01") (b "{""a"":""2021-06-01T23:59:59.999999999Z""}") (Some true) /\
  answers test_oracle (b "a:2021-06-01") (b "{""a"":""2021-06-02T01:00:00+01:30""}") (Some true) /\
  answers test_oracle (b "a:2021-06-01") (b "{""a"":""2021-06-02T00:00:00Z""}") (Some false) /\
  answers test_oracle (b "a:>=2021-06-01") (b "{""a"":""2021-06-01T00:00:00Z""}") (Some true) /\
  answers test_oracle (b "a:<2021-06-01T10:00:00Z") (b "{""a"":""2021-06-01T10:00:00Z""}") (Some false).
Proof.
  repeat match goal with |- _ /\ _ => split end;
    do 3 eexists; (split; [vm_compute; reflexivity|]); (split; [apply af_none|]); vm_compute; reflexivity.
Qed.
(** The hypotheses of C75 and C76 are met. *)
Example C76_hypotheses : exists q f v p own n data j,
  parse_plain test_oracle q = QOk (NExpr EQ f [v] p) /\ GrammarSpec.literal test_oracle own (val_pos v) v /\ date_denotes own n /\
  (-106751 <= n < 106751)%Z /\ document data j /\ path_safe j f /\ no_index j f /\
  (forall s i, tested f j s -> instant_of test_oracle s i -> normal i /\ near i) /\ (exists s i, tested f j s /\ instant_of test_oracle s i).
Proof.
  assert (Dd : date_denotes (b "2021-06-01") 18779) by (apply (date_names (b "2021") (b "06") (b "01")); try digits_of; vm_compute; reflexivity).
  exists (b "a:2021-06-01"), [b "a"]. do 2 eexists. exists (b "2021-06-01"), 18779%Z, (b "{""a"":""2021-06-02""}"), (JObj [(b "a", JStr (b "2021-06-02"))]).
  split; [vm_compute; reflexivity|]. split; [apply date_literal; [eapply date_denotes_lit; exact Dd|]; eexists; split; [exact Dd|vm_compute; reflexivity]|].
  split; [exact Dd|]. split; [lia|]. split; [apply parse_json_spec; vm_compute; reflexivity|]. split; [exact I|]. split; [exact I|].
  assert (U : forall i, instant_of test_oracle (JStr (b "2021-06-02")) i <-> i = {| i_sec := 1622592000; i_nsec := 0 |}).
  { intros i. split.
    - intros (x & Tx & Ex). inversion Tx as [raw x' U|]; subst. vm_compute in U. injection U as <-. vm_compute in Ex. now injection Ex as <-.
    - intros ->. exists (b "2021-06-02"). split; [apply tof_string|]; vm_compute; reflexivity. }
  split.
  - intros s i T Hi. apply single_tested in T. subst s. apply U in Hi. subst i. vm_compute. intuition discriminate.
  - exists (JStr (b "2021-06-02")). eexists. split; [now apply single_tested|]. now apply U.
Qed.
