(** C41-C43, C78, C79: string search. *)
From Verif Require Import Bytes Utf8 Utf8Proofs GoStrconv GoFloat GoTime GoNet Oracles Ast AstSpec Json JsonSpec JsonProofs Values StrMatch Matcher
  QueryMessages MatchApi MatchSpec MatchProofs MatcherTop Visitors ParseQuery TestOracle StrProofs StrLitProofs Prop_Match.
From Coq Require Import ZifyBool ZifyN ZifyNat.

(** ** C41 *)
(** The generated pattern is always within the modelled syntax, that is, it compiles. *)
Theorem C41_compiles O s : exists items, rx_compile (search_source O s) = Some items.
Proof. rewrite search_compiles. eauto. Qed.
Print Assumptions C41_compiles.

(** So every string value yields a matcher expression (the only panic is a failed compilation). *)
Theorem C41_matcher O s : exists e, string_matcher O s = Ok e.
Proof. unfold string_matcher. destruct (_ && _); [eauto|]. destruct (C41_compiles O s) as (it & ->). eauto. Qed.
Print Assumptions C41_matcher.

(** Without ? and * an ASCII literal is searched for character by character, whatever the
    characters are. *)
Theorem C41_metacharacters O q f s u p data j : parse_plain O q = QOk (NExpr EQ f [AStr s u] p) ->
  ascii s -> ~ In 63 s -> ~ In 42 s -> document data j -> path_safe j f -> no_index j f ->
  answers O q data (Some true) <->
  exists x t before seg after, tested f j x /\ text_of O x t /\ decode t = before ++ seg ++ after /\ Forall2 (same_letter O) s seg /\
    boundary before (seg ++ after) /\ boundary (before ++ seg) after.
Proof.
  intros P A N1 N2 D Sf Ni. rewrite (C29_scalars O q EQ f _ p data j P) by (auto; discriminate).
  assert (H : forall t, string_hit O s t <-> word_search O (map WLit s) (decode t)) by (intros t; apply ascii_hit; auto; now apply plain_pattern).
  split.
  - intros (x & S1 & S2 & v & [<-|[]] & t & Tx & E). apply H in E as (bf & seg & af & E & C & B). exists x, t, bf, seg, af.
    split; [now split|]. split; [exact Tx|]. split; [exact E|]. split; [now apply covers_plain|exact B].
  - intros (x & t & bf & seg & af & (S1 & S2) & Tx & E & C & B). exists x. split; [exact S1|]. split; [exact S2|].
    eexists. split; [now left|]. exists t. split; [exact Tx|]. apply H. exists bf, seg, af. split; [exact E|]. split; [now apply covers_plain|exact B].
Qed.
Print Assumptions C41_metacharacters.

Example C41_example :
  answers test_oracle (b "a:""a.b(c|d)""") (b "{""a"":""x a.B(c|d) y""}") (Some false) /\
  answers test_oracle (b "a:""a.b(c|d""") (b "{""a"":""x a.B(c|d) y""}") (Some true) /\
  answers test_oracle (b "a:""a.b""") (b "{""a"":""axb""}") (Some false).
Proof.
  repeat match goal with |- _ /\ _ => split end; (do 3 eexists; (split; [vm_compute; reflexivity|]); (split; [apply af_none|]); vm_compute; reflexivity).
Qed.

(** ** C42 *)
Theorem C42_search O q f s ts u p data j : parse_plain O q = QOk (NExpr EQ f [AStr s u] p) ->
  ascii s -> pattern s ts -> document data j -> path_safe j f -> no_index j f ->
  answers O q data (Some true) <-> exists x t, tested f j x /\ text_of O x t /\ word_search O ts (decode t).
Proof.
  intros P A Pt D Sf Ni. rewrite (C29_scalars O q EQ f _ p data j P) by (auto; discriminate). split.
  - intros (x & S1 & S2 & v & [<-|[]] & t & Tx & E). exists x, t. split; [now split|]. split; [exact Tx|]. now apply (ascii_hit O s ts t A Pt).
  - intros (x & t & (S1 & S2) & Tx & E). exists x. split; [exact S1|]. split; [exact S2|]. eexists. split; [now left|]. exists t.
    split; [exact Tx|]. now apply (ascii_hit O s ts t A Pt).
Qed.
Print Assumptions C42_search.
Example C42_hypotheses : exists f s u p ts j, parse_plain test_oracle (b "a:""d?g*s""") = QOk (NExpr EQ f [AStr s u] p) /\
  ascii s /\ pattern s ts /\ ts = [WLit 100; WOne; WLit 103; WMany; WLit 115] /\
  document (b "{""a"":[1,""the DOG likes""]}") j /\ path_safe j f /\ no_index j f /\
  answers test_oracle (b "a:""d?g*s""") (b "{""a"":[1,""the DOG likes""]}") (Some true).
Proof.
  exists [b "a"], (b "d?g*s"). do 3 eexists. eexists. split; [vm_compute; reflexivity|]. split; [repeat constructor|].
  split; [do 5 (first [apply pt_one|apply pt_many|apply pt_char; [discriminate..|]]); apply pt_nil|]. split; [reflexivity|].
  split; [apply parse_json_spec; vm_compute; reflexivity|]. split; [exact I|]. split; [exact I|].
  do 3 eexists. split; [vm_compute; reflexivity|]. split; [apply af_none|]. vm_compute. reflexivity.
Qed.

(** Every literal is exactly one pattern. *)
Theorem C42_one_pattern s : exists ts, pattern s ts /\ forall ts', pattern s ts' -> ts' = ts.
Proof. destruct (pattern_exists s) as (ts & P). exists ts. split; [exact P|]. intros ts' P'. exact (pattern_fun s ts' ts P' P). Qed.
Print Assumptions C42_one_pattern.

(** What case-insensitive means for an ASCII character: the other case of a letter, and the
    Kelvin sign for k, the long s for s. *)
Theorem C42_letters O c d : c < 128 ->
  same_letter O c d <->
  c = d \/ (65 <= c <= 90 /\ d = c + 32) \/ (97 <= c <= 122 /\ c = d + 32) \/
  ((c = 107 \/ c = 75) /\ d = 8490) \/ ((c = 115 \/ c = 83) /\ d = 383).
Proof.
  intros H. unfold same_letter, fold. replace (c <? 128) with true by lia. destruct (d <? 128) eqn:D; [unfold lower_ascii|]; [|destruct (d =? 8490) eqn:K; [|destruct (d =? 383) eqn:L; [|destruct (o_fold O d <? 128) eqn:F]]]; unfold lower_ascii.
  - destruct ((65 <=? c) && (c <=? 90)) eqn:E1; destruct ((65 <=? d) && (d <=? 90)) eqn:E2; lia.
  - destruct ((65 <=? c) && (c <=? 90)) eqn:E1; lia.
  - destruct ((65 <=? c) && (c <=? 90)) eqn:E1; lia.
  - destruct ((65 <=? c) && (c <=? 90)) eqn:E1; lia.
  - destruct ((65 <=? c) && (c <=? 90)) eqn:E1; lia.
Qed.
Print Assumptions C42_letters.

Example C42_example :
  answers test_oracle (b "a:""d?g*s""") (b "{""a"":""the DOG likes""}") (Some true) /\
  answers test_oracle (b "a:""d?g*s""") (b "{""a"":""the dg likes""}") (Some false) /\
  answers test_oracle (b "a:""dog""") (b "{""a"":""dogs""}") (Some false) /\
  answers test_oracle (b "a:""a\\*b""") (b "{""a"":""axb""}") (Some false) /\
  answers test_oracle (b "a:""a\\*b""") (b "{""a"":""a*b""}") (Some true).
Proof.
  repeat match goal with |- _ /\ _ => split end; (do 3 eexists; (split; [vm_compute; reflexivity|]); (split; [apply af_none|]); vm_compute; reflexivity).
Qed.

(** ** C78: literals that are not ASCII *)
Theorem C78_other_search O q f s u p data j : parse_plain O q = QOk (NExpr EQ f [AStr s u] p) -> ~ ascii s ->
  document data j -> path_safe j f -> no_index j f ->
  answers O q data (Some true) <-> exists x t, tested f j x /\ text_of O x t /\
    ((~ wildcard s /\ o_text_search O s t = true) \/
     (wildcard s /\ exists ts, pattern (lowered O s) ts /\
       ((ascii (to_lower O s) /\ word_search O ts (decode t)) \/ (~ ascii (to_lower O s) /\ substring_search O ts (decode t))))).
Proof.
  intros P A D Sf Ni. rewrite (C29_scalars O q EQ f _ p data j P) by (auto; discriminate).
  assert (H : forall t, string_hit O s t <-> (~ wildcard s /\ o_text_search O s t = true) \/
     (wildcard s /\ exists ts, pattern (lowered O s) ts /\ ((ascii (to_lower O s) /\ word_search O ts (decode t)) \/ (~ ascii (to_lower O s) /\ substring_search O ts (decode t))))).
  { intros t. unfold string_hit. pose proof (is_ascii_spec (to_lower O s)) as Ia. destruct (is_ascii (to_lower O s)); split.
    - intros [(_ & W & E)|([C|W] & ts & Pt & E)]; [auto|contradiction|]. right. split; [exact W|]. exists ts. split; [exact Pt|]. left. split; [now apply Ia|exact E].
    - intros [(W & E)|(W & ts & Pt & [(_ & E)|(C & _)])]; [auto| |exfalso; apply C; now apply Ia]. right. split; [now right|]. exists ts. auto.
    - intros [(_ & W & E)|([C|W] & ts & Pt & E)]; [auto|contradiction|]. right. split; [exact W|]. exists ts. split; [exact Pt|]. right. split; [intros C; apply Ia in C; discriminate|exact E].
    - intros [(W & E)|(W & ts & Pt & [(C & _)|(_ & E)])]; [auto|apply Ia in C; discriminate|]. right. split; [now right|]. exists ts. auto. }
  split.
  - intros (x & S1 & S2 & v & [<-|[]] & t & Tx & E). exists x, t. split; [now split|]. split; [exact Tx|]. now apply H.
  - intros (x & t & (S1 & S2) & Tx & E). exists x. split; [exact S1|]. split; [exact S2|]. eexists. split; [now left|]. exists t.
    split; [exact Tx|]. now apply H.
Qed.
Print Assumptions C78_other_search.

(** With a wildcard there are no word boundaries: the search is for a part of the text. *)
Example C78_example : exists q, q = b "a:""" ++ encode [233; 116; 63] ++ b """" /\
  answers test_oracle q (b "{""a"":""" ++ encode [120; 233; 116; 120; 120] ++ b """}") (Some true) /\
  answers test_oracle q (b "{""a"":""" ++ encode [120; 233; 116] ++ b """}") (Some false).
Proof.
  eexists. split; [reflexivity|]. split; (do 3 eexists; (split; [vm_compute; reflexivity|]); (split; [apply af_none|]); vm_compute; reflexivity).
Qed.

(** ** C43 *)
(** A string in parentheses does not equal itself, nor does the string of the README. *)
Theorem C43_self_refuted : exists q s raw data, forall O,
  (exists u p, parse_plain O q = QOk (NExpr EQ [b "a"] [AStr s u] p)) /\ document data (JObj [(b "a", JStr raw)]) /\ unescape raw = Some s /\ s = b "(dog)" /\
  answers O q data (Some false).
Proof.
  exists (b "a:""(dog)"""), (b "(dog)"), (b "(dog)"), (b "{""a"":""(dog)""}"). intros O.
  split; [do 2 eexists; vm_compute; reflexivity|]. split; [apply parse_json_spec; vm_compute; reflexivity|]. split; [reflexivity|]. split; [reflexivity|].
  do 3 eexists. split; [vm_compute; reflexivity|]. split; [apply af_none|]. vm_compute. reflexivity.
Qed.
Print Assumptions C43_self_refuted.
(** README.md:73 claims true. *)
Theorem C43_readme_refuted : forall O,
  answers O (b "level1.level2.level3:""here!""") (b "{""level1"": {""level2"": {""level3"": ""here!""}}}") (Some false).
Proof. intros O. do 3 eexists. split; [vm_compute; reflexivity|]. split; [apply af_none|]. vm_compute. reflexivity. Qed.
Print Assumptions C43_readme_refuted.

(** ** C79: exactly the strings that start and end with a word character equal themselves *)
Theorem C79_self O q f s u p data j raw : parse_plain O q = QOk (NExpr EQ f [AStr s u] p) -> ascii s -> ~ In 63 s -> ~ In 42 s ->
  document data j -> path_safe j f -> no_index j f -> (forall x, tested f j x <-> x = JStr raw) -> unescape raw = Some s ->
  answers O q data (Some true) <-> starts_with_word s /\ ends_in_word s.
Proof.
  intros P A N1 N2 D Sf Ni Un U. rewrite (C42_search O q f s _ u p data j P A (plain_pattern s N1 N2) D Sf Ni).
  rewrite <- (self_hit O s). split.
  - intros (x & t & T & Tx & W). apply Un in T. subst x. inversion Tx as [raw' t' U'|]; subst. rewrite U in U'. injection U' as <-. now rewrite (decode_ascii s A) in W.
  - intros W. exists (JStr raw), s. split; [now apply Un|]. split; [now apply tof_string|]. now rewrite (decode_ascii s A).
Qed.
Print Assumptions C79_self.

Example C79_example :
  answers test_oracle (b "a:""C++ (dog) x""") (b "{""a"":""C++ (dog) x""}") (Some true) /\
  answers test_oracle (b "a:""C++""") (b "{""a"":""C++""}") (Some false) /\
  answers test_oracle (b "a:""""") (b "{""a"":""""}") (Some false) /\ answers test_oracle (b "a:""""") (b "{""a"":""x""}") (Some true).
Proof.
  repeat match goal with |- _ /\ _ => split end; (do 3 eexists; (split; [vm_compute; reflexivity|]); (split; [apply af_none|]); vm_compute; reflexivity).
Qed.
