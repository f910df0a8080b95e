(** C99: the program aqltest. *)
From Verif Require Import Bytes Utf8 Utf8Proofs Oracles Ast AstSpec PegSyntax GrammarSpec Visitors ParseQuery StrMatch Values Json JsonSpec JsonProofs Matcher MatchProofs MatchSpec MatchApi QueryMessages MatcherTop
  Fmtmsg Marshal MarshalSpec MarshalProofs WasmProofs CmdTest CmdProofs TestOracle.
From Verif Require Prop_Grammar Prop_Match Prop_Fmt Prop_Friendly Prop_Marshal Prop_Wasm.
From Coq Require Import ZifyBool ZifyN ZifyNat.

(** The query: the text of a file if the argument ends in .aql, otherwise the argument itself. *)
Definition query_given (file : bytes -> option bytes) (arg q : bytes) : Prop :=
  (exists x, arg = x ++ b ".aql") /\ file arg = Some q \/ ~ (exists x, arg = x ++ b ".aql") /\ q = arg.
(** A message about a place: type, text, the query, and carets under the place. *)
Definition printed_under (word : bytes) (q : bytes) (text : bytes) (p : pos) : bytes :=
  word ++ b ": " ++ text ++ Prop_Fmt.line_start ++ q ++
  Prop_Fmt.line_start ++ repeat 32 (Z.to_nat (p_off p)) ++ repeat 94 (Z.to_nat (p_len p)) ++ [10].
Definition printed_at (q : bytes) (k : kind) (text : bytes) (p : pos) : bytes := printed_under (Prop_Fmt.upper_type k) q text p.

Lemma suffix_spec p s : has_suffix p s = true <-> exists x, s = x ++ p.
Proof.
  unfold has_suffix. assert (H : forall p s, has_prefix p s = true <-> exists x, s = p ++ x).
  { clear. induction p as [|c p IH]; intros s; cbn; [split; eauto|]. destruct s as [|d s]; [split; [discriminate|intros (x & [=])]|].
    rewrite andb_true_iff, IH, N.eqb_eq. split; [intros (-> & x & ->); eauto|intros (x & [= -> ->]); eauto]. }
  rewrite H. split; intros (x & E); exists (rev x).
  - now rewrite <- (rev_involutive s), E, rev_app_distr, rev_involutive.
  - now rewrite E, rev_app_distr.
Qed.
Lemma given_spec file arg q : query_given file arg q <-> (if has_suffix (b ".aql") arg then file arg else Some arg) = Some q.
Proof.
  unfold query_given. pose proof (suffix_spec (b ".aql") arg) as H. destruct (has_suffix (b ".aql") arg).
  - split; [intros [[_ E]|[N _]]; [exact E|exfalso; apply N; now apply H]|intros E; left; split; [now apply H|exact E]].
  - split; [intros [[X _]|[_ ->]]; [apply H in X; discriminate|reflexivity]|intros [= ->]; right; split; [|reflexivity]]. intros X. apply H in X. discriminate.
Qed.
Lemma terminal_ok q cap k text p : (0 <= p_off p)%Z -> (0 <= p_len p)%Z -> terminal (-1) q cap k text p = Printed (printed_at (encode (decode q)) k text p).
Proof.
  intros P1 P2. unfold terminal, get_print_data. cbv zeta. cbn [max_width Z.ltb Z.compare Z.gtb pd_has_hl].
  replace (pos_eqb p no_position) with false by (unfold pos_eqb; cbn; lia). cbn [negb]. unfold query_string, query_len. cbn [pd_lo pd_ro pd_query]. rewrite Z.eqb_refl. cbn [Z.eqb andb then_print].
  unfold repeat_byte, hl_str_offset, hl_len. cbn [pd_pos pd_lo Z.gtb Z.compare]. replace (p_off p - 0 + 0 <? 0)%Z with false by lia. replace (p_len p <? 0)%Z with false by lia. cbn [then_print].
  f_equal. unfold printed_at, printed_under. fold Prop_Fmt.line_start. replace (p_off p - 0 + 0)%Z with (p_off p) by lia.
  replace (map _ (type_string k)) with (Prop_Fmt.upper_type k) by (now destruct k). rewrite Z.eqb_refl. cbn [then_print]. now rewrite <- !app_assoc.
Qed.

Lemma encode_last_ascii t x c : c < 128 -> encode t = x ++ [c] -> exists t', t = t' ++ [c] /\ encode t' = x.
Proof.
  intros C E. destruct (rev t) as [|r w] eqn:Ew; apply (f_equal (@rev N)) in Ew; rewrite rev_involutive in Ew; subst t.
  - destruct x; discriminate E.
  - cbn [rev] in *. exists (rev w). rewrite encode_app in E. rewrite (encode_cons r []) in E. cbn [encode flat_map] in E. rewrite app_nil_r in E.
    destruct (N.lt_ge_cases r 128) as [L|L].
    + rewrite encode_rune_ascii in E by exact L. apply app_inj_tail in E as (E & ->). now split.
    + exfalso. pose proof (GrammarFacts.encode_rune_high r L) as H. pose proof (encode_rune_len r) as Le. destruct (rev (encode_rune r)) as [|d v] eqn:Er; apply (f_equal (@rev N)) in Er; rewrite rev_involutive in Er; rewrite Er in *; [cbn in Le; lia|].
      cbn [rev] in *. rewrite app_assoc in E. apply app_inj_tail in E as (_ & ->). apply Forall_app in H as [_ H]. inversion H; subst. lia.
Qed.

Section WithOracles.
Context (O : oracles) (file : bytes -> option bytes) (cap : Z) (err_text : qerr unit hint -> bytes) (hint_text : hint -> bytes).
Notation prog := (aqltest O file cap err_text hint_text).
Notation run_query := (test_query O file cap err_text hint_text).

Lemma prog_given a0 a d : prog [a0; a; d] = match (if has_suffix (b ".aql") a then file a else Some a) with Some q => run_query q d | None => fatal [LNoFile a] end.
Proof. cbn [aqltest]. now destruct (has_suffix _ a). Qed.

(** Each message under the word for its type. *)
Definition printed_messages (q : bytes) (ms : list (message hint)) : list line :=
  map (fun x => LText (printed_under (match m_type x with MHint => b "INFO" | MWarning => b "WARNING" | MError => b "ERROR" end) q (hint_text (m_text x)) (m_pos x))) ms.

Lemma sprint_all q m : new_matcher O q = NewOk m ->
  map (fun x => sprint cap q (kind_of (m_type x)) (hint_text (m_text x)) (m_pos x)) (mt_messages m) = printed_messages q (mt_messages m).
Proof.
  intros N. destruct (proj1 (Prop_Match.C21_accepts O q) (ex_intro _ m N)) as (t & P). destruct (new_matcher_accepted O q t P) as (r & _ & E). rewrite E in N. injection N as <-. cbn [mt_messages].
  apply map_ext_in. intros x I. destruct (message_place O q t x P I) as (P1 & P2 & _). unfold sprint. rewrite terminal_ok by assumption.
  apply Prop_Grammar.C03_language in P as (text & Sc & -> & _). rewrite decode_encode by exact Sc. unfold printed_at. now destruct (m_type x).
Qed.

Definition stats_tree (name : bytes) (r : bool) : jtree :=
  TObj [("node_name", TStr name); ("times_checked", TInt 1); ("times_matched", TInt (if r then 1 else 0))]%string.

Lemma answered q t m r data d : parse_plain O q = QOk t -> new_matcher O q = NewOk m -> file d = Some data -> answers O q data (Some r) ->
  exists text, marshal_indent (stats_tree (Prop_Friendly.label O t) r) = Some text /\
    run_query q d = {| r_out := (if r then b "true" else b "false") ++ [10] ++ text ++ [10]; r_err := printed_messages q (mt_messages m); r_status := 0 |}.
Proof.
  intros P N F A. unfold test_query. rewrite N, F, (sprint_all q m N). destruct (new_matcher_accepted O q t P) as (r0 & B & E). rewrite E in N. injection N as <-. cbn [mt_root mt_messages].
  apply (proj1 (answers_iff O q data (Some r))) in A as (t' & m' & P' & B' & A). assert (t' = t) as -> by congruence. assert (m' = r0) as -> by congruence. clear P' B'.
  pose proof (match_answer O r0 data) as M. rewrite A in M. unfold match_doc in *. destruct (parse_json data) as [root|]; [|discriminate].
  destruct (result O r0 root) as [[a m']|] eqn:R; cbn [bind] in *; [|discriminate]. assert (a = r) as -> by congruence.
  rewrite (result_stats O t r0 root r m' B R). cbn [tree_of_stats app].
  change (TObj _) with (stats_tree (Prop_Friendly.label O t) r). destruct (Prop_Wasm.shallow_text (stats_tree (Prop_Friendly.label O t) r)) as (text & Et & _).
  { apply Prop_Wasm.small. reflexivity. }
  rewrite Et. exists text. split; [reflexivity|]. now rewrite <- app_assoc.
Qed.

(** The answer, the statistics of the query as JSON, all messages on standard error. *)
Theorem C99_answer a0 a d q t m data r : prints_ascii O ->
  query_given file a q -> file d = Some data -> parse_plain O q = QOk t -> new_matcher O q = NewOk m -> answers O q data (Some r) ->
  exists text j, prog [a0; a; d] = {| r_out := (if r then b "true" else b "false") ++ [10] ++ text ++ [10]; r_err := printed_messages q (mt_messages m); r_status := 0 |} /\
    document text j /\ shows (stats_tree (Prop_Friendly.label O t) r) j.
Proof.
  intros Fm G F P N A. apply given_spec in G. rewrite prog_given, G. destruct (answered q t m r data d P N F A) as (text & Et & ->). destruct (Prop_Marshal.C97_document _ _ Et) as (j & D & Sh).
  exists text, j. split; [reflexivity|]. split; [exact D|]. apply Sh. pose proof (label_utf8 O q t Fm P) as U.
  constructor. repeat (constructor; [cbn [fst snd]; split; [apply ascii_utf8; repeat constructor|constructor]|]); [exact U|constructor].
Qed.

(** All outcomes. *)
Lemma outcomes q d :
  (exists e, new_matcher O q = NewErr e /\ (forall t, parse_plain O q <> QOk t) /\ run_query q d = fatal [LText (printed_at (encode (decode q)) KParseError (err_text e) (qerr_pos e))]) \/
  (exists t m, parse_plain O q = QOk t /\ new_matcher O q = NewOk m /\
    ((file d = None /\ run_query q d = fatal [LNoFile d]) \/
     exists data, file d = Some data /\
      ((answers O q data None /\ run_query q d = fatal (printed_messages q (mt_messages m) ++ [LInvalidJson])) \/
       (~ (exists r, answers O q data r) /\ run_query q d = panics (printed_messages q (mt_messages m))) \/
       (exists r, answers O q data (Some r) /\ r_status (run_query q d) = 0%Z /\ r_out (run_query q d) <> [])))).
Proof.
  destruct (new_matcher_cases O q) as [(t & r & P & B & E)|(e & e' & P & E)].
  - right. exists t. eexists. split; [exact P|]. split; [exact E|]. destruct (file d) as [data|] eqn:F.
    + right. exists data. split; [reflexivity|]. pose proof (match_answer O r data) as M.
      assert (An : forall x, answers O q data x <-> answer O r data = Ok x).
      { intros x. rewrite answers_iff. split; [intros (t' & m' & P' & B' & A); congruence|intros A; exists t, r; auto]. }
      destruct (match_doc O r data) as [[[x|] m']|] eqn:Md.
      * right. right. exists x. split; [now apply An|]. destruct (answered q t _ x data d P E F (proj2 (An _) M)) as (text & _ & ->). split; [reflexivity|]. destruct x; discriminate.
      * left. split; [now apply An|]. unfold test_query. rewrite E, F, (sprint_all _ _ E). cbn [mt_root]. now rewrite Md.
      * right. left. split; [intros (x & A); apply An in A; congruence|]. unfold test_query. rewrite E, F, (sprint_all _ _ E). cbn [mt_root]. now rewrite Md.
    + left. split; [reflexivity|]. unfold test_query. now rewrite E, F.
  - left. exists e'. split; [exact E|]. split; [intros t; congruence|]. unfold test_query. rewrite E. destruct (error_place O q e' E) as (P1 & P2). unfold sprint. now rewrite terminal_ok by assumption.
Qed.

(** The exit status. *)
Theorem C99_success args : r_status (prog args) = 0%Z <->
  exists a0 a d q data r, args = [a0; a; d] /\ query_given file a q /\ file d = Some data /\ answers O q data (Some r).
Proof.
  split.
  - intros H. destruct args as [|a0 [|a [|d [|x l]]]]; try discriminate H. rewrite prog_given in H. exists a0, a, d.
    destruct (if has_suffix _ a then _ else _) as [q|] eqn:G; [|discriminate H]. exists q.
    destruct (outcomes q d) as [(e & _ & _ & E)|(t & m & P & N & [(F & E)|(data & F & [(A & E)|[(A & E)|(r & A & _)]])])]; try (rewrite E in H; discriminate H).
    exists data, r. split; [reflexivity|]. split; [now apply given_spec|]. now split.
  - intros (a0 & a & d & q & data & r & -> & G & F & A). apply given_spec in G. rewrite prog_given, G.
    destruct (outcomes q d) as [(e & N & R & E)|(t & m & P & N & [(F' & E)|(data' & F' & [(A' & E)|[(A' & E)|(r' & A' & E & _)]])])].
    + apply (proj1 (answers_iff O q data _)) in A as (t & m & P & _). now apply R in P.
    + congruence.
    + assert (data' = data) as -> by congruence. pose proof (Prop_Match.C25_one_answer _ _ _ _ _ A A'). discriminate.
    + assert (data' = data) as -> by congruence. exfalso. apply A'. eauto.
    + exact E.
Qed.
Theorem C99_crash args : r_status (prog args) = 2%Z <->
  exists a0 a d q t data, args = [a0; a; d] /\ query_given file a q /\ parse_plain O q = QOk t /\ file d = Some data /\ ~ exists r, answers O q data r.
Proof.
  split.
  - intros H. destruct args as [|a0 [|a [|d [|x l]]]]; try discriminate H. rewrite prog_given in H. exists a0, a, d.
    destruct (if has_suffix _ a then _ else _) as [q|] eqn:G; [|discriminate H]. exists q.
    destruct (outcomes q d) as [(e & _ & _ & E)|(t & m & P & N & [(F & E)|(data & F & [(A & E)|[(A & E)|(r & A & E & _)]])])]; try (rewrite E in H; discriminate H).
    exists t, data. split; [reflexivity|]. split; [now apply given_spec|]. auto.
  - intros (a0 & a & d & q & t & data & -> & G & P & F & A). apply given_spec in G. rewrite prog_given, G.
    destruct (outcomes q d) as [(e & N & R & E)|(t' & m & P' & N & [(F' & E)|(data' & F' & [(A' & E)|[(A' & E)|(r' & A' & E & _)]])])].
    + now apply R in P.
    + congruence.
    + assert (data' = data) as -> by congruence. exfalso. apply A. eauto.
    + rewrite E. reflexivity.
    + assert (data' = data) as -> by congruence. exfalso. apply A. eauto.
Qed.
(** Otherwise it is 1; only success writes to standard output, and no message is cut off. *)
Theorem C99_streams args : (r_status (prog args) = 0 \/ r_status (prog args) = 1 \/ r_status (prog args) = 2)%Z /\
  (r_out (prog args) <> [] <-> r_status (prog args) = 0%Z) /\ (forall out, ~ In (LPrintError out) (r_err (prog args))).
Proof.
  assert (Lg : forall q ms out, ~ In (LPrintError out) (printed_messages q ms)) by (intros q ms out I; apply in_map_iff in I as (x & [=] & _)).
  assert (Ft : forall l, (forall out, ~ In (LPrintError out) l) -> (r_status (fatal l) = 0 \/ r_status (fatal l) = 1 \/ r_status (fatal l) = 2)%Z /\
    (r_out (fatal l) <> [] <-> r_status (fatal l) = 0%Z) /\ (forall out, ~ In (LPrintError out) (r_err (fatal l)))).
  { intros l H. cbn. split; [lia|]. split; [|exact H]. split; [congruence|discriminate]. }
  assert (F1 : forall x, (forall out, x <> LPrintError out) -> forall out, ~ In (LPrintError out) [x]) by (intros x H out [I|[]]; now apply (H out)).
  assert (F2 : forall l x, (forall out, ~ In (LPrintError out) l) -> (forall out, x <> LPrintError out) -> forall out, ~ In (LPrintError out) (l ++ [x])).
  { intros l x Hl H out I. apply in_app_iff in I as [I|I]; [now apply Hl in I|]. now apply (F1 x H) in I. }
  destruct args as [|a0 [|a [|d [|x l]]]]; try (apply Ft, F1; discriminate). rewrite prog_given. destruct (if has_suffix _ a then _ else _) as [q|]; [|apply Ft, F1; discriminate].
  destruct (outcomes q d) as [(e & _ & _ & E)|(t & m & P & N & [(F & E)|(data & F & [(A & E)|[(A & E)|(r & A & E & Ne)]])])].
  - rewrite E. apply Ft, F1. discriminate.
  - rewrite E. apply Ft, F1. discriminate.
  - rewrite E. apply Ft, F2; [apply Lg|discriminate].
  - rewrite E. cbn. split; [lia|]. split; [split; [congruence|discriminate]|]. apply F2; [apply Lg|discriminate].
  - rewrite E. split; [lia|]. split; [tauto|]. destruct (answered q t m r data d P N F A) as (text & _ & ->). apply Lg.
Qed.
(** A rejected query: one message, the error of NewMatcher; the document is not read. *)
Theorem C99_rejected a0 a d q : query_given file a q -> (forall t, parse_plain O q <> QOk t) ->
  exists e, new_matcher O q = NewErr e /\
    prog [a0; a; d] = {| r_out := []; r_err := [LText (printed_at (encode (decode q)) KParseError (err_text e) (qerr_pos e))]; r_status := 1 |}.
Proof.
  intros G R. apply given_spec in G. rewrite prog_given, G. destruct (outcomes q d) as [(e & N & _ & E)|(t & m & P & _)]; [|now apply R in P]. exists e. now split.
Qed.
(** A query given as an argument is never mistaken for the name of a file. *)
Theorem C99_argument a t : parse_plain O a = QOk t -> query_given file a a.
Proof.
  intros P. right. split; [|reflexivity]. intros (x & E). apply Prop_Grammar.C03_language in P as (text & Sc & -> & (w1 & u & w2 & -> & _ & W2 & D) & _).
  change (b ".aql") with ([46; 97] ++ [113] ++ [108]) in E. rewrite !app_assoc in E. apply encode_last_ascii in E as (t1 & E1 & E); [|lia].
  apply encode_last_ascii in E as (t2 & -> & _); [|lia]. destruct (rev w2) as [|c w] eqn:Ew.
  - apply (f_equal (@rev N)) in Ew. rewrite rev_involutive in Ew. subst w2. rewrite app_nil_r in E1. apply (derives_end O _ _ _ _ D w1). exists t2. rewrite E1. now rewrite <- app_assoc.
  - apply (f_equal (@rev N)) in Ew. rewrite rev_involutive in Ew. cbn in Ew. subst w2. rewrite !app_assoc in E1. apply app_inj_tail in E1 as (_ & ->). apply Forall_app in W2 as [_ W2]. inversion W2; subst. unfold GrammarSpec.ws_char in *. lia.
Qed.
End WithOracles.

(** A document file and a query file. *)
Definition test_files (name : bytes) : option bytes :=
  if beqb name (b "d.json") then Some (b "{""a"":""x"",""b"":[1,2]}")
  else if beqb name (b "q.aql") then Some (b "b:2 OR a:/.*x/
") else None.
Lemma test_ascii : prints_ascii test_oracle.
Proof. intros f. cbn. repeat constructor. Qed.
Example C99_example_file : let r := aqltest test_oracle test_files 100 (fun _ => b "error") (fun _ => b "hint") [b "aqltest"; b "q.aql"; b "d.json"] in
  r_status r = 0%Z /\ r_out r = b "true
{
  ""node_name"": ""OR"",
  ""times_checked"": 1,
  ""times_matched"": 1
}
" /\ r_err r = [LText (b "INFO: hint
    b:2 OR a:/.*x/

             ^^^^^
")].
Proof. vm_compute. auto. Qed.
Example C99_example_errors : let run := aqltest test_oracle test_files 100 (fun _ => b "bad") (fun _ => b "hint") in
  run [b "aqltest"; b "a:<""x"""; b "missing"] = fatal [LText (b "ERROR: bad
    a:<""x""
       ^^^
")] /\ run [b "aqltest"; b "r.aql"; b "d.json"] = fatal [LNoFile (b "r.aql")] /\ r_status (run [b "aqltest"; b "*:exists"; b "d.json"]) = 2%Z.
Proof. vm_compute. auto. Qed.
