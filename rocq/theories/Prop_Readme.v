(** C143: the examples of README.md. *)
From Verif Require Import Bytes Utf8 Utf8Proofs GoStrconv GoFloat GoTime GoNet Oracles Ast AstSpec Json JsonSpec JsonProofs Values StrMatch Matcher
  QueryMessages MatchApi MatchSpec MatchProofs MatcherTop Visitors ParseQuery TestOracle NumSpec NumProofs FloatProofs PrintedProofs PegSyntax Engine Validators ValidatorProofs VisitorProofs Prop_Match Prop_Strings Prop_Validators GrammarSpec Layout LayoutProofs Prop_Grammar Prop_Layout FormatFloat Prop_Printed.
From Coq Require Import ZifyBool ZifyN ZifyNat.

(** The examples with a document and an answer: README.md:49-58, 63-73, 78-90, 93-111, 116-131. *)
Definition doc_text : bytes := b "{ ""text"":""hello"" }".
Definition doc_levels : bytes := b "{ ""level1"": { ""level2"": { ""level3"": ""here!"" } } }".
Definition doc_inner : bytes := b "{ ""outer"":{ ""inner"": [ ""hello"", ""world"", ""from AQL"" ] } }".
Definition doc_outer : bytes := b "{ ""outer"": [ { ""inner"": ""hello"" }, { ""inner"": [ ""world"" ] }, { ""inner"": ""from AQL"" } ] }".
Definition doc_two : bytes := b "{ ""text"":""AQL"", ""number"":1 }".
Definition readme_answers : list (bytes * bytes * bool) :=
  [ (b "text: ""hello""", doc_text, true);
    (b "level1.level2.level3:""here!""", doc_levels, true);
    (b "outer.inner:""world""", doc_inner, true);
    (b "outer.inner:""world""", doc_outer, true);
    (b "text:""AQL"" AND number:1", doc_two, true);
    (b "text:""Nope"" OR number:1", doc_two, true);
    (b "text:""AQL"" AND !number:1", doc_two, false);
    (b "(text:""Nope"" OR text:""AQL"") AND number:1", doc_two, true) ].

(** One of them is wrong, the rest are right. *)
Theorem C143_answers O x : In x readme_answers -> fst (fst x) <> b "level1.level2.level3:""here!""" -> answers O (fst (fst x)) (snd (fst x)) (Some (snd x)).
Proof.
  intros H Ne. cbn [readme_answers In] in H.
  repeat (destruct H as [<-|H]; [first [now destruct Ne|do 3 eexists; split; [vm_compute; reflexivity|split; [apply af_none|vm_compute; reflexivity]]]|]). destruct H.
Qed.
Print Assumptions C143_answers.
Theorem C143_answers_refuted : exists x, In x readme_answers /\ forall O, answers O (fst (fst x)) (snd (fst x)) (Some (negb (snd x))).
Proof.
  exists (b "level1.level2.level3:""here!""", doc_levels, true). split; [cbn; tauto|]. intros O.
  do 3 eexists. split; [vm_compute; reflexivity|split; [apply af_none|vm_compute; reflexivity]].
Qed.
Print Assumptions C143_answers_refuted.

(** The program of README.md:14-40 prints true, if the date of the document is recognised. *)
Definition doc_usage : bytes :=
  b "{ ""date"": ""1970-01-02"", ""number"": 2, ""name"": ""Andy"", ""description"": """ ++ encode [22823; 25042; 34411] ++ b """ }".
Theorem C143_usage O : o_dateparse O (b "1970-01-02") = Some {| i_sec := 86400; i_nsec := 0 |} ->
  answers O (b "name:""andy"" AND date:><(1970-01-01,1980-01-01)") doc_usage (Some true).
Proof.
  intros H. eassert (P : parse_plain O (b "name:""andy"" AND date:><(1970-01-01,1980-01-01)") = QOk _) by (vm_compute; reflexivity).
  assert (D : parse_json doc_usage <> None) by (vm_compute; discriminate). destruct (parse_json doc_usage) as [j|] eqn:Ej; [|congruence].
  pose proof (proj1 (parse_json_spec _ _) Ej) as Dj. vm_compute in Ej. injection Ej as <-.
  apply (proj1 (C24_meaning O _ _ _ _ P Dj ltac:(intros o f vs p S0; repeat match goal with S0 : subnode _ _ |- _ => inversion S0; clear S0; subst end; split; exact I))).
  split.
  - eassert (P1 : parse_plain O (b "name:""andy""") = QOk _) by (vm_compute; reflexivity).
    apply (proj1 (C24_meaning O _ _ _ _ P1 Dj ltac:(intros o f vs p S0; repeat match goal with S0 : subnode _ _ |- _ => inversion S0; clear S0; subst end; split; exact I))).
    do 3 eexists. split; [vm_compute; reflexivity|]. split; [apply af_none|]. vm_compute. reflexivity.
  - do 2 eexists. exists (JStr (b "1970-01-02")). split; [reflexivity|]. split.
    + split; [split; discriminate|]. left. apply rs_last. apply lookup_member. vm_compute. reflexivity.
    + exists {| i_sec := 86400; i_nsec := 0 |}. split; [exists (b "1970-01-02"); split; [now apply tof_string|exact H]|]. vm_compute. split; discriminate.
Qed.
Print Assumptions C143_usage.

(** The queries of the tables, README.md:158-225. *)
Definition readme_queries : list bytes :=
  [ b "field:""value"""; b "field:1"; b "field:1.0"; b "field:1970-01-01"; b "field:1970-01-02T15:53:33+00:00"; b "field:true"; b "field:false";
    b "field:/attack of the \d+ foot (?:cat|dog)/"; b "field:192.168.1.0/24"; b "field:exists"; b "field:null";
    b "field:(""value1"", ""value2"", ""value3"")"; b "field:(1,2)"; b "field:(1.1, 2.2)"; b "field:(1970-01-01, 1970-01-02T15:53:33Z)";
    b "field:>1"; b "field:<2.5"; b "field:<=1970-01-01"; b "field:>=1970-01-02T15:53:33" ++ encode [8722] ++ b "05:00";
    b "field:><(1, 2)"; b "field:><(2.1, 2.2)"; b "field:><(1970-01-01, 1970-01-02)" ].

Definition minus_query : bytes := b "field:>=1970-01-02T15:53:33" ++ encode [8722] ++ b "05:00".

(** One comparison of the field called field, its values written with [spell]. *)
Lemma comparison_accepted O (spell : aval -> text) o vs q :
  args_ok o vs -> distinct_ok O o vs -> (o = BET -> exists v w, vs = [v; w] /\ range_ok v w) ->
  (forall v, In v vs -> scalars (spell v) /\ literal O (spell v) no_position (set_pos no_position v)) ->
  q = encode (render (fun _ => tx "field") spell LOr (NExpr o [b "field"] vs no_position)) ->
  exists t, parse_plain O q = QOk t.
Proof.
  intros A D B L ->. edestruct (C04_roundtrip O (fun _ => tx "field") spell (NExpr o [b "field"] vs no_position)) as (t & P & _); [| |exists t; exact P].
  - intros o' f vs' p H. inversion H; subst. auto.
  - intros o' f vs' p H. inversion H; subst. split; [apply ascii_scalars; repeat constructor|]. split; [|exact L].
    exists [b "field"]. split; [|reflexivity]. apply pcs_one. apply (pc_plain (tx "field")); [|discriminate].
    apply Forall_forall. intros c Hc. left. cbn in Hc. repeat (destruct Hc as [<-|Hc]; [lia|]); destruct Hc.
Qed.

(** Two decimal numbers, each with a value of its own. *)
Lemma floats_accepted O o (t1 t2 : text) x1 x2 q : formats O ->
  float_lit t1 -> float_lit t2 -> scalars t1 -> scalars t2 ->
  parse_float (o_float_other O) (encode t1) = Some x1 -> parse_float (o_float_other O) (encode t2) = Some x2 ->
  finite_double x1 -> finite_double x2 -> SFeqb x2 x1 = false -> SFeqb x1 x1 = true -> SFeqb x2 x2 = true -> f_le x2 x1 = false -> o = EQ \/ o = BET ->
  q = b "field:" ++ encode (render_op o) ++ b "(" ++ encode t1 ++ b ", " ++ encode t2 ++ b ")" ->
  exists t, parse_plain O q = QOk t.
Proof.
  intros Fm L1 L2 S1 S2 P1 P2 F1 F2 N12 E11 E22 Le Ho ->.
  assert (Nxy : x1 <> x2) by (intros ->; congruence).
  set (spell := fun v => match v with AFloat x _ _ => if SFeqb x x1 then t1 else t2 | _ => [] end).
  eapply (comparison_accepted O spell o [AFloat x1 (o_fmt_float O x1) no_position; AFloat x2 (o_fmt_float O x2) no_position]).
  - destruct Ho as [-> | ->]; [discriminate|]. do 2 eexists. split; [reflexivity|]. split; constructor.
  - destruct (Fm x1 F1) as [_ Px]. destruct (Fm x2 F2) as [_ Py]. split.
    + intros [|[|i]] [|[|j]] v w Hv Hw E; cbn in Hv, Hw; try reflexivity; try (destruct i; discriminate); try (destruct j; discriminate);
        injection Hv as <-; injection Hw as <-; cbn in E; exfalso; apply Nxy; congruence.
    + intros _ (v & [<-|[<-|[]]] & E); cbn in E; exfalso; rewrite E in *; discriminate.
  - intros _. do 2 eexists. split; [reflexivity|]. eapply range_num; [constructor|constructor|exact Le].
  - intros v [<-|[<-|[]]]; cbn; rewrite ?E11, ?N12; (split; [assumption|]); apply lit_float; try assumption; unfold new_float_val.
    + rewrite P1. cbn. destruct x1; try reflexivity. discriminate.
    + rewrite P2. cbn. destruct x2; try reflexivity. discriminate.
  - cbn [render commas_text]. unfold spell. rewrite E11, N12. rewrite !encode_app. destruct Ho as [-> | ->]; cbn; now rewrite <- ?app_assoc.
Qed.

(** All are accepted but the one whose offset is written with U+2212 instead of a hyphen. *)
Theorem C143_queries O q : formats O -> o_re_parse O (b "attack of the \d+ foot (?:cat|dog)") <> None ->
  In q readme_queries -> q <> minus_query -> exists t, parse_plain O q = QOk t.
Proof.
  intros Fm Re H Ne.
  assert (FL : forall c d e, In c [49; 50] -> In d [49; 50] -> e = [c; 46; d] -> float_lit e /\ scalars e).
  { intros c d e Hc Hd ->. cbn in Hc, Hd. split.
    - exists [], [c], [d]. split; [reflexivity|]. split; [now left|]. split; (split; [repeat constructor; unfold digit; lia|discriminate]).
    - apply ascii_scalars. repeat constructor; lia. }
  cbn [readme_queries In] in H.
  do 7 (destruct H as [<-|H]; [eexists; vm_compute; reflexivity|]).
  destruct H as [<-|H].
  { apply (comparison_accepted O (fun _ => tx "/attack of the \d+ foot (?:cat|dog)/") EQ
      [ARegex (b "attack of the \d+ foot (?:cat|dog)") (b "/attack of the \d+ foot (?:cat|dog)/") no_position]).
    - discriminate.
    - split.
      + intros [|i] [|j] v w Hv Hw _; cbn in Hv, Hw; try reflexivity; try (destruct i; discriminate); destruct j; discriminate.
      + intros _ (v & [<-|[]] & E). vm_compute in E. discriminate.
    - discriminate.
    - intros v [<-|[]]. split; [apply ascii_scalars; repeat constructor|]. apply lit_regex.
      + exists (tx "attack of the \d+ foot (?:cat|dog)"). split; [reflexivity|]. cbn. repeat first [apply rb_nil|apply rb_char; [lia|lia|lia|]|apply rb_esc; [lia|]].
      + unfold new_regexp_val. change (trim_slash _) with (b "attack of the \d+ foot (?:cat|dog)"). destruct (o_re_parse O _); [reflexivity|congruence].
    - reflexivity. }
  destruct H as [<-|H].
  { apply (comparison_accepted O (fun _ => tx "192.168.1.0/24") EQ
      [ANet {| p_addr := 3232235776; p_bits := 24 |} (b "192.168.1.0/24") no_position]).
    - discriminate.
    - split.
      + intros [|i] [|j] v w Hv Hw _; cbn in Hv, Hw; try reflexivity; try (destruct i; discriminate); destruct j; discriminate.
      + intros _ (v & [<-|[]] & E). vm_compute in E. discriminate.
    - discriminate.
    - intros v [<-|[]]. split; [apply ascii_scalars; repeat constructor|]. apply lit_ip.
      + assert (D : forall d, forallb (fun c => (48 <=? c) && (c <=? 57)) d = true -> d <> [] -> (length d <= 3)%nat -> octet d).
        { intros d E Nd Ld. split; [|exact Ld]. split; [|exact Nd]. apply Forall_forall. intros c Hc. rewrite forallb_forall in E. apply E in Hc. unfold digit. lia. }
        exists (tx "192"), (tx "168"), (tx "1"), (tx "0"), (tx "/24"). split; [reflexivity|].
        repeat (split; [apply D; [reflexivity|discriminate|cbn; lia]|]). right. exists (tx "24"). split; [reflexivity|].
        split; [apply D; [reflexivity|discriminate|cbn; lia]|cbn; lia].
      + unfold new_net_val. destruct (o_strict_bits O); vm_compute; reflexivity.
    - reflexivity. }
  do 4 (destruct H as [<-|H]; [eexists; vm_compute; reflexivity|]).
  destruct H as [<-|H].
  { destruct (FL 49 49 (tx "1.1") ltac:(cbn; tauto) ltac:(cbn; tauto) eq_refl) as (A1 & A2).
    destruct (FL 50 50 (tx "2.2") ltac:(cbn; tauto) ltac:(cbn; tauto) eq_refl) as (B1 & B2).
    eapply (floats_accepted O EQ (tx "1.1") (tx "2.2")); try assumption; try (vm_compute; reflexivity); try (vm_compute; now repeat split); auto. }
  do 4 (destruct H as [<-|H]; [eexists; vm_compute; reflexivity|]).
  destruct H as [<-|H]; [now destruct Ne|].
  destruct H as [<-|H]; [eexists; vm_compute; reflexivity|].
  destruct H as [<-|H].
  { destruct (FL 50 49 (tx "2.1") ltac:(cbn; tauto) ltac:(cbn; tauto) eq_refl) as (A1 & A2).
    destruct (FL 50 50 (tx "2.2") ltac:(cbn; tauto) ltac:(cbn; tauto) eq_refl) as (B1 & B2).
    eapply (floats_accepted O BET (tx "2.1") (tx "2.2")); try assumption; try (vm_compute; reflexivity); try (vm_compute; now repeat split); auto. }
  destruct H as [<-|[]]. eexists. vm_compute. reflexivity.
Qed.
Print Assumptions C143_queries.
Theorem C143_queries_refuted : exists q, In q readme_queries /\ forall O, ~ exists t, parse_plain O q = QOk t.
Proof.
  exists minus_query. split; [unfold minus_query; cbn [readme_queries In]; tauto|]. intros O (t & P). vm_compute in P. discriminate.
Qed.
Print Assumptions C143_queries_refuted.

(** The hypotheses can be met together: floats printed in the shortest form, dates read as
    RFC 3339. *)
Definition readme_oracle : oracles := {|
  o_re_parse := o_re_parse test_oracle; o_re_match := o_re_match test_oracle; o_fmt_float := FormatFloat.format_float; o_float_other := o_float_other test_oracle;
  o_is_print := o_is_print test_oracle; o_dateparse := fun s => if beqb s (b "1970-01-02") then Some {| i_sec := 86400; i_nsec := 0 |} else None;
  o_to_lower := o_to_lower test_oracle; o_text_search := o_text_search test_oracle;
  o_fold := o_fold test_oracle; o_strict_bits := true |}.
Example C143_hypotheses : formats readme_oracle /\ o_re_parse readme_oracle (b "attack of the \d+ foot (?:cat|dog)") <> None /\
  o_dateparse readme_oracle (b "1970-01-02") = Some {| i_sec := 86400; i_nsec := 0 |} /\ In (b "field:><(2.1, 2.2)") readme_queries /\ b "field:><(2.1, 2.2)" <> minus_query /\
  In (b "text:""AQL"" AND !number:1", doc_two, false) readme_answers.
Proof.
  split; [now apply Prop_Printed.C90_formatter|]. split; [vm_compute; discriminate|]. split; [vm_compute; reflexivity|].
  split; [cbn [readme_queries In]; tauto|]. split; [vm_compute; discriminate|]. cbn [readme_answers In]. tauto.
Qed.
