(** C82: the values a path refers to, found by scanning bytes. *)
From Verif Require Import Bytes Utf8 GoStrconv GoFloat GoTime GoNet Oracles Ast AstSpec Json JsonSpec JsonProofs Values StrMatch Matcher
  QueryMessages MatchApi MatchSpec MatchProofs MatcherTop Visitors ParseQuery TestOracle JsonParser MatchBytes JsonParserProofs MatchBytesProofs.

(** What jsonparser hands out for a value: scalars with their text (strings without the
    quotes), containers with their text. *)
Definition stands_for (x : jvalue) (j : json) : Prop :=
  match j with
  | JNull => x = (b "null", TNull)
  | JBool true => x = (b "true", TBoolean)
  | JBool false => x = (b "false", TBoolean)
  | JNum s => x = (s, TNumber)
  | JStr s => x = (s, TString)
  | JArr _ => snd x = TArray /\ value_text (fst x) j
  | JObj _ => snd x = TObject /\ value_text (fst x) j
  end.

Lemma shows_stands v j : shows v j -> stands_for v j.
Proof. destruct j as [|x|x|x|x|x]; cbn; try tauto. now destruct x. Qed.

(** The scanning Match is the Match of Matcher.v, on every input: same answer, same error,
    same panics, same counters. *)
Theorem C82_same O m data : match_bytes O m data = match_doc O m data.
Proof. apply match_same. Qed.
Print Assumptions C82_same.

(** Hence it decides what the query means. *)
Theorem C82_meaning O q t data j : parse_plain O q = QOk t -> document data j ->
  (forall o f vs p, subnode (NExpr o f vs p) t -> path_safe j f /\ no_index j f) ->
  exists mt a m', new_matcher O q = NewOk mt /\ match_bytes O (mt_root mt) data = Ok (Some a, m') /\
    (a = true <-> holds O t j).
Proof.
  intros P D Sf. pose proof (accepted_tree_ok O q t P) as T.
  destruct (new_matcher_accepted O q t P) as (r & B & N0).
  destruct (ev_holds O t j T Sf r B) as (a & E & H). apply parse_json_spec in D.
  pose proof (result_ev O r j) as R. rewrite E in R. destruct (result O r j) as [[a' m']|] eqn:Rs; [|discriminate].
  destruct R as [[= <-] _]. eexists _, a, m'. split; [exact N0|]. split; [|exact H].
  cbn [mt_root]. rewrite match_same. unfold match_doc. rewrite D, Rs. reflexivity.
Qed.
Print Assumptions C82_meaning.

(** The layout of a document does not matter: two texts of the same tree give the same. *)
Theorem C82_layout O m d1 d2 j : document d1 j -> document d2 j -> match_bytes O m d1 = match_bytes O m d2.
Proof.
  intros A B. rewrite !match_same. unfold match_doc. apply parse_json_spec in A, B. now rewrite A, B.
Qed.
Print Assumptions C82_layout.

(** The values found are those the path refers to. *)
Theorem C82_values data j path : document data j -> path_safe j path -> no_index j path ->
  exists vs, get_values_b path data = Ok vs /\
    (forall v, In v vs -> exists c, resolves path j c /\ stands_for v c) /\
    (forall c, resolves path j c -> exists v, In v vs /\ stands_for v c).
Proof.
  intros (w1 & s & w2 & -> & W1 & V & W2 & _) Sf Ni.
  pose proof (get_values_same path _ _ _ _ W1 V W2) as G.
  destruct (get_field_spec path j Sf Ni) as (js & E & In_js). unfold get_field in E. rewrite E in G.
  destruct G as (vs & Gv & F). exists vs. split; [exact Gv|]. clear -F In_js.
  assert (A : forall v, In v vs -> exists c, In c js /\ stands_for v c).
  { clear In_js. induction F as [|v c vs js H _ IH]; cbn; [tauto|]. intros x [<-|I]; [eauto using shows_stands|].
    destruct (IH _ I) as (d & ? & ?). eauto. }
  assert (B : forall c, In c js -> exists v, In v vs /\ stands_for v c).
  { clear In_js A. induction F as [|v c vs js H _ IH]; cbn; [tauto|]. intros x [<-|I]; [eauto using shows_stands|].
    destruct (IH _ I) as (d & ? & ?). eauto. }
  split.
  - intros v I. destruct (A v I) as (c & Ic & St). exists c. split; [now apply In_js|exact St].
  - intros c R. apply B. now apply In_js.
Qed.
Print Assumptions C82_values.

(** A document whose strings contain text that looks like members, brackets and quotes, and
    with the same name at several depths. *)
Definition tricky : bytes :=
  b " { ""x"" : ""}],\""a\"":{[\\"" , ""y"":{""a"":1,""z"":[{""a"":2}]} ,""a"" : [ {""c"":""]""}, 5 , {""c"":7} ]  } ".

Example C82_example : get_values_b [b "a"; b "c"] tricky = Ok [(b "]", TString); (b "7", TNumber)] /\
  get_values_b [b "a"; b "z"] tricky = Ok [] /\
  get_values_b [b "y"; b "z"; b "a"] tricky = Ok [(b "2", TNumber)] /\
  exists j, document tricky j /\ path_safe j [b "a"; b "c"] /\ no_index j [b "a"; b "c"].
Proof.
  split; [vm_compute; reflexivity|]. split; [vm_compute; reflexivity|]. split; [vm_compute; reflexivity|].
  eexists. split; [apply parse_json_spec; vm_compute; reflexivity|]. vm_compute. tauto.
Qed.

Example C82_example_match : exists mt, new_matcher test_oracle (b "a.c:7 AND NOT a.z:exists") = NewOk mt /\
  (exists m', match_bytes test_oracle (mt_root mt) tricky = Ok (Some true, m')) /\
  match_bytes test_oracle (mt_root mt) (b "{""a"":1") = Ok (None, mt_root mt).
Proof.
  eexists. split; [vm_compute; reflexivity|]. split; [eexists|]; vm_compute; reflexivity.
Qed.
