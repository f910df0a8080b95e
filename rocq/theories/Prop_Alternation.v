(** C113: the hint that proposes a list of strings in place of an alternation. *)
From Verif Require Import Bytes Utf8 Utf8Proofs GoFloat GoTime GoStrconv Oracles Ast AstSpec GrammarSpec GrammarFacts PegSyntax Prop_Grammar PathProofs SimpleQuery
  Visitors QueryMessages MessageSpec MessageProofs Prop_Messages Prop_Match WasmProofs CmdProofs
  Json Values StrMatch Matcher Layout ParseQuery ParserTop MatchApi MatcherTop RegexSpec RegexProofs TestOracle.

(** What the hint proposes for the text [g] of the field: g:(one, two) with the strings in quotes *)
Definition proposal (g : bytes) : bytes := g ++ b ":(""one"", ""two"")".

(** The hint is given for alternatives of a regular expression, with the names of the field joined. *)
Theorem C113_told O q m x g : new_matcher O q = NewOk m -> In x (mt_messages m) -> m_text x = HAlternation g ->
  exists t o f r s p y subs, parse_plain O q = QOk t /\ In (o, f, ARegex r s p) (tree_values t) /\ m_pos x = p /\
    o_re_parse O r = Some y /\ inner y (RT OpAlternate subs) /\ g = join (b ".") f.
Proof.
  intros Nm I Ex. destruct (proj1 (C21_accepts O q) (ex_intro _ m Nm)) as (t & P).
  destruct (C21_messages O q t m P Nm) as (bs & E & F). rewrite E in I. apply in_concat in I as (ms & Ib & I).
  destruct (Forall2_in_r _ _ _ F _ Ib) as ([[o f] v] & Iv & (M1 & M2 & _)).
  assert (G : gives O o f v (m_type x) (HAlternation g)) by (rewrite <- Ex; apply M2; eauto).
  pose proof (M1 x I) as Px. remember (m_type x) as k eqn:Ek. inversion G; subst. do 8 eexists. repeat (split; [eassumption|]). reflexivity.
Qed.
Print Assumptions C113_told.

(** For a field of ordinary names the proposal is a query on the same field. *)
Lemma name_scalar c : name_char c -> is_scalar c = true.
Proof. unfold name_char, digit, is_scalar. cbn. intros H. lia. Qed.
Lemma checked_one_two O f p p1 p2 : checked O (NExpr EQ f [AStr (b "one") p1; AStr (b "two") p2] p).
Proof.
  intros o f' vs p' Sb. inversion Sb; subst. split; [discriminate|]. split; [|discriminate]. split.
  - intros i j x y Hi Hj E. destruct i as [|[|[|]]], j as [|[|[|]]]; cbn in Hi, Hj; try discriminate; try reflexivity; injection Hi as <-; injection Hj as <-; vm_compute in E; discriminate.
  - intros _ (x & [<-|[<-|[]]] & E1) _; vm_compute in E1; discriminate.
Qed.
Lemma word_literal O w p : Forall (fun c => 97 <= c <= 122) w -> unquote ([34] ++ w ++ [34]) = Some w -> literal O ([34] ++ w ++ [34]) p (AStr w p).
Proof.
  intros F U. apply lit_string.
  - exists w. split; [reflexivity|]. clear U. induction F; constructor; try lia; auto.
  - rewrite encode_ascii; [exact U|]. apply Forall_app. split; [repeat constructor; lia|]. apply Forall_app. split; [|repeat constructor; lia].
    eapply Forall_impl; [|exact F]. cbn. lia.
Qed.
Lemma path_join us : encode (path_text us) = join (b ".") (map encode us).
Proof.
  induction us as [|s [|s' us] IH]; [reflexivity|reflexivity|]. change (path_text (s :: s' :: us)) with (s ++ tx "." ++ path_text (s' :: us)).
  rewrite !encode_app, IH. reflexivity.
Qed.
Theorem C113_usable O us : us <> [] -> Forall (fun s => s <> [] /\ Forall name_char s) us ->
  exists p1 p2 p, parse_plain O (proposal (join (b ".") (map encode us))) = QOk (NExpr EQ (map encode us) [AStr (b "one") p1; AStr (b "two") p2] p).
Proof.
  intros Ne F. set (T := path_text us).
  assert (Sus : Forall scalars us) by (eapply Forall_impl; [|exact F]; intros s [_ Hs]; eapply Forall_impl; [|exact Hs]; exact name_scalar).
  assert (Sc : scalars T).
  { unfold T. clear Ne F. induction Sus as [|s us Hs F IH]; [constructor|]. destruct us as [|s' us]; [exact Hs|].
    change (path_text (s :: s' :: us)) with (s ++ tx "." ++ path_text (s' :: us)). apply Forall_app. split; [exact Hs|]. constructor; [reflexivity|exact IH]. }
  assert (Fd : field T (map encode us)).
  { exists (map encode us). split.
    - apply pieces_path; [exact Ne|]. clear Ne T Sc Sus. induction F as [|s f [Hn Hs] F IH]; constructor; [|exact IH]. now apply pc_plain.
    - clear Ne T Sc. induction F as [|s f [Hn Hs] F IH]; [reflexivity|]. inversion Sus as [|? ? Ss Sus']; subst. cbn [map filter]. destruct (beqb (encode s) (b "*")) eqn:E; cbn [negb]; [|now rewrite <- IH].
      apply beqb_eq in E. change (b "*") with (encode (tx "*")) in E. apply encode_inj in E; [|exact Ss|repeat constructor]. subst s.
      inversion Hs as [|c l Hc _]; subst. unfold name_char, digit in Hc. cbn in Hc. exfalso. lia. }
  set (V := tx "(" ++ [] ++ ([34] ++ b "one" ++ [34]) ++ ([] ++ tx "," ++ tx " " ++ ([34] ++ b "two" ++ [34])) ++ [] ++ tx ")").
  exists (pos_of ((T ++ tx ":") ++ tx "(") ([34] ++ b "one" ++ [34])), (pos_of ((((T ++ tx ":") ++ tx "(") ++ ([34] ++ b "one" ++ [34])) ++ tx ", ") ([34] ++ b "two" ++ [34])), (pos_of [] (T ++ tx ":" ++ V)).
  apply C03_language. exists (T ++ tx ":" ++ V). split; [|split; [|split]].
  - apply Forall_app. split; [exact Sc|]. apply Forall_forall. apply forallb_forall. reflexivity.
  - unfold proposal. rewrite encode_app, <- path_join. reflexivity.
  - exists [], (T ++ tx ":" ++ V), []. rewrite app_nil_r. split; [reflexivity|]. split; [constructor|]. split; [constructor|].
    apply d_or1, d_and1, d_not1. change (T ++ tx ":" ++ V) with (T ++ [] ++ tx ":" ++ [] ++ [] ++ [] ++ V).
    apply d_values with (o := EQ); try (constructor; fail); auto. cbn [app].
    change (T ++ 58 :: []) with (T ++ tx ":").
    apply vs_many; try (constructor; fail).
    + rewrite app_nil_r. apply word_literal; [repeat constructor; discriminate|reflexivity].
    + rewrite (app_assoc (T ++ tx ":") (tx "(")). cbn [app].
      match goal with |- more_values _ ?pre _ _ => replace pre with (((T ++ tx ":") ++ tx "(") ++ ([34] ++ b "one" ++ [34])) by reflexivity end.
      apply (mv_last O _ [] (tx " ") ([34] ++ b "two" ++ [34])); try (repeat constructor; fail).
      apply word_literal; [repeat constructor; discriminate|reflexivity].
  - apply checked_one_two.
Qed.
Print Assumptions C113_usable.

(** An implementation for a few patterns *)
Definition alt_oracle : oracles := {|
  o_re_parse := fun _ => Some (RT OpAlternate [RT OpLiteral []; RT OpLiteral []]);
  o_re_match := fun p s => if beqb p (b "one|two") then occurs (b "one") (decode s) || occurs (b "two") (decode s) else false;
  o_fmt_float := o_fmt_float test_oracle; o_float_other := o_float_other test_oracle; o_is_print := o_is_print test_oracle;
  o_dateparse := o_dateparse test_oracle; o_to_lower := o_to_lower test_oracle; o_text_search := o_text_search test_oracle;
  o_fold := o_fold test_oracle; o_strict_bits := o_strict_bits test_oracle |}.

Example C113_example : exists m x p1 p2 p, new_matcher alt_oracle (b "a.*.b-c:/one|two/") = NewOk m /\ In x (mt_messages m) /\ m_text x = HAlternation (b "a.b-c") /\
  parse_plain alt_oracle (proposal (b "a.b-c")) = QOk (NExpr EQ [b "a"; b "b-c"] [AStr (b "one") p1; AStr (b "two") p2] p).
Proof.
  do 5 eexists. split; [vm_compute; reflexivity|]. split; [left; reflexivity|]. split; [vm_compute; reflexivity|]. vm_compute; reflexivity.
Qed.

(** The names are joined without quotes: the proposal may be no query, *)
Theorem C113_no_query_refuted : exists O q m x g, new_matcher O q = NewOk m /\ In x (mt_messages m) /\ m_text x = HAlternation g /\
  forall t, parse_plain O (proposal g) <> QOk t.
Proof.
  exists alt_oracle, (b "x.""first name"":/one|two/"). do 3 eexists. split; [vm_compute; reflexivity|]. split; [left; reflexivity|]. split; [vm_compute; reflexivity|].
  intros t. vm_compute. discriminate.
Qed.
Print Assumptions C113_no_query_refuted.
(** or one on another field. *)
Theorem C113_other_field_refuted : exists O q m x g f f' vs vs' p p', new_matcher O q = NewOk m /\ In x (mt_messages m) /\ m_text x = HAlternation g /\
  parse_plain O q = QOk (NExpr EQ f vs p) /\ parse_plain O (proposal g) = QOk (NExpr EQ f' vs' p') /\ f <> f'.
Proof.
  exists alt_oracle, (b """a.b"":/one|two/"). do 9 eexists. split; [vm_compute; reflexivity|]. split; [left; reflexivity|]. split; [vm_compute; reflexivity|].
  split; [vm_compute; reflexivity|]. split; [vm_compute; reflexivity|]. discriminate.
Qed.
Print Assumptions C113_other_field_refuted.

(** Nor does it accept the same documents, even for the strings it names: strings are looked for as whole words. *)
Lemma sequence_literal t : forall r, Forall (fun c => ~ rx_meta c) t -> sequence eq t r -> forall x y z, rx_matches r x y z <-> y = t.
Proof.
  induction t as [|c t IH]; intros r F H x y z.
  - apply sequence_nil in H. subst. split; [intros M; now inversion M|intros ->; constructor].
  - inversion F as [|? ? Nc F']; subst. inversion H as [|t1 r1 v s P H' E]; subst. destruct P as [t1 r A|t1 r l A L|t1 r l A L|t1 r l A L];
      destruct (atom_start eq t1 r A) as (c' & w & -> & _); cbn in E; injection E as -> E; destruct (atom_plain eq c w r Nc A) as [-> ->]; cbn in E.
    + subst v. specialize (IH s F' H'). split.
      * intros M. inversion M as [| |r0 s0 a0 y1 y' z0 H1 H2| | | | | | | |]; subst. inversion H1; subst. apply IH in H2. now subst.
      * intros ->. change (c :: t) with ([c] ++ t). apply rm_seq; [now constructor|now apply IH].
    + exfalso. rewrite <- E in F'. inversion F' as [|? ? Nd _]; subst. apply Nd. cbn. tauto.
    + exfalso. rewrite <- E in F'. inversion F' as [|? ? Nd _]; subst. apply Nd. cbn. tauto.
    + exfalso. rewrite <- E in F'. inversion F' as [|? ? Nd _]; subst. apply Nd. cbn. tauto.
Qed.
Lemma conforms_one_two fold : conforms fold alt_oracle (b "one|two").
Proof.
  assert (W : forall w r, In w [b "one"; b "two"] -> sequence eq w r -> forall x, finds r x <-> exists u v, x = u ++ w ++ v).
  { intros w r I H x. assert (F : Forall (fun c => ~ rx_meta c) w) by (destruct I as [<-|[<-|[]]]; repeat constructor; cbn; intuition discriminate).
    pose proof (sequence_literal w r F H) as M. split.
    - intros (u & y & v & -> & Y). apply M in Y. subst. eauto.
    - intros (u & v & ->). exists u, w, v. split; [reflexivity|]. now apply M. }
  intros r s H. inversion H as [t' r' A E|t' r' A E|t' Ne E]; subst; try discriminate.
  inversion A as [t' r' Q E|t' r' u s' Q A' E]; subst.
  - exfalso. apply (sequence_char eq 111 (b "ne|two")) in Q as (r1 & Q); [|cbn; intuition discriminate|intros d v E; injection E as <- _; cbn; intuition discriminate].
    apply (sequence_char eq 110 (b "e|two")) in Q as (r2 & Q); [|cbn; intuition discriminate|intros d v E; injection E as <- _; cbn; intuition discriminate].
    apply (sequence_char eq 101 (b "|two")) in Q as (r3 & Q); [|cbn; intuition discriminate|intros d v E; injection E as <- _; cbn; intuition discriminate].
    refine (sequence_not_rep eq 124 (b "two") r3 _ Q). cbn. tauto.
  - assert (X : t' = b "one" /\ u = b "two").
    { destruct t' as [|a1 [|a2 [|a3 [|a4 t']]]]; cbn in E; try discriminate; injection E; intros X; intros; subst; [split; reflexivity|].
      exfalso. assert (I : In 124 (t' ++ 124 :: u)) by (apply in_or_app; right; now left). rewrite X in I. cbn in I. intuition discriminate. }
    destruct X as [-> ->]. apply one_alternative in A'; [|cbn; intuition discriminate].
    rewrite finds_alt, (W (b "one") r') by (cbn; auto). rewrite (W (b "two") s') by (cbn; auto). rewrite <- !occurs_spec, <- orb_true_iff. reflexivity.
Qed.
Theorem C113_same_refuted fold : exists O q m x g data, conforms fold O (b "one|two") /\ q = b "x:/one|two/" /\
  new_matcher O q = NewOk m /\ In x (mt_messages m) /\ m_text x = HAlternation g /\
  answers O q data (Some true) /\ answers O (proposal g) data (Some false).
Proof.
  exists alt_oracle, (b "x:/one|two/"). do 3 eexists. exists (b "{""x"":""someone""}"). split; [apply conforms_one_two|]. split; [reflexivity|].
  split; [vm_compute; reflexivity|]. split; [left; reflexivity|]. split; [vm_compute; reflexivity|].
  split; (do 3 eexists; (split; [vm_compute; reflexivity|]); (split; [apply af_none|]); vm_compute; reflexivity).
Qed.
Print Assumptions C113_same_refuted.
