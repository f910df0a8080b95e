(** C137, C138: which strings of a document are compared as numbers. *)
From Verif Require Import Bytes Utf8 GoStrconv GoFloat GoFloatRead GoTime GoNet Oracles Ast AstSpec Json JsonSpec JsonProofs Values StrMatch Matcher
  QueryMessages MatchApi MatchSpec MatchProofs MatcherTop Visitors ParseQuery TestOracle NumSpec FloatProofs NumProofs NumLitProofs NumberTextSpec NumberTextProofs NumberValueProofs Prop_Match Prop_Numbers.
From Verif Require GrammarSpec Prop_Grammar.
From Coq Require Import Reals Lra ZifyBool ZifyN ZifyNat.
From Flocq Require Import Core.

(** [reads_go O]: texts with x or underscore are read as strconv.ParseFloat reads them. *)
Definition reads_go (O : oracles) : Prop := forall s, o_float_other O s = read_value s.
Lemma reads_go_parse O s : reads_go O -> parse_float (o_float_other O) s = go_parse_float s.
Proof. intros H. rewrite <- parse_float_read. unfold parse_float. now rewrite H. Qed.
Lemma string_number O raw f : reads_go O -> number_of O (JStr raw) f <-> go_parse_float raw = Some f.
Proof.
  intros G. rewrite <- (reads_go_parse O raw G). split; [|intros H; exists raw; auto]. intros (r & [E|E] & P); [|discriminate]. now injection E as <-.
Qed.

(** A numeral counts as the nearest double, if there is one. *)
Theorem C137_numeral O raw x e : reads_go O -> numeral raw x e -> (Z.abs e < 100000)%Z ->
  (in_double_range x -> exists f, finite_double f /\ double_value f = nearest x /\ forall g, number_of O (JStr raw) g <-> g = f) /\
  (~ in_double_range x -> forall g, ~ number_of O (JStr raw) g).
Proof.
  intros G Nu L. destruct (numeral_value raw x e Nu L) as (H1 & H2). split; intros R.
  - destruct (H1 R) as (f & P & F & V). exists f. split; [exact F|]. split; [exact V|]. intros g. rewrite (string_number O raw g G), P. split; congruence.
  - intros g. rewrite (string_number O raw g G), (H2 R). discriminate.
Qed.
Print Assumptions C137_numeral.

(** A word counts as the infinity of its sign or as NaN. *)
Theorem C137_word O raw : number_word raw -> exists f, word_value raw f /\ forall g, number_of O (JStr raw) g <-> g = f.
Proof.
  intros W. destruct (word_has_value raw W) as (f & Q). exists f. split; [exact Q|]. pose proof (value_special raw f Q) as P.
  assert (E : parse_float (o_float_other O) raw = Some f).
  { unfold parse_float. rewrite !no_byte by (apply (special_chars raw f _ P); tauto). cbn [orb]. now rewrite P. }
  intros g. split; [|intros ->; exists raw; auto]. intros (r & [H|H] & P'); [|discriminate]. injection H as <-. congruence.
Qed.
Print Assumptions C137_word.

(** Nothing else counts as a number. *)
Theorem C137_only O raw g : reads_go O -> number_of O (JStr raw) g -> number_word raw \/ exists x e, numeral raw x e.
Proof.
  intros G H. apply (string_number O raw g G) in H. destruct (go_parse_only raw g H) as [(W & _)|Nu]; auto.
Qed.
Print Assumptions C137_only.

(** Numbers of JSON are numerals, so a number and a string with the same text are compared alike. *)
Theorem C137_decimal raw x : denotes_number raw x -> exists e, numeral raw x e /\ (Z.abs e < 100000)%Z.
Proof. exact (decimal_numeral raw x). Qed.
Print Assumptions C137_decimal.

(** A comparison of such a string with a number compares the nearest doubles of both. *)
Theorem C137_query O q o f v p own y data j raw x e : reads_go O ->
  In o [EQ; LT; LTE; GT; GTE] -> parse_plain O q = QOk (NExpr o f [v] p) -> numeric v ->
  GrammarSpec.literal O own (val_pos v) v -> denotes_number own y ->
  document data j -> path_safe j f -> no_index j f -> (forall s, tested f j s <-> s = JStr raw) -> numeral raw x e -> (Z.abs e < 100000)%Z ->
  answers O q data (Some true) <-> in_double_range x /\ real_rel o (nearest x) (nearest y).
Proof.
  intros Go Io P Nm L Dy D Sf Ni Un Nu Le.
  destruct (literal_exact O own _ v L Nm) as (y' & g & Dy' & _ & Eg & Fg & Vg). rewrite <- (denotes_number_fun _ _ _ Dy Dy') in Vg. clear y' Dy'.
  rewrite (C29_scalars O q o f [v] p data j P) by (auto; cbn in Io; intros ->; intuition discriminate).
  assert (T : forall (Q : json -> Prop), (exists s, scalar s /\ (resolves f j s \/ exists els, resolves f j (JArr els) /\ In s els) /\ Q s) <-> Q (JStr raw)).
  { intros Q. split.
    - intros (s & S1 & S2 & S3). replace (JStr raw) with s; [exact S3|]. apply Un. now split.
    - intros H. destruct (proj2 (Un (JStr raw)) eq_refl) as (S1 & S2). exists (JStr raw). auto. }
  rewrite T. clear T. destruct (C137_numeral O raw x e Go Nu Le) as (H1 & H2).
  assert (Core : (exists n, number_of O (JStr raw) n /\
      match o with LT => f_lt n g | LTE => f_le n g | GT => f_gt n g | GTE => f_ge n g | EQ => f_eq n g | _ => false end = true) <->
    in_double_range x /\ real_rel o (nearest x) (nearest y)).
  { split.
    - intros (n & Hn & R). destruct (Rlt_le_dec (Rabs (nearest x)) max_double) as [In|Out]; [|exfalso; apply (H2 ltac:(unfold in_double_range; lra) n Hn)].
      split; [exact In|]. destruct (H1 In) as (n' & Fn & Vn & Q). apply Q in Hn. subst n'. exact (proj1 (rel_exact o n g x y Fn Fg Vn Vg) R).
    - intros (In & R). destruct (H1 In) as (n & Fn & Vn & Q). exists n. split; [now apply Q|]. exact (proj2 (rel_exact o n g x y Fn Fg Vn Vg) R). }
  rewrite <- Core. clear Core.
  assert (Eqs : equals O v (JStr raw) <-> exists n, number_of O (JStr raw) n /\ f_eq n g = true).
  { destruct v; try contradiction; cbn [equals literal_num] in *; injection Eg as <-; reflexivity. }
  assert (Ord : forall o', ordered O o' v (JStr raw) <-> exists n, number_of O (JStr raw) n /\ float_rel o' n g = true).
  { intros o'. destruct v; try contradiction; cbn [ordered literal_num] in *; injection Eg as <-; split.
    - intros (n & g' & [= <-] & H & R). eauto.
    - intros (n & H & R). eauto.
    - intros (n & g' & [= <-] & H & R). eauto.
    - intros (n & H & R). eauto. }
  cbn in Io. destruct Io as [<-|[<-|[<-|[<-|[<-|[]]]]]].
  - rewrite <- Eqs. split; [intros (w & [<-|[]] & E); exact E|]. intros E. exists v. split; [now left|exact E].
  - rewrite <- (Ord LT). split; [intros (w & [= <-] & E); exact E|eauto].
  - rewrite <- (Ord LTE). split; [intros (w & [= <-] & E); exact E|eauto].
  - rewrite <- (Ord GT). split; [intros (w & [= <-] & E); exact E|eauto].
  - rewrite <- (Ord GTE). split; [intros (w & [= <-] & E); exact E|eauto].
Qed.
Print Assumptions C137_query.

(** ** Examples *)
Definition go_oracle : oracles := {|
  o_re_parse := o_re_parse test_oracle; o_re_match := o_re_match test_oracle; o_fmt_float := o_fmt_float test_oracle; o_float_other := read_value;
  o_is_print := o_is_print test_oracle; o_dateparse := o_dateparse test_oracle; o_to_lower := o_to_lower test_oracle; o_text_search := o_text_search test_oracle;
  o_fold := o_fold test_oracle; o_strict_bits := true |}.
Lemma string_tested raw s : tested [b "a"] (JObj [(b "a", JStr raw)]) s <-> s = JStr raw.
Proof.
  assert (M : forall c, member (b "a") (JObj [(b "a", JStr raw)]) c <-> c = JStr raw).
  { intros c. rewrite <- lookup_member. cbn. split; congruence. }
  split.
  - intros (Sc & [R|(els & R & I)]); inversion R as [? ? ? Hm|? ? ? ? ? Hm R'|? ? ? ? ? ? Hm Hi R']; subst; apply M in Hm; try congruence; inversion R'.
  - intros ->. split; [split; discriminate|]. left. apply rs_last. now apply M.
Qed.
Lemma thousand : numeral (b "1_000") 1000 0.
Proof.
  assert (D : forall c, (48 <=? c) && (c <=? 57) = true -> decimal_digit c) by (intros c H; unfold decimal_digit; lia).
  assert (G : grouped decimal_digit (b "1000") (b "1_000")).
  { apply (gr_under decimal_digit 49 (b "000") (b "000")); [now apply D|]. apply (gr_next decimal_digit 48 (b "00") (b "00")); [now apply D|].
    apply (gr_next decimal_digit 48 (b "0") (b "0")); [now apply D|]. now apply gr_one, D. }
  pose proof (nu_decimal [] 1 (b "1000") [] (b "1_000") [] 0%Z sg_none (ma_int _ _ _ G) (or_introl (conj eq_refl eq_refl))) as H.
  match type of H with numeral ?t ?r ?e => replace 1000%R with r end; [exact H|]. cbn. lra.
Qed.
Lemma sixteen : numeral (b "0x1p4") 16 4.
Proof.
  assert (D : forall c, (48 <=? c) && (c <=? 57) = true -> decimal_digit c) by (intros c H; unfold decimal_digit; lia).
  assert (G : grouped hexadecimal_digit (b "1") (b "1")) by (apply gr_one; left; apply (D 49); reflexivity).
  assert (X : written_exponent 112 80 (b "p4") 4) by (apply (wx_pos 112 80 112 [] (b "4") (b "4")); [now left|now left|now apply gr_one, D]).
  pose proof (nu_hexadecimal [] 1 120 [] (b "1") [] (b "1") (b "p4") 4%Z sg_none (or_introl eq_refl) (or_introl eq_refl) (ma_int _ _ _ G) X) as H.
  match type of H with numeral ?t ?r ?e => replace 16%R with r end; [exact H|]. cbn. change (Pos.to_nat 4) with 4%nat. cbn. lra.
Qed.
Example C137_example : exists q f v p own y data j raw x e,
  reads_go go_oracle /\ parse_plain go_oracle q = QOk (NExpr LTE f [v] p) /\ numeric v /\ GrammarSpec.literal go_oracle own (val_pos v) v /\ denotes_number own y /\
  document data j /\ path_safe j f /\ no_index j f /\ (forall s, tested f j s <-> s = JStr raw) /\ numeral raw x e /\ (Z.abs e < 100000)%Z /\ raw = b "1_000" /\ answers go_oracle q data (Some true).
Proof.
  exists (b "a:<=1000.5"). do 3 eexists. exists (b "1000.5"), (10005 / 10)%R, (b "{""a"":""1_000""}"), (JObj [(b "a", JStr (b "1_000"))]), (b "1_000"), 1000%R, 0%Z.
  split; [intros s; reflexivity|]. split; [vm_compute; reflexivity|]. split; [exact I|].
  assert (Dg : forall c, (48 <=? c) && (c <=? 57) = true -> 48 <= c <= 57) by (intros c Hc; lia).
  split.
  { apply GrammarSpec.lit_float; [|vm_compute; reflexivity]. exists [], (b "1000"), (b "5").
    split; [reflexivity|]. split; [now left|]. split; (split; [|discriminate]); repeat (constructor; [apply Dg; reflexivity|]); constructor. }
  split.
  { pose proof (dec_number [] 1 (b "1000") (b ".") (b "5") [] 0%Z sg_none ltac:(repeat (constructor; [apply Dg; reflexivity|]); constructor) ltac:(repeat (constructor; [apply Dg; reflexivity|]); constructor)
      ltac:(discriminate) (or_intror eq_refl) xt_none eq_refl) as H.
    match type of H with denotes_number ?t ?r => replace (10005/10)%R with r end; [exact H|cbn; change (Pos.to_nat 1) with 1%nat; cbn; lra]. }
  split; [apply parse_json_spec; vm_compute; reflexivity|]. split; [exact I|]. split; [exact I|]. split; [apply string_tested|].
  split; [exact thousand|]. split; [reflexivity|]. split; [reflexivity|].
  do 3 eexists. split; [vm_compute; reflexivity|]. split; [apply af_none|]. vm_compute. reflexivity.
Qed.
Lemma not_numeral t : (length t <= 4)%nat -> read_float t = None -> forall x e, ~ numeral t x e.
Proof.
  intros Lt R x e H.
  assert (L : (Z.abs e < 100000)%Z).
  { assert (K : forall hex ex e', written_exp hex ex e' -> (length ex <= 4)%nat -> (Z.abs e' < 100000)%Z).
    { intros hex ex e' W Lx. destruct (written_inv hex ex e' W) as (c & sg & ds & u & -> & _ & G & Hs). cbn [length] in Lx. rewrite app_length in Lx.
      assert (Ld : (length ds <= length u)%nat) by (clear -G; induction G; cbn in *; lia).
      assert (B : (0 <= digits_value ds < 10 ^ Z.of_nat (length ds))%Z).
      { destruct (grouped_digits _ _ _ G) as (F & _). clear -F. induction F as [|c ds Hc F IH]; [cbn; lia|]. cbn [digits_value length]. rewrite Nat2Z.inj_succ, Z.pow_succ_r by lia. unfold decimal_digit in Hc. nia. }
      assert (10 ^ Z.of_nat (length ds) <= 10 ^ 3)%Z by (apply Z.pow_le_mono_r; lia). change (10 ^ 3)%Z with 1000%Z in *. destruct Hs as [(_ & ->)|(_ & ->)]; lia. }
    clear R. destruct H as [sg s ip fp u ex e Sg M X|sg s x u ip fp w ex e Sg Hx Hu M X].
    - destruct X as [(-> & ->)|X]; [reflexivity|]. apply (K false ex e X). rewrite !app_length in Lt. lia.
    - apply (K true ex e X). rewrite !app_length in Lt. cbn [length] in Lt. rewrite !app_length in Lt. lia. }
  destruct (read_numeral t x e H L) as (? & ? & ? & ? & E & _). congruence.
Qed.
Example C137_words : number_word (b "-Infinity") /\ word_value (b "-Infinity") (S754_infinity true) /\ number_word (b "NaN") /\ (forall x e, ~ numeral (b "0x10") x e) /\ (forall x e, ~ numeral (b "1__0") x e) /\ ~ number_word (b "info").
Proof.
  split; [apply (nw_infinite (b "-") (b "Infinity")); cbn; tauto|]. split; [apply (wv_minus (b "Infinity")); now right|]. split; [now apply nw_nan|].
  split; [apply not_numeral; [cbn; lia|vm_compute; reflexivity]|]. split; [apply not_numeral; [cbn; lia|vm_compute; reflexivity]|].
  intros W. destruct (word_special _ W) as (f & P & _). vm_compute in P. discriminate.
Qed.

(** ** C138 *)
(** Strings that are no decimal numbers satisfy comparisons with numbers. *)
Theorem C138_words_refuted : exists q f v p data j raw, forall O,
  parse_plain O q = QOk (NExpr GT f [v] p) /\ numeric v /\ document data j /\ (forall s, tested f j s <-> s = JStr raw) /\ (forall x, ~ denotes_number raw x) /\ raw = b "Inf" /\
  answers O q data (Some true).
Proof.
  exists (b "a:>5"). do 3 eexists. exists (b "{""a"":""Inf""}"), (JObj [(b "a", JStr (b "Inf"))]), (b "Inf"). intros O.
  split; [vm_compute; reflexivity|]. split; [exact I|]. split; [apply parse_json_spec; vm_compute; reflexivity|]. split; [apply string_tested|]. split.
  { intros x D. apply decimal_chars in D. apply Forall_inv in D. unfold dig in D. cbn in D. lia. }
  split; [reflexivity|]. do 3 eexists. split; [vm_compute; reflexivity|]. split; [apply af_none|]. vm_compute. reflexivity.
Qed.
Print Assumptions C138_words_refuted.
Lemma numeral_in_range t x e : numeral t x e -> (Z.abs e < 100000)%Z -> go_parse_float t <> None -> in_double_range x.
Proof.
  intros Nu L H. destruct (Rlt_le_dec (Rabs (nearest x)) max_double) as [In|Out]; [exact In|]. exfalso. apply H. apply (proj2 (numeral_value t x e Nu L)). unfold in_double_range. lra.
Qed.
Theorem C138_notation_refuted : exists q1 q2 data1 data2 v1 v2 p1 p2, forall O, reads_go O ->
  parse_plain O q1 = QOk (NExpr EQ [b "a"] [v1] p1) /\ numeric v1 /\ document data1 (JObj [(b "a", JStr (b "1_000"))]) /\ (forall x, ~ denotes_number (b "1_000") x) /\ answers O q1 data1 (Some true) /\
  parse_plain O q2 = QOk (NExpr EQ [b "a"] [v2] p2) /\ numeric v2 /\ document data2 (JObj [(b "a", JStr (b "0x1p4"))]) /\ (forall x, ~ denotes_number (b "0x1p4") x) /\ answers O q2 data2 (Some true).
Proof.
  exists (b "a:1000"), (b "a:16"), (b "{""a"":""1_000""}"), (b "{""a"":""0x1p4""}"). do 4 eexists. intros O G.
  assert (Nd : forall t c, In c t -> ~ (dig c \/ In c (b "+-.eE")) -> forall x, ~ denotes_number t x).
  { intros t c Hc Hn x D. apply decimal_chars in D. rewrite Forall_forall in D. now apply Hn, D. }
  assert (Dg : forall c, (48 <=? c) && (c <=? 57) = true -> 48 <= c <= 57) by (intros c Hc; lia).
  assert (Ds : forall ds, ds <> [] -> forallb (fun c => (48 <=? c) && (c <=? 57)) ds = true -> Forall (fun c => 48 <= c <= 57) ds).
  { intros ds _ H. apply Forall_forall. intros c I. apply Dg. rewrite forallb_forall in H. now apply H. }
  assert (Num : forall ds, ds <> [] -> forallb (fun c => (48 <=? c) && (c <=? 57)) ds = true -> denotes_number ds (IZR (digits_value ds))).
  { intros ds Ne H. pose proof (dec_number [] 1 ds [] [] [] 0%Z sg_none (Ds ds Ne H) (Forall_nil _) ltac:(rewrite app_nil_r; exact Ne) (or_introl (conj eq_refl eq_refl)) xt_none eq_refl) as D.
    cbn [app] in D. rewrite !app_nil_r in D. cbn in D. now rewrite Rmult_1_l, Rmult_1_r in D. }
  assert (P1 : parse_plain O (b "a:1000") = QOk (NExpr EQ [b "a"] [AInt 1000 (b "1000") {| p_line := 1; p_col := 3; p_off := 2; p_len := 4 |}] {| p_line := 1; p_col := 1; p_off := 0; p_len := 6 |})) by (vm_compute; reflexivity).
  assert (P2 : parse_plain O (b "a:16") = QOk (NExpr EQ [b "a"] [AInt 16 (b "16") {| p_line := 1; p_col := 3; p_off := 2; p_len := 2 |}] {| p_line := 1; p_col := 1; p_off := 0; p_len := 4 |})) by (vm_compute; reflexivity).
  assert (D1 : document (b "{""a"":""1_000""}") (JObj [(b "a", JStr (b "1_000"))])) by (apply parse_json_spec; vm_compute; reflexivity).
  assert (D2 : document (b "{""a"":""0x1p4""}") (JObj [(b "a", JStr (b "0x1p4"))])) by (apply parse_json_spec; vm_compute; reflexivity).
  split; [exact P1|]. split; [exact I|]. split; [exact D1|]. split; [apply (Nd _ 95); [cbn; tauto|unfold dig; cbn; lia]|]. split.
  { apply (C137_query O (b "a:1000") EQ [b "a"] _ _ (b "1000") (IZR (digits_value (b "1000"))) (b "{""a"":""1_000""}") (JObj [(b "a", JStr (b "1_000"))]) (b "1_000") 1000 0 G ltac:(cbn; tauto) P1 I); [|apply Num; [discriminate|reflexivity]|exact D1|exact I|exact I|apply string_tested|exact thousand|reflexivity|].
    - apply GrammarSpec.lit_int; [|vm_compute; reflexivity]. exists [], (b "1000"). split; [reflexivity|]. split; [now left|]. split; [apply Ds; [discriminate|reflexivity]|discriminate].
    - split; [apply (numeral_in_range (b "1_000") 1000 0 thousand eq_refl); vm_compute; discriminate|]. reflexivity. }
  split; [exact P2|]. split; [exact I|]. split; [exact D2|]. split; [apply (Nd _ 120); [cbn; tauto|unfold dig; cbn; lia]|].
  apply (C137_query O (b "a:16") EQ [b "a"] _ _ (b "16") (IZR (digits_value (b "16"))) (b "{""a"":""0x1p4""}") (JObj [(b "a", JStr (b "0x1p4"))]) (b "0x1p4") 16 4 G ltac:(cbn; tauto) P2 I); [|apply Num; [discriminate|reflexivity]|exact D2|exact I|exact I|apply string_tested|exact sixteen|reflexivity|].
  - apply GrammarSpec.lit_int; [|vm_compute; reflexivity]. exists [], (b "16"). split; [reflexivity|]. split; [now left|]. split; [apply Ds; [discriminate|reflexivity]|discriminate].
  - split; [apply (numeral_in_range (b "0x1p4") 16 4 sixteen eq_refl); vm_compute; discriminate|]. reflexivity.
Qed.
Print Assumptions C138_notation_refuted.
(** What holds: a string that is neither a numeral nor a word satisfies none. *)
Theorem C138_other O q o f v data j raw a : reads_go O -> In o [EQ; LT; LTE; GT; GTE] -> compares O q o f v -> numeric v ->
  document data j -> path_safe j f -> no_index j f -> (forall s, tested f j s <-> s = JStr raw) ->
  ~ number_word raw -> (forall x e, ~ numeral raw x e) -> answers O q data (Some a) -> a = false.
Proof.
  intros G Io C Nm D Sf Ni Un Nw Nn. apply (C33_not_a_number O q o f v data j (JStr raw) a Io C Nm D Sf Ni Un).
  intros n H. destruct (C137_only O raw n G H) as [W|(x & e & Nu)]; [contradiction|]. exfalso. exact (Nn x e Nu).
Qed.
Print Assumptions C138_other.
Example C138_example : exists q f v data j raw, reads_go go_oracle /\ compares go_oracle q GT f v /\ numeric v /\ document data j /\ path_safe j f /\ no_index j f /\
  (forall s, tested f j s <-> s = JStr raw) /\ ~ number_word raw /\ (forall x e, ~ numeral raw x e) /\ answers go_oracle q data (Some false) /\ raw = b "0x10".
Proof.
  exists (b "a:>5"). do 2 eexists. exists (b "{""a"":""0x10""}"), (JObj [(b "a", JStr (b "0x10"))]), (b "0x10").
  split; [intros s; reflexivity|]. split; [do 2 eexists; split; [vm_compute; reflexivity|reflexivity]|]. split; [exact I|]. split; [apply parse_json_spec; vm_compute; reflexivity|].
  split; [exact I|]. split; [exact I|]. split; [apply string_tested|]. split; [intros W; destruct (word_special _ W) as (f & P & _); vm_compute in P; discriminate|].
  split; [apply not_numeral; [cbn; lia|vm_compute; reflexivity]|]. split; [|reflexivity].
  do 3 eexists. split; [vm_compute; reflexivity|]. split; [apply af_none|]. vm_compute. reflexivity.
Qed.
