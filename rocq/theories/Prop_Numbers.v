(** C32-C35, C74: numeric comparisons. *)
From Verif Require Import Bytes Utf8 GoStrconv GoFloat GoTime GoNet Oracles Ast AstSpec Json JsonSpec JsonProofs Values StrMatch Matcher
  QueryMessages MatchApi MatchSpec MatchProofs MatcherTop Visitors ParseQuery TestOracle NumSpec FloatProofs NumProofs NumLitProofs Prop_Match.
From Verif Require GrammarSpec Prop_Grammar.
From Coq Require Import Reals Lra ZifyBool ZifyN ZifyNat.
From Flocq Require Import Core.

(** ** C32 *)
(** Two different integers compare as equal. *)
Theorem C32_exact_comparison_refuted : exists q data z raw p sp, forall O,
  parse_plain O q = QOk (NExpr EQ [b "a"] [AInt z (b "9007199254740993") sp] p) /\
  document data (JObj [(b "a", JNum raw)]) /\ raw = b "9007199254740992" /\ z = 9007199254740993%Z /\
  answers O q data (Some true).
Proof.
  exists (b "a:9007199254740993"), (b "{""a"":9007199254740992}"), 9007199254740993%Z, (b "9007199254740992"). do 2 eexists. intros O.
  split; [vm_compute; reflexivity|]. split; [apply parse_json_spec; vm_compute; reflexivity|]. split; [reflexivity|]. split; [reflexivity|].
  do 3 eexists. split; [vm_compute; reflexivity|]. split; [apply af_none|]. vm_compute. reflexivity.
Qed.
Print Assumptions C32_exact_comparison_refuted.

(** ** C74: what is compared are the nearest doubles *)
Theorem C74_rounded_comparison O q o f v p own y data j raw x :
  In o [EQ; LT; LTE; GT; GTE] -> parse_plain O q = QOk (NExpr o f [v] p) -> numeric v ->
  GrammarSpec.literal O own (val_pos v) v -> denotes_number own y ->
  document data j -> path_safe j f -> no_index j f -> (forall s, tested f j s <-> s = JNum raw) -> denotes_number raw x ->
  answers O q data (Some true) <-> in_double_range x /\ real_rel o (nearest x) (nearest y).
Proof.
  intros Io P Nm L Dy D Sf Ni Un Dx.
  destruct (literal_exact O own _ v L Nm) as (y' & g & Dy' & _ & Eg & Fg & Vg). rewrite <- (denotes_number_fun _ _ _ Dy Dy') in Vg. clear y' Dy'.
  rewrite (C29_scalars O q o f [v] p data j P) by (auto; cbn in Io; intros ->; intuition discriminate).
  assert (T : forall (Q : json -> Prop), (exists s, scalar s /\ (resolves f j s \/ exists els, resolves f j (JArr els) /\ In s els) /\ Q s) <-> Q (JNum raw)).
  { intros Q. split.
    - intros (s & S1 & S2 & S3). replace (JNum raw) with s; [exact S3|]. apply Un. now split.
    - intros H. destruct (proj2 (Un (JNum raw)) eq_refl) as (S1 & S2). exists (JNum raw). auto. }
  rewrite T. clear T.
  assert (Core : (exists n, number_of O (JNum raw) n /\
      match o with LT => f_lt n g | LTE => f_le n g | GT => f_gt n g | GTE => f_ge n g | EQ => f_eq n g | _ => false end = true) <->
    in_double_range x /\ real_rel o (nearest x) (nearest y)).
  { split.
    - intros (n & Hn & R). apply (number_of_decimal O raw x Dx) in Hn as (In & Fn & _ & Vn). split; [exact In|].
      exact (proj1 (rel_exact o n g x y Fn Fg Vn Vg) R).
    - intros (In & R). destruct (number_of_exists O raw x Dx In) as (n & Hn). exists n. split; [exact Hn|].
      apply (number_of_decimal O raw x Dx) in Hn as (_ & Fn & _ & Vn). exact (proj2 (rel_exact o n g x y Fn Fg Vn Vg) R). }
  rewrite <- Core. clear Core.
  assert (Eqs : equals O v (JNum raw) <-> exists n, number_of O (JNum raw) n /\ f_eq n g = true).
  { destruct v; try contradiction; cbn [equals literal_num] in *; injection Eg as <-; reflexivity. }
  assert (Ord : forall o', ordered O o' v (JNum raw) <-> exists n, number_of O (JNum raw) n /\ float_rel o' n g = true).
  { intros o'. destruct v; try contradiction; cbn [ordered literal_num] in *; injection Eg as <-; split.
    - intros (n & g' & [= <-] & H & R). eauto.
    - intros (n & H & R). eauto.
    - intros (n & g' & [= <-] & H & R). eauto.
    - intros (n & H & R). eauto. }
  cbn in Io. destruct Io as [<-|[<-|[<-|[<-|[<-|[]]]]]].
  - rewrite <- Eqs. split; [intros (w & [<-|[]] & E); exact E|]. intros E. exists v. split; [now left|exact E].
  - rewrite <- (Ord LT). split; [intros (w & [= <-] & E); exact E|eauto].
  - rewrite <- (Ord LTE). split; [intros (w & [= <-] & E); exact E|eauto].
  - rewrite <- (Ord GT). split; [intros (w & [= <-] & E); exact E|eauto].
  - rewrite <- (Ord GTE). split; [intros (w & [= <-] & E); exact E|eauto].
Qed.
Print Assumptions C74_rounded_comparison.

(** Numbers that are doubles are compared exactly. *)
Theorem C74_exact_for_doubles O q o f v p own y data j raw x :
  In o [EQ; LT; LTE; GT; GTE] -> parse_plain O q = QOk (NExpr o f [v] p) -> numeric v ->
  GrammarSpec.literal O own (val_pos v) v -> denotes_number own y ->
  document data j -> path_safe j f -> no_index j f -> (forall s, tested f j s <-> s = JNum raw) -> denotes_number raw x ->
  representable x -> (Rabs x < max_double)%R -> representable y ->
  answers O q data (Some true) <-> real_rel o x y.
Proof.
  intros Io P Nm L Dy D Sf Ni Un Dx Rx Mx Ry.
  rewrite (C74_rounded_comparison O q o f v p own y data j raw x Io P Nm L Dy D Sf Ni Un Dx).
  rewrite (nearest_id x Rx), (nearest_id y Ry). split; [tauto|]. intros H. split; [|exact H]. now apply representable_range.
Qed.
Print Assumptions C74_exact_for_doubles.

(** In particular integers up to 2^53. *)
Theorem C74_exact_integers z : (Z.abs z <= 2 ^ 53)%Z -> representable (IZR z) /\ (Rabs (IZR z) < max_double)%R.
Proof.
  intros H. split; [now apply integer_representable|]. rewrite <- abs_IZR. apply Rle_lt_trans with (IZR (2 ^ 53)); [now apply IZR_le|].
  unfold max_double. change (2 ^ 53)%Z with (Z.pow radix2 53).
  rewrite (IZR_Zpower radix2 53) by lia. apply bpow_lt. lia.
Qed.
Print Assumptions C74_exact_integers.

(** Rounding never turns the order around: a strict comparison that matches is exactly true. *)
Theorem C74_strict_is_exact O q o f v p own y data j raw x :
  o = LT \/ o = GT -> parse_plain O q = QOk (NExpr o f [v] p) -> numeric v ->
  GrammarSpec.literal O own (val_pos v) v -> denotes_number own y ->
  document data j -> path_safe j f -> no_index j f -> (forall s, tested f j s <-> s = JNum raw) -> denotes_number raw x ->
  answers O q data (Some true) -> real_rel o x y.
Proof.
  intros Ho P Nm L Dy D Sf Ni Un Dx A.
  apply (C74_rounded_comparison O q o f v p own y data j raw x) in A as (_ & A); auto; [|destruct Ho as [-> | ->]; cbn; auto].
  destruct Ho as [-> | ->]; cbn [real_rel] in *; unfold Rgt in *; now apply nearest_strict.
Qed.
Print Assumptions C74_strict_is_exact.

(** The hypotheses are met: a:<=2.5 on a document with the number 1e1. *)
Example C74_example : exists q f v p own y data j raw x,
  parse_plain test_oracle q = QOk (NExpr LTE f [v] p) /\ numeric v /\ GrammarSpec.literal test_oracle own (val_pos v) v /\ denotes_number own y /\
  document data j /\ path_safe j f /\ no_index j f /\ (forall s, tested f j s <-> s = JNum raw) /\ denotes_number raw x /\ y = (5 / 2)%R /\ x = 10%R.
Proof.
  exists (b "a:<=2.5"). do 3 eexists. exists (b "2.5"), (5 / 2)%R, (b "{""a"":1e1}"), (JObj [(b "a", JNum (b "1e1"))]), (b "1e1"), 10%R.
  split; [vm_compute; reflexivity|]. split; [exact I|]. split.
  { assert (Dg : forall c, 48 <= c <= 57 -> GrammarSpec.digits1 [c]).
    { intros c Hc. split; [constructor; [|constructor]; unfold GrammarSpec.digit; lia|discriminate]. }
    apply GrammarSpec.lit_float; [|vm_compute; reflexivity]. exists [], (b "2"), (b "5").
    split; [reflexivity|]. split; [now left|]. split; apply Dg; vm_compute; split; discriminate. }
  assert (Dg : forall c, (48 <=? c) && (c <=? 57) = true -> Forall (fun d => 48 <= d <= 57) [c]) by (intros c Hc; constructor; [lia|constructor]).
  split.
  { pose proof (dec_number [] 1 (b "2") (b ".") (b "5") [] 0%Z sg_none (Dg 50 eq_refl) (Dg 53 eq_refl) ltac:(discriminate) (or_intror eq_refl) xt_none eq_refl) as H.
    match type of H with denotes_number ?t ?r => replace (5/2)%R with r end; [exact H|cbn; change (Pos.to_nat 1) with 1%nat; cbn; lra]. }
  split; [apply parse_json_spec; vm_compute; reflexivity|]. split; [exact I|]. split; [exact I|]. split.
  { intros s. assert (M : forall c, member (b "a") (JObj [(b "a", JNum (b "1e1"))]) c <-> c = JNum (b "1e1")).
    { intros c. rewrite <- lookup_member. cbn. split; congruence. }
    split.
    - intros (Sc & [R|(els & R & I)]); inversion R as [? ? ? Hm|? ? ? ? ? Hm R'|? ? ? ? ? ? Hm Hi R']; subst; apply M in Hm; try congruence; inversion R'.
    - intros ->. split; [split; discriminate|]. left. apply rs_last. now apply M. }
  split; [|split; reflexivity].
  pose proof (dec_number [] 1 (b "1") [] [] (b "e1") _ sg_none (Dg 49 eq_refl) (Forall_nil _) ltac:(discriminate) (or_introl (conj eq_refl eq_refl))
    (xt_pos 101 [] (b "1") (or_introl eq_refl) (or_introl eq_refl) (Dg 49 eq_refl) ltac:(discriminate)) eq_refl) as H.
  match type of H with denotes_number ?t ?r => replace 10%R with r end; [exact H|cbn; change (Pos.to_nat 1) with 1%nat; cbn; lra].
Qed.

(** ** C33 *)
(** [compares O q o f v]: the query compares the field with the value. *)
Definition compares (O : oracles) (q : bytes) (o : op) (f : list bytes) (v : aval) : Prop :=
  exists w p, parse_plain O q = QOk (NExpr o f [w] p) /\ same_value v w.

Lemma compares_answer O q o f v data j s : In o [EQ; LT; LTE; GT; GTE] -> compares O q o f v -> numeric v ->
  document data j -> path_safe j f -> no_index j f -> (forall s', tested f j s' <-> s' = s) ->
  exists g, finite_double g /\ literal_num v = Some g /\ forall a, answers O q data (Some a) ->
   (a = true <-> exists n, number_of O s n /\
      match o with LT => f_lt n g | LTE => f_le n g | GT => f_gt n g | GTE => f_ge n g | EQ => f_eq n g | _ => false end = true).
Proof.
  intros Io (w & p & P & Sv) Nm D Sf Ni Un.
  assert (Nw : numeric w) by (destruct v, w; try contradiction; try exact I; discriminate).
  destruct (Prop_Grammar.C06_literal_positions O q _ o f [w] p w P (sub_refl _) (or_introl eq_refl)) as (bf & own & af & _ & L & Ep).
  rewrite <- Ep in L. destruct (literal_exact O own _ w L Nw) as (y & g & _ & _ & Eg & Fg & _).
  exists g. split; [exact Fg|]. split.
  { destruct v, w; try contradiction; unfold same_value in Sv; cbn in Sv; try discriminate; injection Sv as -> ->; exact Eg. }
  intros a A. assert (At : a = true <-> answers O q data (Some true)).
  { split; [intros ->; exact A|]. intros A'. pose proof (C25_one_answer _ _ _ _ _ A A') as E. now injection E. }
  rewrite At, (C29_scalars O q o f [w] p data j P) by (auto; cbn in Io; intros ->; intuition discriminate).
  assert (T : forall (Q : json -> Prop), (exists s', scalar s' /\ (resolves f j s' \/ exists els, resolves f j (JArr els) /\ In s' els) /\ Q s') <-> Q s).
  { intros Q. split.
    - intros (s' & S1 & S2 & S3). replace s with s'; [exact S3|]. apply Un. now split.
    - intros H. destruct (proj2 (Un s) eq_refl) as (S1 & S2). exists s. auto. }
  rewrite T. clear T.
  assert (Eqs : equals O w s <-> exists n, number_of O s n /\ f_eq n g = true).
  { destruct w; try contradiction; cbn [equals literal_num] in *; injection Eg as <-; reflexivity. }
  assert (Ord : forall o', ordered O o' w s <-> exists n, number_of O s n /\ float_rel o' n g = true).
  { intros o'. destruct w; try contradiction; cbn [ordered literal_num] in *; injection Eg as <-; split.
    - intros (n & g' & [= <-] & H & R). eauto.
    - intros (n & H & R). eauto.
    - intros (n & g' & [= <-] & H & R). eauto.
    - intros (n & H & R). eauto. }
  cbn in Io. destruct Io as [<-|[<-|[<-|[<-|[<-|[]]]]]].
  - rewrite <- Eqs. split; [intros (w' & [<-|[]] & E); exact E|]. intros E. exists w. split; [now left|exact E].
  - rewrite <- (Ord LT). split; [intros (w' & [= <-] & E); exact E|eauto].
  - rewrite <- (Ord LTE). split; [intros (w' & [= <-] & E); exact E|eauto].
  - rewrite <- (Ord GT). split; [intros (w' & [= <-] & E); exact E|eauto].
  - rewrite <- (Ord GTE). split; [intros (w' & [= <-] & E); exact E|eauto].
Qed.

Lemma finite_compare n g : finite_double g -> n <> S754_nan -> exists c, SFcompare n g = Some c.
Proof. intros (V & F) Nn. destruct n as [[]|[]| |[] m e], g as [[]|[]| |[] m' e']; cbn; try congruence; eauto; try discriminate; destruct (e ?= e')%Z; eauto. Qed.
Lemma number_of_fun O s n n' : number_of O s n -> number_of O s n' -> n = n'.
Proof. intros (r & [E|E] & P) (r' & [E'|E'] & P'); subst; try discriminate; injection E' as <-; congruence. Qed.

Theorem C33_consistent O qlt qle qeq qge qgt f v data j s n lt le eq ge gt :
  compares O qlt LT f v -> compares O qle LTE f v -> compares O qeq EQ f v -> compares O qge GTE f v -> compares O qgt GT f v ->
  numeric v -> document data j -> path_safe j f -> no_index j f -> (forall s', tested f j s' <-> s' = s) ->
  number_of O s n -> n <> S754_nan ->
  answers O qlt data (Some lt) -> answers O qle data (Some le) -> answers O qeq data (Some eq) -> answers O qge data (Some ge) -> answers O qgt data (Some gt) ->
  (lt = true /\ eq = false /\ gt = false \/ lt = false /\ eq = true /\ gt = false \/ lt = false /\ eq = false /\ gt = true) /\
  le = lt || eq /\ ge = gt || eq.
Proof.
  intros C1 C2 C3 C4 C5 Nm D Sf Ni Un Hn Nn A1 A2 A3 A4 A5.
  assert (Get : forall q o a, In o [EQ; LT; LTE; GT; GTE] -> compares O q o f v -> answers O q data (Some a) -> exists g, finite_double g /\ literal_num v = Some g /\
    a = match o with LT => f_lt n g | LTE => f_le n g | GT => f_gt n g | GTE => f_ge n g | EQ => f_eq n g | _ => false end).
  { intros q o a Io C A. destruct (compares_answer O q o f v data j s Io C Nm D Sf Ni Un) as (g & Fg & Eg & H).
    exists g. split; [exact Fg|]. split; [exact Eg|]. specialize (H a A). destruct a.
    - destruct (proj1 H eq_refl) as (n' & Hn' & R). rewrite (number_of_fun O s n n' Hn Hn'). symmetry. exact R.
    - match goal with |- false = ?x => destruct x eqn:E; [|reflexivity] end. apply (proj2 H). exists n. auto. }
  destruct (Get qlt LT lt ltac:(cbn; tauto) C1 A1) as (g & Fg & Eg & ->).
  destruct (Get qle LTE le ltac:(cbn; tauto) C2 A2) as (g2 & _ & Eg2 & ->). replace g2 with g in * by congruence. clear g2 Eg2.
  destruct (Get qeq EQ eq ltac:(cbn; tauto) C3 A3) as (g2 & _ & Eg2 & ->). replace g2 with g in * by congruence. clear g2 Eg2.
  destruct (Get qge GTE ge ltac:(cbn; tauto) C4 A4) as (g2 & _ & Eg2 & ->). replace g2 with g in * by congruence. clear g2 Eg2.
  destruct (Get qgt GT gt ltac:(cbn; tauto) C5 A5) as (g2 & _ & Eg2 & ->). replace g2 with g in * by congruence. clear g2 Eg2.
  destruct (finite_compare n g Fg Nn) as (c & E). unfold f_lt, f_le, f_eq, f_ge, f_gt. rewrite E. destruct c; cbn; intuition.
Qed.
Print Assumptions C33_consistent.

Theorem C33_not_a_number O q o f v data j s a : In o [EQ; LT; LTE; GT; GTE] -> compares O q o f v -> numeric v ->
  document data j -> path_safe j f -> no_index j f -> (forall s', tested f j s' <-> s' = s) ->
  (forall n, number_of O s n -> n = S754_nan) -> answers O q data (Some a) -> a = false.
Proof.
  intros Io C Nm D Sf Ni Un Nn A. destruct (compares_answer O q o f v data j s Io C Nm D Sf Ni Un) as (g & Fg & Eg & H).
  specialize (H a A). destruct a; [|reflexivity]. destruct (proj1 H eq_refl) as (n & Hn & R). rewrite (Nn n Hn) in R.
  cbn in Io. destruct Io as [<-|[<-|[<-|[<-|[<-|[]]]]]]; discriminate.
Qed.
Print Assumptions C33_not_a_number.
Lemma only_member s0 s : scalar s0 -> tested [b "a"] (JObj [(b "a", s0)]) s <-> s = s0.
Proof.
  intros Sc0. assert (M : forall c, member (b "a") (JObj [(b "a", s0)]) c <-> c = s0).
  { intros c. rewrite <- lookup_member. cbn. split; congruence. }
  split.
  - intros (Sc & [R|(els & R & I)]); inversion R as [? ? ? Hm|? ? ? ? ? Hm R'|? ? ? ? ? ? Hm Hi R']; subst; try (now inversion R'); apply M in Hm; [exact Hm|].
    exfalso. subst. destruct Sc0 as [A B]. first [eapply A; reflexivity|eapply B; reflexivity].
  - intros ->. split; [exact Sc0|]. left. apply rs_last. now apply M.
Qed.
Example C33_hypotheses : exists f v j s n,
  compares test_oracle (b "a:<0") LT f v /\ compares test_oracle (b "a:<=0") LTE f v /\ compares test_oracle (b "a:0") EQ f v /\
  compares test_oracle (b "a:>=0") GTE f v /\ compares test_oracle (b "a:>0") GT f v /\
  numeric v /\ document (b "{""a"":""-0""}") j /\ path_safe j f /\ no_index j f /\ (forall s', tested f j s' <-> s' = s) /\
  number_of test_oracle s n /\ n <> S754_nan.
Proof.
  exists [b "a"], (AInt 0 (b "0") {| p_line := 1; p_col := 3; p_off := 2; p_len := 1 |}), (JObj [(b "a", JStr (b "-0"))]), (JStr (b "-0")), (S754_zero true).
  do 5 (split; [do 2 eexists; split; [vm_compute; reflexivity|constructor]|]). split; [exact I|].
  split; [apply parse_json_spec; vm_compute; reflexivity|]. split; [exact I|]. split; [exact I|].
  split; [intros s'; apply only_member; split; discriminate|]. split; [|discriminate].
  exists (b "-0"). split; [now left|]. vm_compute. reflexivity.
Qed.
Example C33_word_hypotheses : exists f v j s, compares test_oracle (b "a:>=0") GTE f v /\ numeric v /\
  document (b "{""a"":""ten""}") j /\ path_safe j f /\ no_index j f /\ (forall s', tested f j s' <-> s' = s) /\
  (forall n, number_of test_oracle s n -> n = S754_nan).
Proof.
  exists [b "a"]. eexists. exists (JObj [(b "a", JStr (b "ten"))]), (JStr (b "ten")).
  split; [do 2 eexists; split; [vm_compute; reflexivity|constructor]|]. split; [exact I|].
  split; [apply parse_json_spec; vm_compute; reflexivity|]. split; [exact I|]. split; [exact I|].
  split; [intros s'; apply only_member; split; discriminate|]. intros n (raw & [[= <-]|[=]] & E). vm_compute in E. discriminate.
Qed.

Example C33_example : let doc := b "{""a"":""-0""}" in
  answers test_oracle (b "a:<0") doc (Some false) /\ answers test_oracle (b "a:<=0") doc (Some true) /\ answers test_oracle (b "a:0") doc (Some true) /\
  answers test_oracle (b "a:>=0") doc (Some true) /\ answers test_oracle (b "a:>0") doc (Some false) /\
  answers test_oracle (b "a:>=0") (b "{""a"":""NaN""}") (Some false) /\ answers test_oracle (b "a:>=0") (b "{""a"":true}") (Some false).
Proof.
  cbn zeta. repeat match goal with |- _ /\ _ => split end;
    do 3 eexists; (split; [vm_compute; reflexivity|]); (split; [apply af_none|]); vm_compute; reflexivity.
Qed.

(** ** C34 *)
Theorem C34_inclusive O q f v w p lo hi own own' data j raw x :
  parse_plain O q = QOk (NExpr BET f [v; w] p) -> numeric v -> numeric w ->
  GrammarSpec.literal O own (val_pos v) v -> denotes_number own lo -> GrammarSpec.literal O own' (val_pos w) w -> denotes_number own' hi ->
  document data j -> path_safe j f -> no_index j f -> (forall s, tested f j s <-> s = JNum raw) -> denotes_number raw x ->
  answers O q data (Some true) <-> in_double_range x /\ (nearest lo <= nearest x <= nearest hi)%R.
Proof.
  intros P Nv Nw Lv Dlo Lw Dhi D Sf Ni Un Dx.
  destruct (literal_exact O own _ v Lv Nv) as (y' & g & Dy' & _ & Eg & Fg & Vg). rewrite <- (denotes_number_fun _ _ _ Dlo Dy') in Vg. clear y' Dy'.
  destruct (literal_exact O own' _ w Lw Nw) as (y' & h & Dy' & _ & Eh & Fh & Vh). rewrite <- (denotes_number_fun _ _ _ Dhi Dy') in Vh. clear y' Dy'.
  rewrite (C29_scalars O q BET f [v; w] p data j P) by (auto; discriminate).
  assert (In' : in_range O v w (JNum raw) <-> exists n, number_of O (JNum raw) n /\ f_ge n g = true /\ f_le n h = true).
  { assert (E : in_range O v w (JNum raw) <-> exists n g', literal_num v = Some g' /\ number_of O (JNum raw) n /\ f_ge n g' = true /\ f_le n (range_end w) = true)
      by (destruct v; try contradiction; destruct w; try contradiction; reflexivity).
    rewrite E. unfold range_end. rewrite Eh, Eg. split; [intros (n & g' & [= <-] & H); eauto|]. intros (n & H). exists n, g. auto. }
  split.
  - intros (s & S1 & S2 & v' & w' & [= <- <-] & R). assert (s = JNum raw) as -> by (apply Un; now split).
    apply In' in R as (n & Hn & R1 & R2). apply (number_of_decimal O raw x Dx) in Hn as (In & Fn & _ & Vn). split; [exact In|].
    apply (ge_exact n g Fn Fg) in R1. apply (le_exact n h Fn Fh) in R2. rewrite Vn, Vg in R1. rewrite Vn, Vh in R2. lra.
  - intros (In & R). destruct (proj2 (Un (JNum raw)) eq_refl) as (S1 & S2). exists (JNum raw). split; [exact S1|]. split; [exact S2|].
    exists v, w. split; [reflexivity|]. apply In'. destruct (number_of_exists O raw x Dx In) as (n & Hn). exists n. split; [exact Hn|].
    apply (number_of_decimal O raw x Dx) in Hn as (_ & Fn & _ & Vn). split.
    + apply (ge_exact n g Fn Fg). rewrite Vn, Vg. lra.
    + apply (le_exact n h Fn Fh). rewrite Vn, Vh. lra.
Qed.
Print Assumptions C34_inclusive.

(** Both ends of the same kind: the conjunction of the two comparisons. *)
Theorem C34_is_conjunction O q qge qle f v w v' w' p p1 p2 data j s a c d :
  (numeric v /\ numeric w \/ exists t d1 s1 u1 t' d2 s2 u2, v = ATime t d1 s1 u1 /\ w = ATime t' d2 s2 u2) ->
  parse_plain O q = QOk (NExpr BET f [v; w] p) ->
  parse_plain O qge = QOk (NExpr GTE f [v'] p1) -> same_value v v' ->
  parse_plain O qle = QOk (NExpr LTE f [w'] p2) -> same_value w w' ->
  document data j -> path_safe j f -> no_index j f -> (forall s', tested f j s' <-> s' = s) ->
  answers O q data (Some a) -> answers O qge data (Some c) -> answers O qle data (Some d) -> a = c && d.
Proof.
  intros K P P1 Sv P2 Sw D Sf Ni Un A A1 A2.
  assert (T : forall (Q : json -> Prop), (exists s', scalar s' /\ (resolves f j s' \/ exists els, resolves f j (JArr els) /\ In s' els) /\ Q s') <-> Q s).
  { intros Q. split.
    - intros (s' & S1 & S2 & S3). replace s with s'; [exact S3|]. apply Un. now split.
    - intros H. destruct (proj2 (Un s) eq_refl) as (S1 & S2). exists s. auto. }
  assert (B : forall q' a', answers O q' data (Some a') -> (a' = true <-> answers O q' data (Some true))).
  { intros q' a' A'. split; [intros ->; exact A'|]. intros A''. pose proof (C25_one_answer _ _ _ _ _ A' A'') as E. now injection E. }
  apply B in A, A1, A2.
  rewrite (C29_scalars O q BET f [v; w] p data j P), T in A by (auto; discriminate).
  rewrite (C29_scalars O qge GTE f [v'] p1 data j P1), T in A1 by (auto; discriminate).
  rewrite (C29_scalars O qle LTE f [w'] p2 data j P2), T in A2 by (auto; discriminate). clear T B.
  assert (Main : (exists v0 w0, [v; w] = [v0; w0] /\ in_range O v0 w0 s) <-> (exists v0, [v'] = [v0] /\ ordered O GTE v0 s) /\ (exists w0, [w'] = [w0] /\ ordered O LTE w0 s)).
  { transitivity (in_range O v w s); [split; [intros (? & ? & [= <- <-] & H); exact H|eauto]|].
    transitivity (ordered O GTE v' s /\ ordered O LTE w' s).
    2:{ split; [intros (H1 & H2); split; eauto|]. intros ((? & [= <-] & H1) & (? & [= <-] & H2)). auto. }
    destruct K as [(Nv & Nw)|(t & d1 & s1 & u1 & t' & d2 & s2 & u2 & -> & ->)].
    - destruct v; try contradiction; destruct v'; try discriminate; destruct w; try contradiction; destruct w'; try discriminate;
        unfold same_value in Sv, Sw; cbn in Sv, Sw; injection Sv as -> ->; injection Sw as -> ->; cbn [in_range ordered literal_num range_end float_rel]; split.
      all: try (intros (n & g & [= <-] & Hn & R1 & R2); split; eexists n, _; (split; [reflexivity|]); now split).
      all: intros ((n & g & [= <-] & Hn & R1) & (n' & g' & [= <-] & Hn' & R2)); rewrite (number_of_fun O s n' n Hn' Hn) in R2; eexists n, _; (split; [reflexivity|]); auto.
    - destruct v'; try discriminate; destruct w'; try discriminate; unfold same_value in Sv, Sw; cbn in Sv, Sw; injection Sv as -> -> ->; injection Sw as -> -> ->.
      cbn [in_range ordered nano_rel]. split.
      + intros (i & Hi & R). split; exists i; (split; [exact Hi|lia]).
      + intros ((i & Hi & R) & (i' & Hi' & R')). assert (i' = i).
        { destruct Hi as (x & Hx & E), Hi' as (x' & Hx' & E'). assert (x' = x) as ->; [|congruence].
          inversion Hx; subst; inversion Hx'; subst; congruence. }
        subst i'. exists i. split; [exact Hi|lia]. }
  rewrite Main, <- A1, <- A2 in A. destruct a, c, d; cbn; try reflexivity; intuition discriminate.
Qed.
Print Assumptions C34_is_conjunction.
Example C34_hypotheses : exists f v w v' w' p p1 p2 lo hi own own' data j raw x,
  parse_plain test_oracle (b "a:><(1, 3)") = QOk (NExpr BET f [v; w] p) /\ numeric v /\ numeric w /\
  parse_plain test_oracle (b "a:>=1") = QOk (NExpr GTE f [v'] p1) /\ same_value v v' /\
  parse_plain test_oracle (b "a:<=3") = QOk (NExpr LTE f [w'] p2) /\ same_value w w' /\
  GrammarSpec.literal test_oracle own (val_pos v) v /\ denotes_number own lo /\ GrammarSpec.literal test_oracle own' (val_pos w) w /\ denotes_number own' hi /\
  document data j /\ path_safe j f /\ no_index j f /\ (forall s, tested f j s <-> s = JNum raw) /\ denotes_number raw x /\ lo = 1%R /\ hi = 3%R /\ x = 2%R.
Proof.
  assert (Dg : forall c, (48 <=? c) && (c <=? 57) = true -> Forall (fun d => 48 <= d <= 57) [c]) by (intros c Hc; constructor; [lia|constructor]).
  assert (One : forall c r, (48 <=? c) && (c <=? 57) = true -> r = IZR (Z.of_N c - 48) -> denotes_number [c] r).
  { intros c r Hc ->. pose proof (dec_number [] 1 [c] [] [] [] 0%Z sg_none (Dg c Hc) (Forall_nil _) ltac:(discriminate) (or_introl (conj eq_refl eq_refl)) xt_none eq_refl) as H.
    match type of H with denotes_number ?t ?r => replace (IZR (Z.of_N c - 48)) with r; [exact H|] end. cbn. rewrite ?Rmult_1_l, ?Rmult_1_r. f_equal. lia. }
  assert (Int : forall c p v, (48 <=? c) && (c <=? 57) = true -> new_int_val (encode [c]) p = Some v -> GrammarSpec.literal test_oracle [c] p v).
  { intros c p v Hc Hv. apply GrammarSpec.lit_int; [|exact Hv]. exists [], [c]. split; [reflexivity|]. split; [now left|]. split; [|discriminate].
    constructor; [unfold GrammarSpec.digit; lia|constructor]. }
  do 8 eexists. exists 1%R, 3%R, (b "1"), (b "3"), (b "{""a"":2}"), (JObj [(b "a", JNum (b "2"))]), (b "2"), 2%R.
  split; [vm_compute; reflexivity|]. split; [exact I|]. split; [exact I|]. split; [vm_compute; reflexivity|]. split; [constructor|].
  split; [vm_compute; reflexivity|]. split; [constructor|].
  split; [apply (Int 49); reflexivity|]. split; [now apply One|]. split; [apply (Int 51); reflexivity|]. split; [now apply One|].
  split; [apply parse_json_spec; vm_compute; reflexivity|]. split; [exact I|]. split; [exact I|]. split; [intros s; apply only_member; split; discriminate|].
  split; [now apply One|]. auto.
Qed.

Example C34_example : let doc := b "{""a"":2,""b"":[0,7]}" in
  answers test_oracle (b "a:><(1.5, 2)") doc (Some true) /\ answers test_oracle (b "a:>=1.5") doc (Some true) /\ answers test_oracle (b "a:<=2") doc (Some true) /\
  answers test_oracle (b "a:><(2.5, 3)") doc (Some false) /\
  answers test_oracle (b "b:><(1, 5)") doc (Some false) /\ answers test_oracle (b "b:>=1") doc (Some true) /\ answers test_oracle (b "b:<=5") doc (Some true).
Proof.
  cbn zeta. repeat match goal with |- _ /\ _ => split end;
    do 3 eexists; (split; [vm_compute; reflexivity|]); (split; [apply af_none|]); vm_compute; reflexivity.
Qed.

(** ** C35 *)
Theorem C35_exclusive_refuted : exists q data, forall O,
  (exists u u' p, parse_plain O q = QOk (NExpr BET [b "a"] [AInt 1 (b "1") u; AInt 2 (b "2") u'] p)) /\
  document data (JObj [(b "a", JNum (b "1"))]) /\ answers O q data (Some true).
Proof.
  exists (b "a:><(1, 2)"), (b "{""a"":1}"). intros O. split; [do 3 eexists; vm_compute; reflexivity|].
  split; [apply parse_json_spec; vm_compute; reflexivity|].
  do 3 eexists. split; [vm_compute; reflexivity|]. split; [apply af_none|]. vm_compute. reflexivity.
Qed.
Print Assumptions C35_exclusive_refuted.
