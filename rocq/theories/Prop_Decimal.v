(** C135, C136: the text of a number; comparisons of numbers with at most 15 digits. *)
From Verif Require Import Bytes Utf8 Utf8Proofs GoFloat Oracles Ast AstSpec Json JsonSpec JsonProofs MatchApi MatchSpec MatchProofs MatcherTop ParseQuery QueryMessages StrProofs StrLitProofs
  NumSpec NumProofs FloatProofs FormatFloat FormatFloatProofs DecimalSpec ShortestProofs DecimalProofs NumLitProofs Prop_Match Prop_Strings Prop_Numbers Prop_Printed.
From Verif Require GrammarSpec.
From Coq Require Import Reals Lra ZifyBool ZifyN ZifyNat.
From Flocq Require Import Core.

(** What strconv documents of FormatFloat(f, 'f', -1, 64): no exponent, and the smallest number
    of digits that ParseFloat reads as the same double. *)
Definition documented (fmt : f64 -> bytes) : Prop := forall f, finite_double f -> double_value f <> 0%R ->
  plain_notation (fmt f) /\ exists x, denotes_number (fmt f) x /\ nearest x = double_value f /\
    forall n x', nearest x' = double_value f -> written_with n x' -> written_with n x.

(** The formatter used in the examples writes at most 17 digits, the last one at the highest
    possible place, and of the possible digits the nearest ones. *)
Theorem C135_digits f : finite_double f -> double_value f <> 0%R ->
  exists x k, plain_notation (format_float f) /\ denotes_number (format_float f) x /\ nearest x = double_value f /\ multiple k x /\ written_with 17 x /\
    (forall k' x', (k < k')%Z -> multiple k' x' -> nearest x' <> double_value f) /\
    (forall x', multiple k x' -> nearest x' = double_value f -> (Rabs (x - double_value f) <= Rabs (x' - double_value f))%R).
Proof.
  intros F Nz. destruct (format_digits f F Nz) as (x & k & H1 & H2 & H3 & H4 & H5). exists x, k.
  split; [exact H1|]. split; [exact H2|]. split; [exact H3|]. split; [exact H4|]. split; [exact (format_seventeen f x F Nz H2)|exact H5].
Qed.
Print Assumptions C135_digits.

Theorem C135_formatter : documented format_float.
Proof.
  intros f F Nz. destruct (format_digits f F Nz) as (x & k & H1 & H2 & H3 & _). split; [exact H1|]. exists x.
  split; [exact H2|]. split; [exact H3|]. intros n x' E W. exact (format_fewest f x n x' F Nz H2 E W).
Qed.
Print Assumptions C135_formatter.

(** A number of at most 15 digits is compared as a text with its exact value in plain notation,
    however it is written in the document. *)
Theorem C135_fifteen O raw x : documented (o_fmt_float O) -> denotes_number raw x -> written_with 15 x ->
  (bpow radix2 (-1022) <= Rabs x)%R -> in_double_range x ->
  exists t, plain_notation t /\ denotes_number t x /\ forall u, text_of O (JNum raw) u <-> u = t.
Proof.
  intros Dc D W Nm Rg. destruct (proj1 (parse_float_exact (o_float_other O) raw x D) Rg) as (f & Pf & Ff & Ef).
  assert (Nz : double_value f <> 0%R).
  { rewrite Ef. intros Q. pose proof (nearest_normal x Nm) as H.
    rewrite Q, Rabs_R0 in H. pose proof (bpow_gt_0 radix2 (-1022)). lra. }
  destruct (Dc f Ff Nz) as (Pl & y & Dy & Ny & Fw). exists (o_fmt_float O f). split; [exact Pl|].
  assert (E : x = y) by (apply fifteen_same; auto; [apply (Fw 15%Z x); auto|congruence]). rewrite E. split; [exact Dy|].
  intros u. split; [|intros ->; now apply tof_number]. intros T. inversion T as [|raw' f' Pf' E1 E2]; subst. rewrite Pf in Pf'. now injection Pf' as <-.
Qed.
Print Assumptions C135_fifteen.

(** So if it is in plain notation already, its text is what is written. *)
Theorem C135_as_written O raw x u : documented (o_fmt_float O) -> denotes_number raw x -> written_with 15 x ->
  (bpow radix2 (-1022) <= Rabs x)%R -> in_double_range x -> plain_notation raw -> text_of O (JNum raw) u <-> u = raw.
Proof.
  intros Dc D W Nm Rg Pl. destruct (C135_fifteen O raw x Dc D W Nm Rg) as (t & Pt & Dt & Tx). rewrite (Tx u).
  assert (x <> 0%R) by (intros ->; rewrite Rabs_R0 in Nm; pose proof (bpow_gt_0 radix2 (-1022)); lra).
  now rewrite (plain_unique t raw x Pt Pl Dt D).
Qed.
Print Assumptions C135_as_written.

(** A string query with the plain notation finds the number exactly if it is positive: a sign
    is not part of a word. *)
Theorem C135_query O q f s u p data j raw x : parse_plain O q = QOk (NExpr EQ f [AStr s u] p) ->
  document data j -> path_safe j f -> no_index j f -> (forall y, tested f j y <-> y = JNum raw) ->
  documented (o_fmt_float O) -> plain_notation s -> denotes_number s x -> denotes_number raw x -> written_with 15 x ->
  (bpow radix2 (-1022) <= Rabs x)%R -> in_double_range x ->
  answers O q data (Some true) <-> (0 < x)%R.
Proof.
  intros P D Sf Ni Un Dc Pl Ds Dr W Nm Rg.
  destruct (C135_fifteen O raw x Dc Dr W Nm Rg) as (t & Pt & Dt & Tx).
  assert (Nz : x <> 0%R) by (intros ->; rewrite Rabs_R0 in Nm; pose proof (bpow_gt_0 radix2 (-1022)); lra).
  assert (Et : t = s) by exact (plain_unique t s x Pt Pl Dt Ds Nz). subst t.
  assert (Ch : Forall (fun c => dig c \/ c = 46 \/ c = 45) s).
  { destruct Pl as (sg & ip & fp & -> & G & I & Fp & _ & _). assert (Dg : forall l, Forall dig l -> Forall (fun c => dig c \/ c = 46 \/ c = 45) l) by (intros l; apply Forall_impl; auto).
    apply Forall_app. split; [destruct G as [->| ->]; [constructor|apply Forall_cons; [right; now right|constructor]]|]. apply Forall_app. split; [now apply Dg|].
    destruct fp; [constructor|]. apply Forall_cons; [right; now left|now apply Dg]. }
  assert (Nin : forall c, ~ (dig c \/ c = 46 \/ c = 45) -> ~ In c s) by (intros c Hc J; apply Hc; rewrite Forall_forall in Ch; now apply Ch).
  assert (A : ascii s) by (eapply Forall_impl; [|exact Ch]; unfold dig; intros c Hc; lia).
  assert (Q1 : ~ In 63 s) by (apply Nin; unfold dig; lia). assert (Q2 : ~ In 42 s) by (apply Nin; unfold dig; lia).
  rewrite (C42_search O q f s _ u p data j P A (plain_pattern s Q1 Q2) D Sf Ni).
  assert (X : (exists y t, tested f j y /\ text_of O y t /\ word_search O (map WLit s) (decode t)) <-> starts_with_word s /\ ends_in_word s).
  { rewrite <- (self_hit O s). split.
    - intros (y & t & T & Ty & Ws). apply Un in T. subst y. apply Tx in Ty. subst t. now rewrite (decode_ascii s A) in Ws.
    - intros Ws. exists (JNum raw), s. split; [now apply Un|]. split; [now apply Tx|]. now rewrite (decode_ascii s A). }
  rewrite X. clear X.
  destruct Pl as (sg & ip & fp & Es & G & I & Fp & H1 & H2).
  destruct (plain_denotes sg ip fp G I Fp H1) as (s0 & S0 & D0). rewrite <- Es in D0. pose proof (denotes_number_fun _ _ _ Ds D0) as Ex.
  assert (Fa : Forall dig (ip ++ fp)) by (apply Forall_app; now split). pose proof (IZR_le _ _ (digits_value_nonneg _ Fa)) as Nn.
  pose proof (p10_pos (- Z.of_nat (length fp))) as Pp.
  assert (Ne : ip <> []) by (destruct H1 as [->|(c & r & -> & _)]; discriminate).
  split.
  - intros [(c & r & Ec & Wc) _]. destruct G as [->| ->].
    + inversion S0; subst s0. assert (0 <= x)%R by (rewrite Ex; apply Rmult_le_pos; lra). lra.
    + rewrite Ec in Es. injection Es as -> _. unfold word_char in Wc. lia.
  - intros Px. destruct G as [->| ->]; [|inversion S0; subst s0; exfalso; assert (0 <= IZR (digits_value (ip ++ fp)) * powerRZ 10 (- Z.of_nat (length fp)))%R by (apply Rmult_le_pos; lra); rewrite Ex in Px; lra].
    cbn [app] in Es. split.
    + destruct ip as [|c r]; [congruence|]. exists c, (r ++ match fp with [] => [] | _ => 46 :: fp end). split; [exact Es|]. inversion I as [|? ? Dc' _]; subst. unfold word_char, dig in *. lia.
    + destruct H2 as [->|(l & c & -> & Hc)].
      * destruct (exists_last Ne) as (l & c & ->). exists l, c. rewrite app_nil_r in Es. split; [exact Es|]. apply Forall_app in I as [_ I]. inversion I as [|? ? Dc' _]; subst. unfold word_char, dig in *. lia.
      * exists (ip ++ 46 :: l), c. split; [rewrite Es; destruct l; cbn; now rewrite <- app_assoc|]. apply Forall_app in Fp as [_ Fp]. inversion Fp as [|? ? Dc' _]; subst. unfold word_char, dig in *. lia.
Qed.
Print Assumptions C135_query.

(** ** The hypotheses are met; the limits are needed *)
Lemma in_range_by_parse t x f : denotes_number t x -> parse_float (o_float_other printing_oracle) t = Some f -> in_double_range x.
Proof.
  intros D P. destruct (Rlt_le_dec (Rabs (nearest x)) max_double) as [L|L]; [exact L|].
  rewrite (proj2 (parse_float_exact _ t x D)) in P; [discriminate|]. unfold in_double_range. lra.
Qed.
Lemma number_tested raw s : tested [b "a"] (JObj [(b "a", JNum raw)]) s <-> s = JNum raw.
Proof.
  assert (M : forall c, member (b "a") (JObj [(b "a", JNum raw)]) c <-> c = JNum raw).
  { intros c. rewrite <- lookup_member. cbn. split; congruence. }
  split.
  - intros (Sc & [R|(els & R & I)]); inversion R as [? ? ? Hm|? ? ? ? ? Hm R'|? ? ? ? ? ? Hm Hi R']; subst; apply M in Hm; try congruence; inversion R'.
  - intros ->. split; [split; discriminate|]. left. apply rs_last. now apply M.
Qed.
Ltac all_digits := repeat (constructor; [vm_compute; split; discriminate|]); constructor.

(** The query a:"12.5" and the number 1.250e1. *)
Example C135_example : exists q f s u p data j raw x,
  q = b "a:""12.5""" /\ parse_plain printing_oracle q = QOk (NExpr EQ f [AStr s u] p) /\
  data = b "{""a"":1.250e1}" /\ document data j /\ path_safe j f /\ no_index j f /\ (forall y, tested f j y <-> y = JNum raw) /\
  documented (o_fmt_float printing_oracle) /\ plain_notation s /\ denotes_number s x /\ denotes_number raw x /\ written_with 15 x /\
  (bpow radix2 (-1022) <= Rabs x)%R /\ in_double_range x /\ (0 < x)%R /\ text_of printing_oracle (JNum raw) (b "12.5") /\
  answers printing_oracle q data (Some true).
Proof.
  exists (b "a:""12.5"""), [b "a"], (b "12.5"). do 2 eexists. exists (b "{""a"":1.250e1}"), (JObj [(b "a", JNum (b "1.250e1"))]), (b "1.250e1"), (125 * / 10)%R.
  assert (D1 : denotes_number (b "12.5") (125 * / 10)).
  { pose proof (dec_number [] 1 (b "12") (b ".") (b "5") [] 0%Z sg_none ltac:(all_digits) ltac:(all_digits) ltac:(discriminate) (or_intror eq_refl) xt_none eq_refl) as H.
    match type of H with denotes_number ?t ?r => replace (125 * / 10)%R with r end; [exact H|]. cbn. change (Pos.to_nat 1) with 1%nat. cbn. lra. }
  assert (D2 : denotes_number (b "1.250e1") (125 * / 10)).
  { pose proof (dec_number [] 1 (b "1") (b ".") (b "250") (b "e1") _ sg_none ltac:(all_digits) ltac:(all_digits) ltac:(discriminate) (or_intror eq_refl)
      (xt_pos 101 [] (b "1") (or_introl eq_refl) (or_introl eq_refl) ltac:(all_digits) ltac:(discriminate)) eq_refl) as H.
    match type of H with denotes_number ?t ?r => replace (125 * / 10)%R with r end; [exact H|]. cbn. change (Pos.to_nat 2) with 2%nat. cbn. lra. }
  assert (Px : (0 < 125 * / 10)%R) by lra.
  split; [reflexivity|]. split; [vm_compute; reflexivity|]. split; [reflexivity|]. split; [apply parse_json_spec; vm_compute; reflexivity|].
  split; [exact I|]. split; [exact I|]. split; [apply number_tested|]. split; [exact C135_formatter|].
  split. { exists [], (b "12"), (b "5"). split; [reflexivity|]. split; [now left|]. split; [all_digits|]. split; [all_digits|].
    split; right; [exists 49, (b "2")|exists [], 53]; (split; [reflexivity|discriminate]). }
  split; [exact D1|]. split; [exact D2|]. split; [exists 125%Z, (-1)%Z; split; [reflexivity|cbn; change (Pos.to_nat 1) with 1%nat; cbn; lra]|].
  split. { rewrite Rabs_pos_eq by lra. apply Rle_trans with (bpow radix2 0); [apply bpow_le; lia|cbn; lra]. }
  split; [eapply in_range_by_parse; [exact D1|vm_compute; reflexivity]|]. split; [exact Px|].
  split. { apply (tof_number printing_oracle (b "1.250e1") (S754_finite false 7036874417766400 (-49))). vm_compute. reflexivity. }
  do 3 eexists. split; [vm_compute; reflexivity|]. split; [apply af_none|]. vm_compute. reflexivity.
Qed.
(** The negative one is not found. *)
Example C135_negative : answers printing_oracle (b "a:""-12.5""") (b "{""a"":-12.5}") (Some false) /\ text_of printing_oracle (JNum (b "-12.5")) (b "-12.5").
Proof.
  split; [do 3 eexists; (split; [vm_compute; reflexivity|]); (split; [apply af_none|]); vm_compute; reflexivity|].
  apply (tof_number printing_oracle (b "-12.5") (S754_finite true 7036874417766400 (-49))). vm_compute. reflexivity.
Qed.

(** With 16 digits the text may be another number, and so it may for one digit below 2^-1022. *)
Theorem C135_limits : exists raw x t,
  denotes_number raw x /\ written_with 16 x /\ (bpow radix2 (-1022) <= Rabs x)%R /\ in_double_range x /\ plain_notation raw /\
  text_of printing_oracle (JNum raw) t /\ t <> raw.
Proof.
  exists (b "9007199254740993"), 9007199254740993%R, (b "9007199254740992").
  assert (D : denotes_number (b "9007199254740993") 9007199254740993).
  { pose proof (dec_number [] 1 (b "9007199254740993") [] [] [] 0%Z sg_none ltac:(all_digits) ltac:(constructor) ltac:(discriminate) (or_introl (conj eq_refl eq_refl)) xt_none eq_refl) as H.
    match type of H with denotes_number ?t ?r => replace 9007199254740993%R with r end; [exact H|].
    change (digits_value (b "9007199254740993" ++ [])) with 9007199254740993%Z. cbn [length Z.of_nat Z.sub Z.opp Z.add powerRZ]. ring. }
  split; [exact D|]. split; [exists 9007199254740993%Z, 0%Z; split; [reflexivity|cbn [powerRZ]; ring]|].
  split. { rewrite Rabs_pos_eq by lra. apply Rle_trans with (bpow radix2 0); [apply bpow_le; lia|cbn; lra]. }
  split; [eapply in_range_by_parse; [exact D|vm_compute; reflexivity]|].
  split. { exists [], (b "9007199254740993"), []. split; [reflexivity|]. split; [now left|]. split; [all_digits|]. split; [constructor|]. split; [right|now left].
    exists 57, (b "007199254740993"). split; [reflexivity|discriminate]. }
  split; [|discriminate]. apply (tof_number printing_oracle (b "9007199254740993") (S754_finite false 4503599627370496 1)). vm_compute. reflexivity.
Qed.
Print Assumptions C135_limits.
Example C135_subnormal : exists x t y, denotes_number (b "3e-324") x /\ written_with 1 x /\ text_of printing_oracle (JNum (b "3e-324")) t /\
  denotes_number t y /\ x <> y.
Proof.
  pose proof (dec_number [] 1 (b "3") [] [] (b "e-324") _ sg_none ltac:(all_digits) ltac:(constructor) ltac:(discriminate) (or_introl (conj eq_refl eq_refl))
    (xt_neg 101 (b "324") (or_introl eq_refl) ltac:(all_digits) ltac:(discriminate)) eq_refl) as D. change (digits_value (b "324")) with 324%Z in D. cbn [app length Z.of_nat] in D.
  change (digits_value (b "3")) with 3%Z in D. rewrite Rmult_1_l in D. replace (- (324) - 0)%Z with (-324)%Z in D by lia.
  eexists _, (format_float (S754_finite false 1 (-1074))), (IZR 5 * powerRZ 10 (-324))%R. split; [exact D|]. split; [exists 3%Z, (-324)%Z; now split|].
  split. { apply (tof_number printing_oracle (b "3e-324") (S754_finite false 1 (-1074))). vm_compute. reflexivity. }
  split.
  - destruct (positional_plain 5 (-324)%Z ltac:(lia)) as (ip & fp & E & I1 & I2 & H1 & H2 & V); [intros _; discriminate|].
    destruct (plain_denotes [] ip fp (or_introl eq_refl) I1 I2 H1) as (s0 & S0 & D0). inversion S0; subst s0. rewrite Rmult_1_l, V in D0. cbn [app] in D0. rewrite <- E in D0.
    replace (format_float (S754_finite false 1 (-1074))) with (positional 5 (-324)); [exact D0|]. vm_compute. reflexivity.
  - intros E. pose proof (p10_pos (-324)). assert (3 * powerRZ 10 (-324) <> 5 * powerRZ 10 (-324))%R by lra. now apply H0.
Qed.

(** ** C136: numbers with at most 15 digits are compared exactly *)
(** Zero, or a number of 15 digits that is not too small. *)
Definition short (x : R) : Prop := written_with 15 x /\ (x = 0 \/ bpow radix2 (-1022) <= Rabs x)%R.
Lemma short_eq x y : short x -> short y -> nearest x = nearest y -> x = y.
Proof.
  intros (Wx & Nx) (Wy & Ny) E. destruct Nx as [->|Nx]; [|exact (fifteen_same x y Wx Wy Nx E)].
  destruct Ny as [->|Ny]; [reflexivity|]. symmetry. now apply fifteen_same.
Qed.
Lemma short_rel o x y : short x -> short y -> real_rel o (nearest x) (nearest y) <-> real_rel o x y.
Proof.
  intros Sx Sy. assert (Lt : forall a c, short a -> short c -> (nearest a < nearest c <-> a < c)%R).
  { intros a c Sa Sc. split; [apply nearest_strict|]. intros L. assert (M : (nearest a <= nearest c)%R) by (apply nearest_mono; lra).
    destruct (Req_dec (nearest a) (nearest c)) as [E|Ne]; [apply short_eq in E; auto; lra|lra]. }
  assert (Eq : (nearest x = nearest y <-> x = y)%R) by (split; [now apply short_eq|now intros ->]).
  assert (L1 := Lt x y Sx Sy). assert (L2 := Lt y x Sy Sx).
  destruct o; cbn [real_rel]; unfold Rgt, Rge; try tauto; try (split; intros; lra);
    try (split; intros [H|H]; [left; now apply L1|right; now apply Eq|left; now apply L1|right; now apply Eq]);
    try (split; intros [H|H]; [left; now apply L2|right; symmetry; now apply Eq|left; now apply L2|right; symmetry; now apply Eq]); tauto.
Qed.

Theorem C136_exact O q o f v p own y data j raw x :
  In o [EQ; LT; LTE; GT; GTE] -> parse_plain O q = QOk (NExpr o f [v] p) -> numeric v ->
  GrammarSpec.literal O own (val_pos v) v -> denotes_number own y ->
  document data j -> path_safe j f -> no_index j f -> (forall s, tested f j s <-> s = JNum raw) -> denotes_number raw x ->
  short x -> short y -> in_double_range x ->
  answers O q data (Some true) <-> real_rel o x y.
Proof.
  intros Io P Nm L Dy D Sf Ni Un Dx Sx Sy Rx.
  rewrite (C74_rounded_comparison O q o f v p own y data j raw x Io P Nm L Dy D Sf Ni Un Dx), (short_rel o x y Sx Sy). tauto.
Qed.
Print Assumptions C136_exact.

Theorem C136_between O q f v w p lo hi own own' data j raw x :
  parse_plain O q = QOk (NExpr BET f [v; w] p) -> numeric v -> numeric w ->
  GrammarSpec.literal O own (val_pos v) v -> denotes_number own lo -> GrammarSpec.literal O own' (val_pos w) w -> denotes_number own' hi ->
  document data j -> path_safe j f -> no_index j f -> (forall s, tested f j s <-> s = JNum raw) -> denotes_number raw x ->
  short x -> short lo -> short hi -> in_double_range x ->
  answers O q data (Some true) <-> (lo <= x <= hi)%R.
Proof.
  intros P Nv Nw Lv Dlo Lw Dhi D Sf Ni Un Dx Sx Slo Shi Rx.
  rewrite (C34_inclusive O q f v w p lo hi own own' data j raw x P Nv Nw Lv Dlo Lw Dhi D Sf Ni Un Dx).
  pose proof (short_rel LTE lo x Slo Sx) as R1. pose proof (short_rel LTE x hi Sx Shi) as R2. cbn [real_rel] in R1, R2. tauto.
Qed.
Print Assumptions C136_between.

(** The hypotheses are met by a:>=0.3 and the number 3e-1; neither number is a double. *)
Example C136_example : exists q f v p own y data j raw x,
  parse_plain printing_oracle q = QOk (NExpr GTE f [v] p) /\ numeric v /\ GrammarSpec.literal printing_oracle own (val_pos v) v /\ denotes_number own y /\
  document data j /\ path_safe j f /\ no_index j f /\ (forall s, tested f j s <-> s = JNum raw) /\ denotes_number raw x /\
  short x /\ short y /\ in_double_range x /\ x = y /\ y = (3 * powerRZ 10 (-1))%R.
Proof.
  exists (b "a:>=0.3"). do 3 eexists. exists (b "0.3"), (3 * powerRZ 10 (-1))%R, (b "{""a"":3e-1}"), (JObj [(b "a", JNum (b "3e-1"))]), (b "3e-1"), (3 * powerRZ 10 (-1))%R.
  assert (T : powerRZ 10 (-1) = (/ 10)%R) by (cbn; change (Pos.to_nat 1) with 1%nat; cbn; lra).
  assert (Sh : short (3 * powerRZ 10 (-1))).
  { split; [exists 3%Z, (-1)%Z; now split|]. right. rewrite T, Rabs_pos_eq by lra. apply Rle_trans with (bpow radix2 (-2)); [apply bpow_le; lia|cbn; lra]. }
  assert (D2 : denotes_number (b "3e-1") (3 * powerRZ 10 (-1))).
  { pose proof (dec_number [] 1 (b "3") [] [] (b "e-1") _ sg_none ltac:(all_digits) ltac:(constructor) ltac:(discriminate) (or_introl (conj eq_refl eq_refl))
      (xt_neg 101 (b "1") (or_introl eq_refl) ltac:(all_digits) ltac:(discriminate)) eq_refl) as H.
    match type of H with denotes_number ?t ?r => replace (3 * powerRZ 10 (-1))%R with r end; [exact H|]. change (digits_value (b "3" ++ [])) with 3%Z. change (- digits_value (b "1") - Z.of_nat (length (@nil N)))%Z with (-1)%Z. ring. }
  split; [vm_compute; reflexivity|]. split; [exact I|]. split.
  { assert (Dg : forall c, 48 <= c <= 57 -> GrammarSpec.digits1 [c]).
    { intros c Hc. split; [constructor; [|constructor]; unfold GrammarSpec.digit; lia|discriminate]. }
    apply GrammarSpec.lit_float; [|vm_compute; reflexivity]. exists [], (b "0"), (b "3").
    split; [reflexivity|]. split; [now left|]. split; apply Dg; vm_compute; split; discriminate. }
  split.
  { pose proof (dec_number [] 1 (b "0") (b ".") (b "3") [] 0%Z sg_none ltac:(all_digits) ltac:(all_digits) ltac:(discriminate) (or_intror eq_refl) xt_none eq_refl) as H.
    match type of H with denotes_number ?t ?r => replace (3 * powerRZ 10 (-1))%R with r end; [exact H|]. change (digits_value (b "0" ++ b "3")) with 3%Z. change (0 - Z.of_nat (length (b "3")))%Z with (-1)%Z. ring. }
  split; [apply parse_json_spec; vm_compute; reflexivity|]. split; [exact I|]. split; [exact I|]. split; [apply number_tested|].
  split; [exact D2|]. split; [exact Sh|]. split; [exact Sh|]. split; [eapply in_range_by_parse; [exact D2|vm_compute; reflexivity]|]. now split.
Qed.
