(** What ParseFloat reads (C137). *)
From Verif Require Import Bytes GoStrconv GoTime GoFloat GoFloatRead NumSpec NumProofs FloatProofs NumberTextSpec.
From Coq Require Import Reals Lra ZifyBool ZifyN ZifyNat.

(** ** Texts without underscores and x *)
Lemma special_chars s f c : parse_special s = Some f -> c = 95 \/ c = 120 \/ c = 88 -> ~ In c s.
Proof.
  intros H Hc I. apply (in_map lower_ascii) in I.
  assert (L : lower_ascii c = 95 \/ lower_ascii c = 120) by (destruct Hc as [-> | [-> | ->]]; cbn; tauto). remember (lower_ascii c) as d eqn:Ed. clear Ed Hc c.
  unfold parse_special in H. cbv zeta in H. set (l := map lower_ascii s) in *. clearbody l.
  assert (W : forall w, In w [b "inf"; b "infinity"; b "nan"] -> ~ In d w).
  { intros w Hw Hd. cbn in Hw. destruct Hw as [<- | [<- | [<- | []]]]; cbn in Hd; lia. }
  assert (Q : forall r, beqb r (b "inf") || beqb r (b "infinity") = true -> ~ In d r).
  { intros r E. apply orb_prop in E as [E|E]; apply beqb_eq in E; subst r; apply W; cbn; tauto. }
  assert (G : l = [] \/ (exists r, (l = 43 :: r \/ l = 45 :: r) /\ beqb r (b "inf") || beqb r (b "infinity") = true) \/ beqb l (b "inf") || beqb l (b "infinity") = true \/ l = b "nan").
  { destruct l as [|a r]; [now left|]. right.
    destruct (N.eq_dec a 43) as [-> |N1]; [left; exists r; split; [now left|]; destruct (beqb r (b "inf") || beqb r (b "infinity")); [reflexivity|discriminate H]|].
    destruct (N.eq_dec a 45) as [-> |N2]; [left; exists r; split; [now right|]; destruct (beqb r (b "inf") || beqb r (b "infinity")); [reflexivity|discriminate H]|].
    right. destruct (beqb (a :: r) (b "inf") || beqb (a :: r) (b "infinity")) eqn:E; [now left|]. right.
    destruct (beqb (a :: r) (b "nan")) eqn:E2; [now apply beqb_eq in E2|]. exfalso. clear I W Q.
    destruct a as [|p]; [discriminate H|]. repeat (destruct p as [p|p|]; try discriminate H; try (exfalso; lia)). }
  destruct G as [-> | [(r & Er & E) | [E| ->]]].
  - destruct I.
  - apply (Q r E). destruct Er as [-> | ->]; destruct I as [X|X]; auto; lia.
  - exact (Q l E I).
  - apply (W (b "nan")); cbn; tauto.
Qed.

Lemma digits_plain s : ~ In 95 s -> read_digits false true s = (let (fp, t) := span_digits s in ([], fp, t)).
Proof.
  induction s as [|c r IH]; intros H; [reflexivity|]. cbn [read_digits span_digits].
  assert (E : c =? 95 = false) by (apply N.eqb_neq; intros ->; apply H; now left). rewrite E.
  assert (H' : ~ In 95 r) by (intros X; apply H; now right). specialize (IH H').
  unfold base_digit. cbn [andb]. rewrite orb_false_r. destruct (c =? 46) eqn:E2.
  - apply N.eqb_eq in E2. subst c. reflexivity.
  - destruct (is_digit c); [|reflexivity]. rewrite IH. destruct (span_digits r). reflexivity.
Qed.
Lemma digits_plain0 s : ~ In 95 s -> read_digits false false s =
  (let (ip, s1) := span_digits s in let (fp, s2) := match s1 with 46 :: r => span_digits r | _ => ([], s1) end in (ip, fp, s2)).
Proof.
  induction s as [|c r IH]; intros H; [reflexivity|]. cbn [read_digits span_digits].
  assert (E : c =? 95 = false) by (apply N.eqb_neq; intros ->; apply H; now left). rewrite E.
  assert (H' : ~ In 95 r) by (intros X; apply H; now right). specialize (IH H').
  unfold base_digit. cbn [andb]. rewrite orb_false_r. destruct (c =? 46) eqn:E2.
  - apply N.eqb_eq in E2. subst c. cbn [is_digit]. change (is_digit 46) with false. cbn iota. rewrite (digits_plain r H'). destruct (span_digits r). reflexivity.
  - destruct (is_digit c).
    + rewrite IH. destruct (span_digits r) as [ip s1]. destruct (match s1 with 46 :: r0 => span_digits r0 | _ => ([], s1) end). reflexivity.
    + apply N.eqb_neq in E2. destruct c as [|p]; [reflexivity|]. repeat (destruct p as [p|p|]; try reflexivity; try (exfalso; lia)).
Qed.
Lemma exp_digits_plain s : ~ In 95 s -> read_exp_digits s = span_digits s.
Proof.
  induction s as [|c r IH]; intros H; [reflexivity|]. cbn [read_exp_digits span_digits].
  assert (E : c =? 95 = false) by (apply N.eqb_neq; intros ->; apply H; now left). rewrite E, IH by (intros X; apply H; now right). reflexivity.
Qed.
Lemma exp_plain s : ~ In 95 s -> read_exp false s = parse_exp s.
Proof.
  intros H. destruct s as [|c r]; [reflexivity|]. unfold read_exp, parse_exp. destruct (lower_ascii c =? 101); [|reflexivity].
  assert (H' : ~ In 95 r) by (intros X; apply H; now right).
  assert (K : forall neg : bool, forall u, ~ In 95 u ->
    match u with
    | d :: _ => if is_digit d then let (ds, t) := read_exp_digits u in let e := Z.of_N (cap_digits 0 ds) in Some ((if neg then - e else e)%Z, t) else None
    | [] => None
    end = match span_digits u with ([], _) => None | (ds, t) => let e := Z.of_N (cap_digits 0 ds) in Some ((if neg then - e else e)%Z, t) end).
  { intros neg u Hu. rewrite exp_digits_plain by exact Hu. destruct u as [|d u]; [reflexivity|]. cbn [span_digits]. destruct (is_digit d); [|reflexivity]. destruct (span_digits u). reflexivity. }
  assert (T : forall d u, r = d :: u -> ~ In 95 u) by (intros d u -> X; apply H'; now right).
  destruct r as [|d u]; [exact (K false [] H')|].
  destruct (N.eq_dec d 43) as [-> |N1]; [exact (K false u (T _ _ eq_refl))|]. destruct (N.eq_dec d 45) as [-> |N2]; [exact (K true u (T _ _ eq_refl))|].
  clear T. specialize (K false (d :: u) H'). destruct d as [|p]; [exact K|]. repeat (destruct p as [p|p|]; try exact K; try (exfalso; lia)).
Qed.

Lemma lower_x c : lower_ascii c = 120 -> c = 120 \/ c = 88.
Proof. unfold lower_ascii. destruct ((65 <=? c) && (c <=? 90)) eqn:E; lia. Qed.
Lemma no_hex s : ~ In 120 s -> ~ In 88 s -> hex_prefix s = None.
Proof.
  intros H1 H2. destruct s as [|a [|c [|d r]]]; try reflexivity.
  - destruct a as [|p]; [reflexivity|]. repeat (destruct p as [p|p|]; try reflexivity).
  - destruct a as [|p]; [reflexivity|]. repeat (destruct p as [p|p|]; try reflexivity).
  - assert (E : lower_ascii c =? 120 = false).
    { apply N.eqb_neq. intros E. apply lower_x in E as [-> | ->]; [apply H1|apply H2]; cbn; tauto. }
    unfold hex_prefix. destruct a as [|p]; [reflexivity|]. repeat (destruct p as [p|p|]; try reflexivity). now rewrite E.
Qed.
Lemma drop_sign_in s c : In c (snd (drop_sign s)) -> In c s.
Proof.
  destruct s as [|a r]; [intros []|]. intros H. destruct (N.eq_dec a 43) as [-> |N1]; [now right|]. destruct (N.eq_dec a 45) as [-> |N2]; [now right|].
  destruct a as [|p]; [exact H|]. repeat (destruct p as [p|p|]; try exact H; try (exfalso; lia)).
Qed.
Lemma span_digits_dig s : Forall dig (fst (span_digits s)).
Proof.
  induction s as [|c r IH]; [constructor|]. cbn. destruct (is_digit c) eqn:E; [|constructor]. destruct (span_digits r). cbn in *. constructor; [now apply is_digit_iff|exact IH].
Qed.
Lemma base_val_dec ds : Forall dig ds -> base_val false ds = digits_val ds.
Proof.
  intros H. unfold base_val, digits_val. generalize 0 as a. induction H as [|c ds Hc H IH]; intros a; [reflexivity|]. cbn [fold_left].
  unfold base_value. now rewrite (proj2 (is_digit_iff c) Hc), IH.
Qed.
Lemma span_in s c : In c (snd (span_digits s)) -> In c s.
Proof. induction s as [|a r IH]; [intros []|]. cbn. destruct (is_digit a); [|intros H; exact H]. destruct (span_digits r). cbn in *. tauto. Qed.

Lemma read_plain s : ~ In 95 s -> ~ In 120 s -> ~ In 88 s ->
  read_float s = match parse_decimal s with Some (neg, m, e) => Some (neg, false, m, e) | None => None end.
Proof.
  intros H1 H2 H3. unfold read_float.
  assert (P : parse_decimal s = (let (neg, u) := drop_sign s in signed neg u)).
  { unfold parse_decimal, drop_sign. destruct s as [|a r]; [reflexivity|]. destruct a as [|p]; [reflexivity|]. repeat (destruct p as [p|p|]; try reflexivity). }
  rewrite P. assert (Iu := fun c => drop_sign_in s c). destruct (drop_sign s) as [neg u]. cbn [snd] in Iu.
  rewrite no_hex by (intros X; apply Iu in X; tauto).
  rewrite digits_plain0 by (intros X; apply Iu in X; tauto). unfold signed.
  pose proof (span_digits_dig u) as D1. pose proof (fun c => span_in u c) as I1.
  destruct (span_digits u) as [ip s1]. cbn [fst snd] in *.
  set (y := match s1 with 46 :: r => span_digits r | _ => ([], s1) end).
  assert (D2 : Forall dig (fst y) /\ forall c, In c (snd y) -> In c s1).
  { unfold y. destruct s1 as [|a r]; [split; [constructor|intros c []]|]. destruct (N.eq_dec a 46) as [-> |Na].
    - split; [apply span_digits_dig|]. intros c X. right. now apply span_in.
    - destruct a as [|p]; [split; [constructor|intros c X; exact X]|]. repeat (destruct p as [p|p|]; try (split; [constructor|intros c X; exact X]); try (exfalso; lia)). }
  destruct y as [fp s2]. cbn [fst snd] in D2. destruct D2 as (D2 & I2).
  assert (Dd : Forall dig (ip ++ fp)) by (apply Forall_app; now split).
  destruct (ip ++ fp) as [|c ds] eqn:Ed; [reflexivity|]. rewrite <- Ed in *.
  rewrite exp_plain by (intros X; apply I2, I1, Iu in X; tauto).
  destruct (parse_exp s2) as [[e [|? ?]]|]; try reflexivity.
  rewrite no_byte by exact H1. cbn [andb]. rewrite base_val_dec by exact Dd. f_equal. f_equal. lia.
Qed.

(** The two definitions of ParseFloat agree. *)
Lemma parse_float_read s : parse_float read_value s = go_parse_float s.
Proof.
  unfold parse_float, go_parse_float. destruct (has_byte 95 s || has_byte 120 s || has_byte 88 s) eqn:E.
  - destruct (parse_special s) as [f|] eqn:P; [|reflexivity]. exfalso.
    assert (K : exists c, (c = 95 \/ c = 120 \/ c = 88) /\ In c s).
    { rewrite !orb_true_iff in E. destruct E as [[E|E]|E]; unfold has_byte in E; apply existsb_exists in E as (d & Id & Ed); apply N.eqb_eq in Ed; subst d; eauto. }
    destruct K as (c & Hc & I). exact (special_chars s f c P Hc I).
  - destruct (parse_special s); [reflexivity|]. rewrite !orb_false_iff in E. destruct E as ((E1 & E2) & E3).
    assert (Nb : forall c, has_byte c s = false -> ~ In c s).
    { intros c Hc I. unfold has_byte in Hc. rewrite <- not_true_iff_false in Hc. apply Hc. apply existsb_exists. exists c. split; [exact I|apply N.eqb_refl]. }
    unfold read_value. rewrite read_plain by (apply Nb; assumption). destruct (parse_decimal s) as [[[neg m] e]|]; reflexivity.
Qed.

(** ** From the form to the value *)
Definition digit_of (hex : bool) : N -> Prop := if hex then hexadecimal_digit else decimal_digit.
Lemma base_digit_iff hex c : base_digit hex c = true <-> digit_of hex c.
Proof.
  unfold base_digit, digit_of, is_digit, lower_ascii, hexadecimal_digit, decimal_digit. destruct hex; cbn [andb].
  - destruct ((65 <=? c) && (c <=? 90)) eqn:E; lia.
  - lia.
Qed.
Lemma digit_of_not hex c : digit_of hex c -> c <> 95 /\ c <> 46 /\ c <> 43 /\ c <> 45 /\ c <> 120 /\ c <> 88 /\ c <> 112 /\ c <> 80.
Proof. unfold digit_of, hexadecimal_digit, decimal_digit. destruct hex; lia. Qed.
Lemma decimal_of hex c : decimal_digit c -> digit_of hex c.
Proof. destruct hex; unfold digit_of, hexadecimal_digit, decimal_digit; tauto. Qed.
Lemma grouped_impl (P Q : N -> Prop) ds t : (forall c, P c -> Q c) -> grouped P ds t -> grouped Q ds t.
Proof. intros H. induction 1; [apply gr_one|apply gr_next|apply gr_under]; auto. Qed.
Lemma grouped_digits P ds t : grouped P ds t -> Forall P ds /\ ds <> [].
Proof. induction 1 as [d Hd|d ds t Hd G (IH & _)|d ds t Hd G (IH & _)]; (split; [constructor; auto|discriminate]). Qed.
Lemma part_digits P ds t : part P ds t -> Forall P ds.
Proof. intros [(-> & _)|G]; [constructor|]. apply (grouped_digits _ _ _ G). Qed.
Lemma grouped_head P ds t : grouped P ds t -> exists c r, t = c :: r /\ P c.
Proof. destruct 1; eauto. Qed.

Lemma read_grouped hex dot ds t z : grouped (digit_of hex) ds t -> read_digits hex dot (t ++ z) =
  (let '(ip, fp, r) := read_digits hex dot z in if dot then (ip, ds ++ fp, r) else (ds ++ ip, fp, r)).
Proof.
  assert (Step : forall d u, digit_of hex d -> read_digits hex dot (d :: u) =
    (let '(ip, fp, r) := read_digits hex dot u in if dot then (ip, d :: fp, r) else (d :: ip, fp, r))).
  { intros d u Hd. cbn [read_digits]. destruct (digit_of_not hex d Hd) as (N1 & N2 & _).
    rewrite (proj2 (N.eqb_neq d 95) N1), (proj2 (N.eqb_neq d 46) N2), (proj2 (base_digit_iff hex d) Hd). reflexivity. }
  induction 1 as [d Hd|d ds t Hd G IH|d ds t Hd G IH]; cbn [app]; rewrite Step by exact Hd.
  - reflexivity.
  - rewrite IH. destruct (read_digits hex dot z) as [[? ?] ?]. destruct dot; reflexivity.
  - change (read_digits hex dot ((b "_" ++ t) ++ z)) with (read_digits hex dot (t ++ z)). rewrite IH. destruct (read_digits hex dot z) as [[? ?] ?]. destruct dot; reflexivity.
Qed.
Definition stops (hex : bool) (z : bytes) : Prop := forall c r, z = c :: r -> c <> 95 /\ c <> 46 /\ ~ digit_of hex c.
Lemma read_stop hex dot z : stops hex z -> read_digits hex dot z = ([], [], z).
Proof.
  intros H. destruct z as [|c r]; [reflexivity|]. destruct (H c r eq_refl) as (N1 & N2 & N3). cbn [read_digits].
  rewrite (proj2 (N.eqb_neq c 95) N1), (proj2 (N.eqb_neq c 46) N2). destruct (base_digit hex c) eqn:E; [|reflexivity]. now apply base_digit_iff in E.
Qed.
Lemma read_mantissa hex ip fp t z : mantissa (digit_of hex) ip fp t -> stops hex z -> read_digits hex false (t ++ z) = (ip, fp, z).
Proof.
  intros M Sz. destruct M as [ip t G|ip fp t u Pi Pf Ne].
  - rewrite (read_grouped hex false ip t z G), (read_stop hex false z Sz). now rewrite app_nil_r.
  - assert (F : read_digits hex false (b "." ++ u ++ z) = ([], fp, z)).
    { change (read_digits hex false (b "." ++ u ++ z)) with (read_digits hex true (u ++ z)). destruct Pf as [(-> & ->)|G].
      - now rewrite read_stop.
      - rewrite (read_grouped hex true fp u z G), (read_stop hex true z Sz). now rewrite app_nil_r. }
    rewrite <- !app_assoc. destruct Pi as [(-> & ->)|G]; [exact F|].
    rewrite (read_grouped hex false ip t (b "." ++ u ++ z) G), F. now rewrite app_nil_r.
Qed.
Lemma read_exp_grouped ds t : grouped decimal_digit ds t -> read_exp_digits t = (ds, []).
Proof.
  induction 1 as [d Hd|d ds t Hd G IH|d ds t Hd G IH]; cbn [read_exp_digits app b].
  - now rewrite (proj2 (is_digit_iff d) Hd).
  - now rewrite (proj2 (is_digit_iff d) Hd), IH.
  - rewrite (proj2 (is_digit_iff d) Hd). change (read_exp_digits (b "_" ++ t)) with (read_exp_digits t). now rewrite IH.
Qed.
Definition exp_letter (hex : bool) (c : N) : Prop := if hex then c = 112 \/ c = 80 else c = 101 \/ c = 69.
Definition written_exp (hex : bool) : bytes -> Z -> Prop := if hex then written_exponent 112 80 else written_exponent 101 69.
(** The exponent that is used for the written one. *)
Lemma written_inv hex ex e : written_exp hex ex e -> exists c sg ds t, ex = c :: sg ++ t /\ exp_letter hex c /\ grouped decimal_digit ds t /\
  ((sg = [] \/ sg = b "+") /\ e = digits_value ds \/ sg = b "-" /\ e = (- digits_value ds)%Z).
Proof.
  unfold written_exp, exp_letter. destruct hex; intros [c sg ds t Hc Hs G|c ds t Hc G]; [exists c, sg, ds, t|exists c, (b "-"), ds, t|exists c, sg, ds, t|exists c, (b "-"), ds, t];
    (split; [reflexivity|]; split; [exact Hc|]; split; [exact G|]; tauto).
Qed.
Lemma read_exp_spec hex c sg ds t : exp_letter hex c -> grouped decimal_digit ds t -> sg = [] \/ sg = b "+" \/ sg = b "-" ->
  read_exp hex (c :: sg ++ t) = Some ((if beqb sg (b "-") then - Z.of_N (cap_digits 0 ds) else Z.of_N (cap_digits 0 ds))%Z, []).
Proof.
  intros Hc G Hs. unfold read_exp.
  assert (E : (lower_ascii c =? (if hex then 112 else 101)) = true) by (unfold exp_letter in Hc; destruct hex; destruct Hc as [-> | ->]; reflexivity). rewrite E.
  pose proof (read_exp_grouped ds t G) as R. destruct (grouped_head _ _ _ G) as (d & r & -> & Hd).
  pose proof (proj2 (is_digit_iff d) Hd) as Ed.
  destruct Hs as [-> | [-> | ->]]; cbn [app].
  - assert (M : (match d :: r with 43 :: r' => (false, r') | 45 :: r' => (true, r') | _ => (false, d :: r) end) = (false, d :: r)).
    { unfold decimal_digit in Hd. destruct d as [|p]; [lia|]. repeat (destruct p as [p|p|]; try reflexivity; try (exfalso; lia)). }
    rewrite M, Ed, R. reflexivity.
  - cbn [b app]. change (b "+" ++ d :: r) with (43 :: d :: r). cbn match. rewrite Ed, R. reflexivity.
  - change (b "-" ++ d :: r) with (45 :: d :: r). cbn match. rewrite Ed, R. reflexivity.
Qed.
Lemma cap_value ds : Forall decimal_digit ds -> (digits_value ds < 100000)%Z -> Z.of_N (cap_digits 0 ds) = digits_value ds.
Proof. intros D L. rewrite (cap_spec ds D 0); cbn; lia. Qed.
Lemma read_exp_value hex ex e : written_exp hex ex e -> (Z.abs e < 100000)%Z -> read_exp hex ex = Some (e, []).
Proof.
  intros W L. destruct (written_inv _ _ _ W) as (c & sg & ds & t & -> & Hc & G & Hs). pose proof (grouped_digits _ _ _ G) as (D & _).
  pose proof (digits_value_nonneg ds D). rewrite (read_exp_spec hex c sg ds t Hc G) by tauto.
  rewrite cap_value; [|exact D|destruct Hs as [(_ & ->)|(_ & ->)]; lia].
  destruct Hs as [([-> | ->] & ->)|(-> & ->)]; reflexivity.
Qed.

(** *** Underscores *)
Lemma under_digit hex w c r : digit_of hex c -> under_loop hex w (c :: r) = under_loop hex SawDigit r.
Proof. intros H. cbn [under_loop]. now rewrite (proj2 (base_digit_iff hex c) H). Qed.
Lemma under_other hex w c r : ~ digit_of hex c -> c <> 95 -> w <> SawUnder -> under_loop hex w (c :: r) = under_loop hex SawOther r.
Proof.
  intros H N1 N2. cbn [under_loop]. destruct (base_digit hex c) eqn:E; [now apply base_digit_iff in E|]. rewrite (proj2 (N.eqb_neq c 95) N1). destruct w; congruence.
Qed.
Lemma under_grouped hex ds t z : grouped (digit_of hex) ds t -> forall w, under_loop hex w (t ++ z) = under_loop hex SawDigit z.
Proof.
  induction 1 as [d Hd|d ds t Hd G IH|d ds t Hd G IH]; intros w; cbn [app]; rewrite under_digit by exact Hd.
  - reflexivity.
  - apply IH.
  - change (under_loop hex SawDigit (95 :: t ++ z) = under_loop hex SawDigit z). cbn [under_loop].
    replace (base_digit hex 95) with false by (destruct hex; reflexivity). cbn. apply IH.
Qed.
Lemma under_part hex ds t z : part (digit_of hex) ds t -> forall w, w <> SawUnder -> exists w', w' <> SawUnder /\ under_loop hex w (t ++ z) = under_loop hex w' z.
Proof.
  intros [(-> & ->)|G] w Hw; [now exists w|]. exists SawDigit. split; [discriminate|]. now apply (under_grouped hex ds).
Qed.
Lemma under_mantissa hex ip fp t z w : mantissa (digit_of hex) ip fp t -> w <> SawUnder \/ ip <> [] ->
  exists w', w' <> SawUnder /\ under_loop hex w (t ++ z) = under_loop hex w' z.
Proof.
  intros M Hw. destruct M as [ip t G|ip fp t u Pi Pf Ne].
  - exists SawDigit. split; [discriminate|]. now apply (under_grouped hex ip).
  - assert (K : exists w1, w1 <> SawUnder /\ under_loop hex w ((t ++ b "." ++ u) ++ z) = under_loop hex w1 (46 :: u ++ z)).
    { rewrite <- !app_assoc. change (b "." ++ u ++ z) with (46 :: u ++ z). destruct Pi as [(-> & ->)|G].
      - exists w. split; [tauto|reflexivity].
      - exists SawDigit. split; [discriminate|]. now apply (under_grouped hex ip). }
    destruct K as (w1 & H1 & ->). rewrite under_other; [|intros X; apply digit_of_not in X; lia|lia|exact H1].
    apply (under_part hex fp u z Pf). discriminate.
Qed.
Lemma exp_letter_not hex c : exp_letter hex c -> ~ digit_of hex c /\ c <> 95 /\ c <> 46.
Proof. unfold exp_letter, digit_of, hexadecimal_digit, decimal_digit. destruct hex; lia. Qed.
Lemma under_exp hex ex e w : written_exp hex ex e -> w <> SawUnder -> under_loop hex w ex = true.
Proof.
  intros W Hw. destruct (written_inv _ _ _ W) as (c & sg & ds & t & -> & Hc & G & Hs). destruct (exp_letter_not hex c Hc) as (N1 & N2 & _).
  rewrite under_other by assumption. apply (grouped_impl _ (digit_of hex)) in G; [|apply decimal_of]. pose proof (under_grouped hex ds t [] G) as U. rewrite app_nil_r in U.
  assert (Q : sg = [] \/ exists d, sg = [d] /\ (d = 43 \/ d = 45)).
  { destruct Hs as [([-> | ->] & _)|(-> & _)]; [now left|right; exists 43|right; exists 45]; (split; [reflexivity|lia]). }
  destruct Q as [-> | (d & -> & Hd)]; cbn [app]; [now rewrite U|].
  rewrite under_other; [now rewrite U|intros X; apply digit_of_not in X; lia|lia|discriminate].
Qed.

Lemma hex_value_acc ds : Forall hexadecimal_digit ds -> forall a,
  Z.of_N (fold_left (fun a c => a * 16 + base_value c) ds a) = (Z.of_N a * 16 ^ Z.of_nat (length ds) + hexadecimals_value ds)%Z.
Proof.
  induction 1 as [|c ds Hc H IH]; intros a; cbn [fold_left hexadecimals_value length]; [cbn; lia|].
  rewrite IH. rewrite Nat2Z.inj_succ, Z.pow_succ_r by lia.
  assert (V : Z.of_N (base_value c) = hexadecimal_value c).
  { unfold base_value, hexadecimal_value, is_digit, digit_val, lower_ascii, hexadecimal_digit in *. destruct ((48 <=? c) && (c <=? 57)) eqn:E4, ((65 <=? c) && (c <=? 90)) eqn:E3, (c <=? 57) eqn:E1, (c <=? 70) eqn:E2; lia. }
  rewrite N2Z.inj_add, N2Z.inj_mul, V. change (Z.of_N 16) with 16%Z. ring.
Qed.
Lemma base_val_hex ds : Forall hexadecimal_digit ds -> Z.of_N (base_val true ds) = hexadecimals_value ds.
Proof. intros H. unfold base_val. rewrite hex_value_acc by exact H. cbn. lia. Qed.

Lemma mantissa_digits P ip fp t : mantissa P ip fp t -> Forall P (ip ++ fp) /\ ip ++ fp <> [].
Proof.
  destruct 1 as [ip t G|ip fp t u Pi Pf Ne].
  - rewrite app_nil_r. now apply grouped_digits in G.
  - split; [|exact Ne]. apply Forall_app. split; [now apply part_digits in Pi|now apply part_digits in Pf].
Qed.
Lemma mantissa_head P ip fp t : mantissa P ip fp t -> exists c r, t = c :: r /\ (P c \/ c = 46).
Proof.
  destruct 1 as [ip t G|ip fp t u Pi Pf Ne].
  - destruct (grouped_head _ _ _ G) as (c & r & -> & H). eauto.
  - destruct Pi as [(-> & ->)|G].
    + exists 46, u. split; [reflexivity|now right].
    + destruct (grouped_head _ _ _ G) as (c & r & -> & H). exists c, (r ++ b "." ++ u). split; [reflexivity|now left].
Qed.
Lemma grouped_chars P ds t : grouped P ds t -> Forall (fun c => P c \/ c = 95) t.
Proof.
  induction 1 as [d Hd|d ds t Hd G IH|d ds t Hd G IH].
  - constructor; [now left|constructor].
  - constructor; [now left|exact IH].
  - constructor; [now left|]. change (Forall (fun c => P c \/ c = 95) (95 :: t)). constructor; [now right|exact IH].
Qed.
Lemma part_chars P ds t : part P ds t -> Forall (fun c => P c \/ c = 95) t.
Proof. intros [(-> & ->)|G]; [constructor|now apply grouped_chars in G]. Qed.
Definition decimal_char (c : N) : Prop := decimal_digit c \/ In c (b "_.eE+-").
Lemma mantissa_chars ip fp t : mantissa decimal_digit ip fp t -> Forall decimal_char t.
Proof.
  assert (W : forall t, Forall (fun c => decimal_digit c \/ c = 95) t -> Forall decimal_char t).
  { intros u. apply Forall_impl. intros c [H| ->]; [now left|right; cbn; tauto]. }
  destruct 1 as [ip t G|ip fp t u Pi Pf Ne]; [apply W; now apply grouped_chars in G|].
  rewrite !Forall_app. split; [apply W; now apply part_chars in Pi|]. split; [repeat constructor; right; cbn; tauto|apply W; now apply part_chars in Pf].
Qed.
Lemma written_chars ex e : written_exp false ex e -> Forall decimal_char ex.
Proof.
  intros W. destruct (written_inv _ _ _ W) as (c & sg & ds & t & -> & Hc & G & Hs). constructor.
  - right. cbn in *. destruct Hc as [-> | ->]; tauto.
  - apply Forall_app. split; [destruct Hs as [([-> | ->] & _)|(-> & _)]; repeat constructor; right; cbn; tauto|].
    apply grouped_chars in G. revert G. apply Forall_impl. intros d [H| ->]; [now left|right; cbn; tauto].
Qed.
Lemma drop_sign_plain c r : c <> 43 -> c <> 45 -> drop_sign (c :: r) = (false, c :: r).
Proof. intros N1 N2. unfold drop_sign. destruct c as [|p]; [reflexivity|]. repeat (destruct p as [p|p|]; try reflexivity; try (exfalso; lia)). Qed.
Lemma drop_sign_text sg s c r : sign_text sg s -> c <> 43 -> c <> 45 -> exists neg, drop_sign (sg ++ c :: r) = (neg, c :: r) /\ s = (if neg : bool then -1 else 1)%R.
Proof.
  intros [] N1 N2; [exists false|exists false|exists true]; (split; [|reflexivity]).
  - now apply drop_sign_plain.
  - reflexivity.
  - reflexivity.
Qed.
Lemma not_prefix s : Forall decimal_char s -> hex_prefix s = None /\
  (match s with 48 :: c :: r => if (lower_ascii c =? 98) || (lower_ascii c =? 111) || (lower_ascii c =? 120) then under_loop (lower_ascii c =? 120) SawDigit r else under_loop false SawNone s
   | _ => under_loop false SawNone s end) = under_loop false SawNone s.
Proof.
  intros H. split.
  - apply no_hex; intros I; rewrite Forall_forall in H; apply H in I; unfold decimal_char, decimal_digit in I; cbn in I; lia.
  - destruct s as [|a [|c r]]; [reflexivity| |].
    + destruct a as [|p]; [reflexivity|]. repeat (destruct p as [p|p|]; try reflexivity).
    + assert (E : (lower_ascii c =? 98) || (lower_ascii c =? 111) || (lower_ascii c =? 120) = false).
      { apply Forall_inv_tail, Forall_inv in H. unfold decimal_char, decimal_digit in H. cbn in H. unfold lower_ascii. destruct ((65 <=? c) && (c <=? 90)) eqn:E; lia. }
      rewrite E. destruct a as [|p]; [reflexivity|]. repeat (destruct p as [p|p|]; try reflexivity).
Qed.

(** What readFloat finds in a numeral. *)
Definition exact_value (neg hex : bool) (m : N) (e : Z) : R :=
  ((if neg then -1 else 1) * IZR (Z.of_N m) * powerRZ (if hex then 2 else 10) e)%R.
Lemma read_numeral t x e : numeral t x e -> (Z.abs e < 100000)%Z ->
  exists neg hex m k, read_float t = Some (neg, hex, m, k) /\ x = exact_value neg hex m k.
Proof.
  intros Nu L. destruct Nu as [sg s ip fp t ex e Sg M X|sg s x u ip fp t ex e Sg Hx Hu M X].
  - pose proof (mantissa_digits _ _ _ _ M) as (Dg & Ne).
    assert (Xe : read_exp false ex = Some (e, []) /\ stops false ex /\ Forall decimal_char ex /\ forall w, w <> SawUnder -> under_loop false w ex = true).
    { destruct X as [(-> & ->)|X].
      - split; [reflexivity|]. split; [intros c r Q; discriminate|]. split; [constructor|]. intros w H. destruct w; try reflexivity. now destruct H.
      - split; [now apply (read_exp_value false)|]. split; [|split; [now apply (written_chars ex e)|intros w; now apply (under_exp false ex e)]].
        destruct (written_inv false _ _ X) as (c & sg' & ds & t' & -> & Hc & _). intros c' r Q. injection Q as <- _. destruct (exp_letter_not false c Hc) as (? & ? & ?). tauto. }
    destruct Xe as (Xe & Xs & Xc & Xu). pose proof (Forall_app decimal_char t ex) as Ch. pose proof (proj2 Ch (conj (mantissa_chars _ _ _ M) Xc)) as Ch'. clear Ch.
    destruct (not_prefix _ Ch') as (Np & Nu).
    destruct (mantissa_head _ _ _ _ M) as (c & r & Et & Hc).
    destruct (drop_sign_text sg s c (r ++ ex) Sg) as (neg & Ds & Es); [destruct Hc as [Hc| ->]; [unfold decimal_digit in Hc; lia|lia]|destruct Hc as [Hc| ->]; [unfold decimal_digit in Hc; lia|lia]|].
    assert (Ds' : drop_sign (sg ++ t ++ ex) = (neg, t ++ ex)) by (rewrite Et; exact Ds).
    exists neg, false, (base_val false (ip ++ fp)), (e - 1 * Z.of_nat (length fp))%Z. split.
    + unfold read_float. rewrite Ds', Np. rewrite (read_mantissa false ip fp t ex M Xs). destruct (ip ++ fp) as [|d ds] eqn:Ed; [congruence|]. rewrite <- Ed.
      rewrite Xe. replace (underscore_ok (sg ++ t ++ ex)) with true; [now rewrite andb_false_r|]. symmetry.
      unfold underscore_ok. rewrite Ds'. cbn [snd]. cbv zeta. rewrite Nu.
      destruct (under_mantissa false ip fp t ex SawNone M) as (w' & Hw & ->); [left; discriminate|]. now apply Xu.
    + unfold exact_value. rewrite base_val_dec by exact Dg. rewrite digits_val_spec by exact Dg. rewrite Z.mul_1_l, Es. reflexivity.
  - pose proof (mantissa_digits _ _ _ _ M) as (Dg & Ne).
    pose proof (read_exp_value true ex e X L) as Xe.
    assert (Xs : stops true ex /\ exists c r, ex = c :: r).
    { destruct (written_inv true _ _ X) as (c & sg' & ds & t' & -> & Hc & _). split; [|eauto]. intros c' r Q. injection Q as <- _. destruct (exp_letter_not true c Hc) as (? & ? & ?). tauto. }
    destruct Xs as (Xs & xc & xr & Ex).
    destruct (drop_sign_text sg s 48 (x :: u ++ t ++ ex) Sg) as (neg & Ds & Es); [lia|lia|].
    assert (Lx : lower_ascii x = 120) by (destruct Hx as [-> | ->]; reflexivity).
    exists neg, true, (base_val true (ip ++ fp)), (e - 4 * Z.of_nat (length fp))%Z. split.
    + unfold read_float. rewrite Ds.
      assert (Hp : hex_prefix (48 :: x :: u ++ t ++ ex) = Some (u ++ t ++ ex)).
      { assert (Q : exists d r, u ++ t ++ ex = d :: r) by (destruct (u ++ t ++ ex) as [|d r] eqn:E; [|eauto]; apply app_eq_nil in E as (_ & E); apply app_eq_nil in E as (_ & E); congruence).
        destruct Q as (d & r & ->). unfold hex_prefix. rewrite Lx. reflexivity. }
      rewrite Hp.
      assert (Rd : read_digits true false (u ++ t ++ ex) = (ip, fp, ex)).
      { pose proof (read_mantissa true ip fp t ex M Xs) as R. destruct Hu as [-> | (-> & _)]; exact R. }
      rewrite Rd. destruct (ip ++ fp) as [|d ds] eqn:Ed; [congruence|]. rewrite <- Ed.
      rewrite Xe. replace (underscore_ok (sg ++ 48 :: x :: u ++ t ++ ex)) with true; [now rewrite andb_false_r|]. symmetry.
      unfold underscore_ok. rewrite Ds. cbn [snd]. cbv zeta. rewrite Lx. cbn [N.eqb Pos.eqb orb].
      assert (Um : forall w, w <> SawUnder \/ ip <> [] -> under_loop true w (t ++ ex) = true).
      { intros w Hw. destruct (under_mantissa true ip fp t ex w M Hw) as (w' & Hw' & ->). now apply (under_exp true ex e). }
      destruct Hu as [-> | (-> & Ni)]; [apply Um; left; discriminate|].
      change (under_loop true SawUnder (t ++ ex) = true). apply Um. now right.
    + unfold exact_value. rewrite base_val_hex by exact Dg. now rewrite Es.
Qed.

(** *** From the text back to the form *)
Definition last_ok (hex : bool) (w : saw) (t ds : bytes) : Prop :=
  match w with
  | SawUnder => grouped (digit_of hex) ds t
  | SawDigit => part (digit_of hex) ds t \/ exists t', t = b "_" ++ t' /\ grouped (digit_of hex) ds t'
  | _ => part (digit_of hex) ds t
  end.
Lemma last_digit hex c w t ds : digit_of hex c -> last_ok hex SawDigit t ds -> last_ok hex w (c :: t) (c :: ds).
Proof.
  intros Hc H.
  assert (G : grouped (digit_of hex) (c :: ds) (c :: t)).
  { destruct H as [[(-> & ->)|G]|(t' & -> & G)]; [now apply gr_one|now apply gr_next|now apply gr_under]. }
  destruct w; cbn; unfold part; tauto.
Qed.
Lemma last_under hex t ds : last_ok hex SawUnder t ds -> last_ok hex SawDigit (95 :: t) ds.
Proof. intros H. right. exists t. now split. Qed.
Lemma last_none hex w : w <> SawUnder -> last_ok hex w [] [].
Proof. intros H. destruct w; cbn; unfold part; try tauto. Qed.
Lemma under_rest hex w s : under_loop hex w s = true -> (forall c r, s = c :: r -> ~ digit_of hex c /\ c <> 95) -> w <> SawUnder.
Proof.
  intros U H -> . destruct s as [|c r]; [discriminate|]. destruct (H c r eq_refl) as (N1 & N2). cbn [under_loop] in U.
  destruct (base_digit hex c) eqn:E; [now apply base_digit_iff in E|]. rewrite (proj2 (N.eqb_neq c 95) N2) in U. discriminate.
Qed.

Lemma back_fraction hex : forall s w ip fp t, read_digits hex true s = (ip, fp, t) -> under_loop hex w s = true ->
  ip = [] /\ exists u w', s = u ++ t /\ last_ok hex w u fp /\ w' <> SawUnder /\ under_loop hex w' t = true.
Proof.
  induction s as [|c r IH]; intros w ip fp t R U.
  - injection R as <- <- <-. split; [reflexivity|]. exists [], w. assert (Hw : w <> SawUnder) by (apply (under_rest hex w []); [exact U|discriminate]).
    split; [reflexivity|]. split; [now apply last_none|]. now split.
  - cbn [read_digits] in R. destruct (c =? 95) eqn:E95.
    + apply N.eqb_eq in E95. subst c. cbn [under_loop] in U. replace (base_digit hex 95) with false in U by (destruct hex; reflexivity). cbn in U.
      destruct w; try discriminate. destruct (IH SawUnder ip fp t R U) as (-> & u & w' & -> & Lo & Hw & Ut). split; [reflexivity|]. exists (95 :: u), w'. split; [reflexivity|]. split; [now apply last_under|now split].
    + destruct (c =? 46) eqn:E46; [|destruct (base_digit hex c) eqn:Ed].
      * injection R as <- <- <-. split; [reflexivity|]. apply N.eqb_eq in E46. subst c.
        assert (Hw : w <> SawUnder) by (apply (under_rest hex w (46 :: r)); [exact U|]; intros c r' Q; injection Q as <- _; split; [intros X; apply digit_of_not in X; lia|lia]).
        exists [], w. split; [reflexivity|]. split; [now apply last_none|]. now split.
      * destruct (read_digits hex true r) as [[ip' fp'] t'] eqn:R'. injection R as <- <- <-. apply base_digit_iff in Ed. rewrite under_digit in U by exact Ed.
        destruct (IH SawDigit ip' fp' t' eq_refl U) as (-> & u & w' & -> & Lo & Hw & Ut). split; [reflexivity|]. exists (c :: u), w'. split; [reflexivity|]. split; [now apply last_digit|now split].
      * injection R as <- <- <-. split; [reflexivity|]. apply N.eqb_neq in E95.
        assert (Hw : w <> SawUnder).
        { apply (under_rest hex w (c :: r)); [exact U|]. intros c' r' Q. injection Q as <- _. split; [|exact E95]. intros X. apply base_digit_iff in X. congruence. }
        exists [], w. split; [reflexivity|]. split; [now apply last_none|]. now split.
Qed.
Lemma back_digits hex : forall s w ip fp t, read_digits hex false s = (ip, fp, t) -> under_loop hex w s = true ->
  exists u w', w' <> SawUnder /\ under_loop hex w' t = true /\ last_ok hex w u ip /\
    (s = u ++ t /\ fp = [] \/ exists v, s = u ++ b "." ++ v ++ t /\ part (digit_of hex) fp v).
Proof.
  induction s as [|c r IH]; intros w ip fp t R U.
  - injection R as <- <- <-. exists [], w. assert (Hw : w <> SawUnder) by (apply (under_rest hex w []); [exact U|discriminate]).
    split; [exact Hw|]. split; [exact U|]. split; [now apply last_none|]. left. now split.
  - cbn [read_digits] in R. destruct (c =? 95) eqn:E95.
    + apply N.eqb_eq in E95. subst c. cbn [under_loop] in U. replace (base_digit hex 95) with false in U by (destruct hex; reflexivity). cbn in U.
      destruct w; try discriminate. destruct (IH SawUnder ip fp t R U) as (u & w' & Hw & Ut & Lo & Fr). exists (95 :: u), w'. split; [exact Hw|]. split; [exact Ut|]. split; [now apply last_under|].
      destruct Fr as [(-> & ->)|(v & -> & Pv)]; [left; now split|right; exists v; now split].
    + destruct (c =? 46) eqn:E46; [|destruct (base_digit hex c) eqn:Ed].
      * apply N.eqb_eq in E46. subst c.
        assert (N46 : ~ digit_of hex 46) by (intros X; apply digit_of_not in X; lia).
        assert (Hw : w <> SawUnder) by (apply (under_rest hex w (46 :: r)); [exact U|]; intros c r' Q; injection Q as <- _; split; [exact N46|lia]).
        rewrite under_other in U by (auto; lia). destruct (back_fraction hex r SawOther ip fp t R U) as (-> & v & w' & -> & Lo & Hw' & Ut).
        exists [], w'. split; [exact Hw'|]. split; [exact Ut|]. split; [now apply last_none|]. right. exists v. split; [reflexivity|exact Lo].
      * destruct (read_digits hex false r) as [[ip' fp'] t'] eqn:R'. injection R as <- <- <-. apply base_digit_iff in Ed. rewrite under_digit in U by exact Ed.
        destruct (IH SawDigit ip' fp' t' eq_refl U) as (u & w' & Hw & Ut & Lo & Fr). exists (c :: u), w'. split; [exact Hw|]. split; [exact Ut|]. split; [now apply last_digit|].
        destruct Fr as [(-> & ->)|(v & -> & Pv)]; [left; now split|right; exists v; now split].
      * injection R as <- <- <-. apply N.eqb_neq in E95.
        assert (Hw : w <> SawUnder).
        { apply (under_rest hex w (c :: r)); [exact U|]. intros c' r' Q. injection Q as <- _. split; [|exact E95]. intros X. apply base_digit_iff in X. congruence. }
        exists [], w. split; [exact Hw|]. split; [exact U|]. split; [now apply last_none|]. left. now split.
Qed.
(** The mantissa behind a prefix that counts as a digit, and without prefix. *)
Lemma back_mantissa hex s w ip fp t : read_digits hex false s = (ip, fp, t) -> under_loop hex w s = true -> ip ++ fp <> [] -> w = SawNone \/ w = SawDigit ->
  exists p u w', s = p ++ u ++ t /\ mantissa (digit_of hex) ip fp u /\ (p = [] \/ w = SawDigit /\ p = b "_" /\ ip <> []) /\ w' <> SawUnder /\ under_loop hex w' t = true.
Proof.
  intros R U Ne Hw. destruct (back_digits hex s w ip fp t R U) as (u & w' & Hw' & Ut & Lo & Fr).
  assert (P : exists p u', u = p ++ u' /\ part (digit_of hex) ip u' /\ (p = [] \/ w = SawDigit /\ p = b "_" /\ ip <> [])).
  { destruct Hw as [-> | ->]; cbn in Lo; [exists [], u; auto|]. destruct Lo as [Lo|(t' & -> & G)]; [exists [], u; auto|].
    exists (b "_"), t'. split; [reflexivity|]. split; [now right|]. right. split; [reflexivity|]. split; [reflexivity|]. now apply grouped_digits in G. }
  destruct P as (p & u' & -> & Pu & Pp). destruct Fr as [(-> & ->)|(v & -> & Pv)].
  - exists p, u', w'. split; [now rewrite <- app_assoc|]. split; [|now split]. rewrite app_nil_r in Ne. destruct Pu as [(-> & _)|G]; [congruence|]. now apply ma_int.
  - exists p, (u' ++ b "." ++ v), w'. split; [now rewrite <- !app_assoc|]. split; [|now split]. now apply ma_point.
Qed.

Lemma back_exp_digits hex : forall s w ds, read_exp_digits s = (ds, []) -> under_loop hex w s = true -> last_ok hex w s ds /\ Forall decimal_digit ds.
Proof.
  induction s as [|c r IH]; intros w ds R U.
  - injection R as <-. split; [|constructor]. apply last_none. apply (under_rest hex w []); [exact U|discriminate].
  - cbn [read_exp_digits] in R. destruct (is_digit c) eqn:Ed.
    + destruct (read_exp_digits r) as [ds' t'] eqn:R'. injection R as <- ->. apply is_digit_iff in Ed. assert (Dc : digit_of hex c) by now apply decimal_of.
      rewrite under_digit in U by exact Dc. destruct (IH SawDigit ds' eq_refl U) as (Lo & D). split; [now apply last_digit|now constructor].
    + destruct (c =? 95) eqn:E95; [|discriminate]. apply N.eqb_eq in E95. subst c. cbn [under_loop] in U. replace (base_digit hex 95) with false in U by (destruct hex; reflexivity). cbn in U.
      destruct w; try discriminate. destruct (IH SawUnder ds R U) as (Lo & D). split; [now apply last_under|exact D].
Qed.
Lemma grouped_strengthen (P Q : N -> Prop) ds t : grouped P ds t -> Forall Q ds -> grouped Q ds t.
Proof.
  induction 1 as [d Hd|d ds t Hd G IH|d ds t Hd G IH]; intros F; pose proof (Forall_inv F); apply Forall_inv_tail in F; [now apply gr_one|apply gr_next; auto|apply gr_under; auto].
Qed.
Lemma lower_e c : lower_ascii c = 101 -> c = 101 \/ c = 69.
Proof. unfold lower_ascii. destruct ((65 <=? c) && (c <=? 90)) eqn:E; lia. Qed.
Lemma lower_p c : lower_ascii c = 112 -> c = 112 \/ c = 80.
Proof. unfold lower_ascii. destruct ((65 <=? c) && (c <=? 90)) eqn:E; lia. Qed.
Lemma back_exp hex s w k : read_exp hex s = Some (k, []) -> under_loop hex w s = true -> w <> SawUnder -> (s = [] /\ hex = false) \/ exists e, written_exp hex s e.
Proof.
  intros R U Hw. destruct s as [|c r]; [left; destruct hex; [discriminate|now split]|]. unfold read_exp in R.
  destruct (lower_ascii c =? (if hex then 112 else 101)) eqn:El; [|destruct hex; discriminate]. right.
  assert (Hc : exp_letter hex c) by (apply N.eqb_eq in El; unfold exp_letter; destruct hex; [now apply lower_p|now apply lower_e]).
  destruct (exp_letter_not hex c Hc) as (N1 & N2 & _). rewrite under_other in U by assumption.
  assert (Core : forall u w0, w0 = SawOther -> under_loop hex w0 u = true ->
    (exists neg : bool, match u with d :: _ => if is_digit d then let (ds, t) := read_exp_digits u in let e := Z.of_N (cap_digits 0 ds) in Some ((if neg then - e else e)%Z, t) else None | [] => None end = Some (k, [])) ->
    exists ds, grouped decimal_digit ds u).
  { intros u w0 -> Uu (neg & Q). destruct u as [|d u]; [discriminate|]. destruct (is_digit d) eqn:Ed; [|discriminate].
    destruct (read_exp_digits (d :: u)) as [ds t] eqn:Rd. injection Q as _ ->. destruct (back_exp_digits hex _ _ _ Rd Uu) as (Lo & D). cbn in Lo. destruct Lo as [(_ & Q)|G]; [discriminate|].
    exists ds. now apply (grouped_strengthen (digit_of hex)). }
  assert (Fin : forall sg u ds, grouped decimal_digit ds u -> sg = [] \/ sg = b "+" \/ sg = b "-" -> exists e, written_exp hex (c :: sg ++ u) e).
  { intros sg u ds G Hs. unfold written_exp, exp_letter in *. destruct Hs as [-> | [-> | ->]]; destruct hex; eexists;
      solve [apply (wx_pos _ _ c [] ds u); tauto|apply (wx_pos _ _ c (b "+") ds u); tauto|apply (wx_neg _ _ c ds u); tauto]. }
  destruct r as [|d u]; [discriminate|].
  destruct (N.eq_dec d 43) as [-> |N43]; [|destruct (N.eq_dec d 45) as [-> |N45]].
  - rewrite under_other in U by (try discriminate; try lia; intros X; apply digit_of_not in X; lia).
    destruct (Core u SawOther eq_refl U (ex_intro _ false R)) as (ds & G). apply (Fin (b "+") u ds G). tauto.
  - rewrite under_other in U by (try discriminate; try lia; intros X; apply digit_of_not in X; lia).
    destruct (Core u SawOther eq_refl U (ex_intro _ true R)) as (ds & G). apply (Fin (b "-") u ds G). tauto.
  - destruct (Core (d :: u) SawOther eq_refl U) as (ds & G).
    + exists false. clear U Core Fin. destruct d as [|p]; [exact R|]. repeat (destruct p as [p|p|]; try exact R; try (exfalso; lia)).
    + apply (Fin [] (d :: u) ds G). tauto.
Qed.
Lemma under_plain hex : forall s w, ~ In 95 s -> w <> SawUnder -> under_loop hex w s = true.
Proof.
  induction s as [|c r IH]; intros w H Hw; [destruct w; try reflexivity; now destruct Hw|].
  assert (Nc : c <> 95) by (intros ->; apply H; now left). assert (Hr : ~ In 95 r) by (intros X; apply H; now right).
  cbn [under_loop]. destruct (base_digit hex c); [apply IH; [exact Hr|discriminate]|]. rewrite (proj2 (N.eqb_neq c 95) Nc). destruct w; try (apply IH; [exact Hr|discriminate]). now destruct Hw.
Qed.
Lemma drop_sign_inv s neg u : drop_sign s = (neg, u) -> exists sg, s = sg ++ u /\ sign_text sg (if neg : bool then -1 else 1)%R.
Proof.
  unfold drop_sign. intros H.
  assert (Q : s = 43 :: u /\ neg = false \/ s = 45 :: u /\ neg = true \/ s = u /\ neg = false).
  { destruct s as [|c r]; [injection H as <- <-; tauto|]. destruct (N.eq_dec c 43) as [-> |N43]; [injection H as <- <-; tauto|]. destruct (N.eq_dec c 45) as [-> |N45]; [injection H as <- <-; tauto|].
    right. right. destruct c as [|p]; [injection H as <- <-; tauto|]. repeat (destruct p as [p|p|]; try (injection H as <- <-; tauto); try (exfalso; lia)). }
  destruct Q as [(-> & ->)|[(-> & ->)|(-> & ->)]]; [exists (b "+")|exists (b "-")|exists []]; (split; [reflexivity|constructor]).
Qed.
Lemma hex_prefix_inv u v : hex_prefix u = Some v -> exists x, u = 48 :: x :: v /\ lower_ascii x = 120.
Proof.
  intros H. destruct u as [|a [|c [|d r]]]; try discriminate.
  - exfalso. revert H. unfold hex_prefix. destruct a as [|p]; [discriminate|]. repeat (destruct p as [p|p|]; try discriminate).
  - exfalso. revert H. unfold hex_prefix. destruct a as [|p]; [discriminate|]. repeat (destruct p as [p|p|]; try discriminate).
  - destruct (N.eq_dec a 48) as [-> |Na].
    + unfold hex_prefix in H. destruct (lower_ascii c =? 120) eqn:E; [|discriminate]. injection H as <-. exists c. split; [reflexivity|now apply N.eqb_eq].
    + exfalso. revert H. unfold hex_prefix. destruct a as [|p]; [discriminate|]. repeat (destruct p as [p|p|]; try discriminate; try (exfalso; lia)).
Qed.

(** Whatever readFloat accepts is a numeral. *)
Lemma numeral_read t y : read_float t = Some y -> exists x e, numeral t x e.
Proof.
  unfold read_float. destruct (drop_sign t) as [neg u] eqn:Ds. destruct (drop_sign_inv _ _ _ Ds) as (sg & Et & Sg). intros R.
  assert (Sub : forall v c, (exists p, u = p ++ v) -> In c v -> In c t).
  { intros v c (p & ->) I. rewrite Et. apply in_app_iff. right. apply in_app_iff. now right. }
  destruct (hex_prefix u) as [v|] eqn:Hp.
  - destruct (hex_prefix_inv u v Hp) as (x & Eu & Lx). destruct (read_digits true false v) as [[ip fp] z] eqn:Rd.
    destruct (ip ++ fp) as [|d ds] eqn:Ed; [discriminate|].
    destruct (read_exp true z) as [[k [|? ?]]|] eqn:Rx; try discriminate.
    destruct (has_byte 95 t && negb (underscore_ok t)) eqn:Ub; [discriminate|]. clear R y.
    assert (U : under_loop true SawDigit v = true).
    { apply andb_false_iff in Ub as [Ub|Ub].
      - apply under_plain; [|discriminate]. intros I. unfold has_byte in Ub. rewrite <- not_true_iff_false in Ub. apply Ub. apply existsb_exists. exists 95. split; [|reflexivity].
        apply (Sub v); [exists [48; x]; exact Eu|exact I].
      - apply negb_false_iff in Ub. unfold underscore_ok in Ub. rewrite Ds in Ub. cbn [snd] in Ub. cbv zeta in Ub. rewrite Eu in Ub. cbn match in Ub. rewrite Lx in Ub. exact Ub. }
    destruct (back_mantissa true v SawDigit ip fp z Rd U) as (p & q & w' & Ev & M & Pp & Hw & Uz); [rewrite Ed; discriminate|now right|].
    destruct (back_exp true z w' k Rx Uz Hw) as [(_ & Q)|(e & X)]; [discriminate|].
    do 2 eexists. rewrite Et, Eu, Ev. apply (nu_hexadecimal sg _ x p ip fp q z e Sg); [now apply lower_x|destruct Pp as [->|(_ & -> & Ni)]; [now left|right; now split]|exact M|exact X].
  - destruct (read_digits false false u) as [[ip fp] z] eqn:Rd.
    destruct (ip ++ fp) as [|d ds] eqn:Ed; [discriminate|].
    destruct (read_exp false z) as [[k [|? ?]]|] eqn:Rx; try discriminate.
    destruct (has_byte 95 t && negb (underscore_ok t)) eqn:Ub; [discriminate|]. clear R y.
    assert (U : under_loop false SawNone u = true).
    { apply andb_false_iff in Ub as [Ub|Ub].
      - apply under_plain; [|discriminate]. intros I. unfold has_byte in Ub. rewrite <- not_true_iff_false in Ub. apply Ub. apply existsb_exists. exists 95. split; [|reflexivity].
        apply (Sub u); [now exists []|exact I].
      - apply negb_false_iff in Ub. unfold underscore_ok in Ub. rewrite Ds in Ub. cbn [snd] in Ub. cbv zeta in Ub.
        assert (Q : forall c r, u = 48 :: c :: r -> (lower_ascii c =? 98) || (lower_ascii c =? 111) || (lower_ascii c =? 120) = false).
        { intros c r ->. destruct ((lower_ascii c =? 98) || (lower_ascii c =? 111) || (lower_ascii c =? 120)) eqn:E; [|reflexivity]. exfalso.
          assert (Hc : c = 98 \/ c = 66 \/ c = 111 \/ c = 79 \/ c = 120 \/ c = 88) by (unfold lower_ascii in E; destruct ((65 <=? c) && (c <=? 90)) eqn:E'; lia).
          assert (Z : z = c :: r).
          { cbn [read_digits] in Rd. change (48 =? 95) with false in Rd. change (48 =? 46) with false in Rd. change (base_digit false 48) with true in Rd. cbn iota in Rd.
            assert (St : read_digits false false (c :: r) = ([], [], c :: r)) by (apply read_stop; intros c' r' Q; injection Q as <- _; unfold digit_of, decimal_digit; lia).
            cbn [read_digits] in St. rewrite St in Rd. now injection Rd as _ _ <-. }
          rewrite Z in Rx. unfold read_exp in Rx. destruct (lower_ascii c =? 101) eqn:El; [|discriminate]. unfold lower_ascii in El. destruct ((65 <=? c) && (c <=? 90)) eqn:E'; lia. }
        destruct u as [|a [|c r]]; [exact Ub| |].
        + destruct a as [|pp]; [exact Ub|]. repeat (destruct pp as [pp|pp|]; try exact Ub).
        + destruct (N.eq_dec a 48) as [-> |Na]; [rewrite (Q c r eq_refl) in Ub; exact Ub|]. clear Q.
          destruct a as [|pp]; [exact Ub|]. repeat (destruct pp as [pp|pp|]; try exact Ub; try (exfalso; lia)). }
    destruct (back_mantissa false u SawNone ip fp z Rd U) as (p & q & w' & Ev & M & Pp & Hw & Uz); [rewrite Ed; discriminate|now left|].
    destruct Pp as [-> |(Q & _)]; [|discriminate]. cbn [app] in Ev.
    destruct (back_exp false z w' k Rx Uz Hw) as [(-> & _)|(e & X)].
    + exists (((if neg then -1 else 1) * IZR (digits_value (ip ++ fp)) * powerRZ 10 (0 - Z.of_nat (length fp))))%R, 0%Z. rewrite Et, Ev. apply nu_decimal; [exact Sg|exact M|left; now split].
    + do 2 eexists. rewrite Et, Ev. apply (nu_decimal sg _ ip fp q z e Sg M). now right.
Qed.
