(** ParseFloat on decimal numbers gives the nearest double. *)
From Verif Require Import Bytes GoStrconv GoTime GoFloat NumSpec FloatProofs.
From Coq Require Import Reals Lra ZifyBool ZifyN ZifyNat.

Definition dig (c : N) : Prop := 48 <= c <= 57.
Lemma is_digit_iff c : is_digit c = true <-> dig c.
Proof. unfold is_digit, dig. rewrite andb_true_iff, !N.leb_le. tauto. Qed.
Lemma span_dig d z : Forall dig d -> (forall c r, z = c :: r -> ~ dig c) -> span_digits (d ++ z) = (d, z).
Proof.
  intros D Nd. induction D as [|c d Hc Hd IH]; cbn [app].
  - destruct z as [|c r]; [reflexivity|]. cbn. destruct (is_digit c) eqn:E; [apply is_digit_iff in E; now destruct (Nd c r)|reflexivity].
  - cbn. rewrite IH. now rewrite (proj2 (is_digit_iff c) Hc).
Qed.

Lemma digits_value_nonneg ds : Forall dig ds -> (0 <= digits_value ds)%Z.
Proof.
  induction 1 as [|c ds Hc H IH]; [reflexivity|]. cbn [digits_value]. unfold dig in Hc.
  assert (0 < 10 ^ Z.of_nat (length ds))%Z by (apply Z.pow_pos_nonneg; lia). nia.
Qed.
Lemma digits_val_acc ds : Forall dig ds -> forall a, Z.of_N (fold_left (fun a c => a * 10 + digit_val c) ds a) = (Z.of_N a * 10 ^ Z.of_nat (length ds) + digits_value ds)%Z.
Proof.
  induction 1 as [|c ds Hc H IH]; intros a; cbn [fold_left digits_value length]; [cbn; lia|].
  rewrite IH. rewrite Nat2Z.inj_succ, Z.pow_succ_r by lia. unfold digit_val, dig in *. rewrite N2Z.inj_add, N2Z.inj_mul, N2Z.inj_sub by lia.
  change (Z.of_N 10) with 10%Z. change (Z.of_N 48) with 48%Z. ring.
Qed.
Lemma digits_val_spec ds : Forall dig ds -> Z.of_N (digits_val ds) = digits_value ds.
Proof. intros H. unfold digits_val. rewrite digits_val_acc by auto. cbn. lia. Qed.
Lemma cap_spec ds : Forall dig ds -> forall a, (Z.of_N a * 10 ^ Z.of_nat (length ds) + digits_value ds < 100000)%Z ->
  Z.of_N (cap_digits a ds) = (Z.of_N a * 10 ^ Z.of_nat (length ds) + digits_value ds)%Z.
Proof.
  induction 1 as [|c ds Hc H IH]; intros a L; cbn [cap_digits digits_value length] in *; [cbn; lia|].
  rewrite Nat2Z.inj_succ, Z.pow_succ_r in * by lia. pose proof (digits_value_nonneg ds H).
  assert (P : (0 < 10 ^ Z.of_nat (length ds))%Z) by (apply Z.pow_pos_nonneg; lia).
  unfold dig in Hc. replace (a <? 10000) with true.
  - rewrite IH; unfold digit_val; rewrite N2Z.inj_add, N2Z.inj_mul, N2Z.inj_sub by lia; change (Z.of_N 10) with 10%Z; change (Z.of_N 48) with 48%Z; [ring|].
    set (K := (10 ^ Z.of_nat (length ds))%Z) in *. nia.
  - symmetry. apply N.ltb_lt. destruct (N.lt_ge_cases a 10000) as [Q|Q]; [exact Q|]. exfalso. set (K := (10 ^ Z.of_nat (length ds))%Z) in *. nia.
Qed.

Lemma parse_exp_spec ex e : exponent_text ex e -> (Z.abs e < 100000)%Z -> parse_exp ex = Some (e, []).
Proof.
  assert (Core : forall (neg : bool) ds, Forall dig ds -> ds <> [] -> (digits_value ds < 100000)%Z ->
    match span_digits ds with
    | ([], _) => None
    | (ds', t) => let e0 := Z.of_N (cap_digits 0 ds') in Some ((if neg then - e0 else e0)%Z, t)
    end = Some ((if neg then - digits_value ds else digits_value ds)%Z, [])).
  { intros neg ds D Ne L. pose proof (span_dig ds [] D ltac:(discriminate)) as Sp. rewrite app_nil_r in Sp. rewrite Sp.
    destruct ds as [|c ds]; [congruence|]. cbv zeta. rewrite (cap_spec _ D 0); [|exact L]. reflexivity. }
  intros X L. destruct X as [|c sg ds Hc Hs D Ne|c ds Hc D Ne].
  - reflexivity.
  - assert (E : lower_ascii c =? 101 = true) by (destruct Hc as [-> | ->]; reflexivity).
    assert (L' : (digits_value ds < 100000)%Z) by lia. specialize (Core false ds D Ne L').
    unfold parse_exp. rewrite E. destruct Hs as [-> | ->]; cbn [app].
    + destruct ds as [|d ds]; [congruence|]. assert (Hd : d <> 43 /\ d <> 45) by (apply Forall_inv in D; unfold dig in D; lia).
      destruct d as [|p]; [apply Forall_inv in D; unfold dig in D; lia|]. repeat (destruct p as [p|p|]; try exact Core; try (exfalso; lia)).
    + exact Core.
  - assert (E : lower_ascii c =? 101 = true) by (destruct Hc as [-> | ->]; reflexivity).
    assert (L' : (digits_value ds < 100000)%Z) by lia. specialize (Core true ds D Ne L').
    unfold parse_exp. rewrite E. exact Core.
Qed.

Lemma exponent_hd ex e : exponent_text ex e -> forall c r, ex = c :: r -> c = 101 \/ c = 69.
Proof. intros X c r E. destruct X as [|c' sg ds Hc|c' ds Hc]; [discriminate| |]; injection E as -> _; exact Hc. Qed.

Definition signed (neg : bool) (s : bytes) : option (bool * N * Z) :=
  let (ip, s) := span_digits s in
  let (fp, s) := match s with 46 :: r => span_digits r | _ => ([], s) end in
  match ip ++ fp with
  | [] => None
  | ds => do (e, s) <- parse_exp s;;
          match s with [] => Some (neg, digits_val ds, (e - Z.of_nat (length fp))%Z) | _ => None end
  end.
Lemma parse_decimal_head c r : dig c \/ c = 46 -> parse_decimal (c :: r) = signed false (c :: r).
Proof.
  intros Hc. unfold dig in Hc. destruct c as [|p]; [reflexivity|]. repeat (destruct p as [p|p|]; try reflexivity; try (exfalso; lia)).
Qed.
Lemma parse_decimal_plus r : parse_decimal (43 :: r) = signed false r.
Proof. reflexivity. Qed.
Lemma parse_decimal_minus r : parse_decimal (45 :: r) = signed true r.
Proof. reflexivity. Qed.

Lemma parse_unsigned neg ip dot fp ex e : Forall dig ip -> Forall dig fp -> ip ++ fp <> [] ->
  (dot = [] /\ fp = [] \/ dot = b ".") -> exponent_text ex e -> (Z.abs e < 100000)%Z ->
  signed neg (ip ++ dot ++ fp ++ ex) = Some (neg, digits_val (ip ++ fp), (e - Z.of_nat (length fp))%Z).
Proof.
  intros D1 D2 Ne Dt X L. unfold signed. pose proof (exponent_hd _ _ X) as Hx. pose proof (parse_exp_spec _ _ X L) as Px.
  destruct Dt as [(-> & ->)| ->].
  - cbn [app]. rewrite app_nil_r in *. rewrite span_dig; [|exact D1|intros c r E; apply Hx in E; unfold dig; lia].
    assert (M : (match ex with 46 :: r => span_digits r | _ => ([], ex) end) = ([], ex)).
    { destruct ex as [|c r]; [reflexivity|]. destruct (Hx c r eq_refl) as [-> | ->]; reflexivity. }
    rewrite M, app_nil_r. destruct ip as [|c ip]; [congruence|]. rewrite Px. reflexivity.
  - rewrite span_dig; [|exact D1|intros c r E; injection E as <- _; unfold dig; lia]. cbn [app b].
    change (b "." ++ fp ++ ex) with (46 :: fp ++ ex). cbn match.
    rewrite span_dig; [|exact D2|intros c r E; apply Hx in E; unfold dig; lia].
    destruct (ip ++ fp) as [|c l]; [congruence|]. rewrite Px. reflexivity.
Qed.

Lemma no_byte c s : ~ In c s -> has_byte c s = false.
Proof. intros H. destruct (has_byte c s) eqn:E; [|reflexivity]. unfold has_byte in E. apply existsb_exists in E as (d & I & Ed). apply N.eqb_eq in Ed. subst. contradiction. Qed.

Lemma head_cases ip dot fp ex e : Forall dig ip -> Forall dig fp -> ip ++ fp <> [] ->
  (dot = [] /\ fp = [] \/ dot = b ".") -> exponent_text ex e ->
  exists c r, ip ++ dot ++ fp ++ ex = c :: r /\ (dig c \/ c = 46).
Proof.
  intros D1 D2 Ne Dt X. destruct ip as [|c ip].
  - cbn [app] in *. destruct Dt as [(-> & ->)| ->]; [congruence|]. do 2 eexists. split; [reflexivity|]. now right.
  - do 2 eexists. split; [reflexivity|]. left. now apply Forall_inv in D1.
Qed.

Lemma not_special c r : dig c \/ c = 46 ->
  parse_special (c :: r) = None /\ parse_special (43 :: c :: r) = None /\ parse_special (45 :: c :: r) = None.
Proof.
  intros H.
  assert (L : lower_ascii c = c) by (unfold lower_ascii, dig in *; destruct ((65 <=? c) && (c <=? 90)) eqn:E; [lia|reflexivity]).
  assert (B : forall l d t, c <> d -> beqb (c :: l) (d :: t) = false).
  { intros l d t Hn. destruct (beqb (c :: l) (d :: t)) eqn:E; [|reflexivity]. apply beqb_eq in E. congruence. }
  assert (I : forall l, beqb (c :: l) (b "inf") || beqb (c :: l) (b "infinity") = false).
  { intros l. change (b "inf") with (105 :: b "nf"). change (b "infinity") with (105 :: b "nfinity"). rewrite !B; [reflexivity|unfold dig in H; lia|unfold dig in H; lia]. }
  unfold parse_special. cbn [map]. rewrite L. change (lower_ascii 43) with 43. change (lower_ascii 45) with 45. cbv zeta. rewrite !I.
  split; [|now split]. change (b "nan") with (110 :: b "an"). rewrite B by (unfold dig in H; lia).
  unfold dig in H. destruct c as [|p]; [reflexivity|]. repeat (destruct p as [p|p|]; try reflexivity; try (exfalso; lia)).
Qed.

Lemma decimal_chars t r : denotes_number t r -> Forall (fun c => dig c \/ In c (b "+-.eE")) t.
Proof.
  intros D. destruct D as [sg s ip dot fp ex e Sg D1 D2 Ne Dt X L].
  assert (Ds : forall ds, Forall dig ds -> Forall (fun c => dig c \/ In c (b "+-.eE")) ds) by (intros ds; apply Forall_impl; auto).
  repeat rewrite Forall_app. repeat split; auto.
  - destruct Sg; repeat constructor; right; cbn; tauto.
  - destruct Dt as [(-> & _)| ->]; repeat constructor; right; cbn; tauto.
  - destruct X as [|c sg' ds Hc Hs D Ne'|c ds Hc D Ne'].
    + constructor.
    + constructor; [right; destruct Hc as [-> | ->]; cbn; tauto|]. apply Forall_app. split; auto. destruct Hs as [-> | ->]; repeat constructor; right; cbn; tauto.
    + constructor; [right; destruct Hc as [-> | ->]; cbn; tauto|]. apply Forall_app. split; auto. repeat constructor; right; cbn; tauto.
Qed.

(** ** The result of ParseFloat *)
Lemma parse_float_decimal other t r : denotes_number t r ->
  exists f neg, rounds f r neg /\ parse_float other t = if is_inf f then None else Some f.
Proof.
  intros D. pose proof (decimal_chars t r D) as Ch.
  assert (Nb : forall c, ~ (dig c \/ In c (b "+-.eE")) -> has_byte c t = false).
  { intros c Hc. apply no_byte. intros I. apply Hc. rewrite Forall_forall in Ch. now apply Ch. }
  unfold parse_float. rewrite !Nb by (unfold dig; cbn; lia). cbn [orb].
  destruct D as [sg s ip dot fp ex e Sg D1 D2 Ne Dt X L].
  destruct (head_cases ip dot fp ex e D1 D2 Ne Dt X) as (c & rr & Eh & Hc).
  destruct (not_special c rr Hc) as (S1 & S2 & S3).
  pose proof (fun neg => parse_unsigned neg ip dot fp ex e D1 D2 Ne Dt X L) as U.
  assert (Dd : Forall dig (ip ++ fp)) by (apply Forall_app; now split).
  destruct Sg.
  - cbn [app]. exists (f_of_decimal false (digits_val (ip ++ fp)) (e - Z.of_nat (length fp))), false.
    rewrite <- digits_val_spec by exact Dd. split; [apply (decimal_rounds false)|]. specialize (U false). rewrite Eh in *. rewrite S1.
    rewrite parse_decimal_head by exact Hc. rewrite U. reflexivity.
  - exists (f_of_decimal false (digits_val (ip ++ fp)) (e - Z.of_nat (length fp))), false.
    rewrite <- digits_val_spec by exact Dd. split; [apply (decimal_rounds false)|]. specialize (U false). rewrite Eh in *.
    change (b "+" ++ c :: rr) with (43 :: c :: rr). rewrite S2. rewrite parse_decimal_plus. rewrite U. reflexivity.
  - exists (f_of_decimal true (digits_val (ip ++ fp)) (e - Z.of_nat (length fp))), true.
    rewrite <- digits_val_spec by exact Dd. split; [apply (decimal_rounds true)|]. specialize (U true). rewrite Eh in *.
    change (b "-" ++ c :: rr) with (45 :: c :: rr). rewrite S3. rewrite parse_decimal_minus. rewrite U. reflexivity.
Qed.

(** In range: the nearest double; out of range: an error. *)
Lemma parse_float_exact other t r : denotes_number t r ->
  (in_double_range r -> exists f, parse_float other t = Some f /\ finite_double f /\ double_value f = nearest r) /\
  (~ in_double_range r -> parse_float other t = None).
Proof.
  intros D. destruct (parse_float_decimal other t r D) as (f & neg & (V & H1 & H2) & ->). split; intros R.
  - destruct (H1 R) as (E & F). exists f. split; [|split; [now split|exact E]]. destruct f; try reflexivity; discriminate.
  - now rewrite (H2 R).
Qed.

(** A text denotes one number only. *)
Lemma decimal_parse t r : denotes_number t r -> exists neg m e, parse_decimal t = Some (neg, m, e) /\
  r = ((if neg : bool then -1 else 1) * IZR (Z.of_N m) * powerRZ 10 e)%R.
Proof.
  intros D. destruct D as [sg s ip dot fp ex e Sg D1 D2 Ne Dt X L].
  destruct (head_cases ip dot fp ex e D1 D2 Ne Dt X) as (c & rr & Eh & Hc).
  pose proof (fun neg => parse_unsigned neg ip dot fp ex e D1 D2 Ne Dt X L) as U.
  assert (Dd : Forall dig (ip ++ fp)) by (apply Forall_app; now split). rewrite <- (digits_val_spec _ Dd).
  destruct Sg.
  - cbn [app]. specialize (U false). rewrite Eh in *. rewrite parse_decimal_head, U by exact Hc. do 3 eexists. split; [reflexivity|reflexivity].
  - specialize (U false). rewrite Eh in *. change (b "+" ++ c :: rr) with (43 :: c :: rr). rewrite parse_decimal_plus, U. do 3 eexists. split; [reflexivity|reflexivity].
  - specialize (U true). rewrite Eh in *. change (b "-" ++ c :: rr) with (45 :: c :: rr). rewrite parse_decimal_minus, U. do 3 eexists. split; [reflexivity|reflexivity].
Qed.
Lemma denotes_number_fun t r r' : denotes_number t r -> denotes_number t r' -> r = r'.
Proof.
  intros D D'. destruct (decimal_parse _ _ D) as (n & m & e & P & ->). destruct (decimal_parse _ _ D') as (n' & m' & e' & P' & ->).
  rewrite P in P'. injection P' as -> -> ->. reflexivity.
Qed.
