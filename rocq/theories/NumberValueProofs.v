(** The doubles that ParseFloat gives (C137). *)
From Verif Require Import Bytes GoStrconv GoTime GoFloat GoFloatRead NumSpec NumProofs FloatProofs NumberTextSpec NumberTextProofs.
From Coq Require Import Reals Lra ZifyBool ZifyN ZifyNat.
From Flocq Require Import Core BinarySingleNaN.

#[local] Instance prec_pos : Prec_gt_0 53 := eq_refl.
#[local] Instance prec_small : Prec_lt_emax 53 1024 := eq_refl.

Lemma nearest_zero : nearest 0 = 0%R.
Proof. apply round_0; apply valid_rnd_N. Qed.
Lemma binary_rounds neg m e : rounds (f_of_binary neg m e) (exact_value neg true m e) neg.
Proof.
  unfold f_of_binary, exact_value. destruct m as [|p].
  - cbn [Z.of_N]. replace (if neg then - 0 else 0)%Z with 0%Z by (destruct neg; reflexivity). cbn [SpecFloat.binary_normalize].
    replace ((if neg then -1 else 1) * 0 * powerRZ 2 e)%R with 0%R by ring.
    apply rounds_intro; [reflexivity|]. rewrite nearest_zero, Rabs_R0, Rlt_bool_true by apply bpow_gt_0. repeat split.
  - cbn [Z.of_N].
    assert (N1 : SpecFloat.binary_normalize 53 1024 (if neg then - Z.pos p else Z.pos p) e neg = SpecFloat.binary_round 53 1024 neg p e) by (destruct neg; reflexivity).
    rewrite N1, round_equiv. destruct (binary_round_correct 53 1024 _ _ mode_NE neg p e) as (V & H). apply rounds_intro; [exact V|]. cbv zeta in H. rewrite nearest_eq in H.
    replace (F2R (Float radix2 (cond_Zopp neg (Z.pos p)) e)) with ((if neg then -1 else 1) * IZR (Z.pos p) * powerRZ 2 e)%R in H; [exact H|].
    unfold F2R. cbn [Fnum Fexp]. rewrite bpow_powerRZ. change (IZR radix2) with 2%R. destruct neg; cbn [cond_Zopp]; [rewrite opp_IZR|]; ring.
Qed.
Lemma read_rounds neg (hex : bool) m e : rounds (if hex then f_of_binary neg m e else f_of_decimal neg m e) (exact_value neg hex m e) neg.
Proof. destruct hex; [apply binary_rounds|apply decimal_rounds]. Qed.

Lemma numeral_not_special t x e : numeral t x e -> parse_special t = None.
Proof.
  intros Nu.
  assert (K : exists sg s c r, t = sg ++ c :: r /\ sign_text sg s /\ (dig c \/ c = 46)).
  { destruct Nu as [sg s ip fp t ex e Sg M X|sg s x u ip fp t ex e Sg Hx Hu M X].
    - destruct (mantissa_head _ _ _ _ M) as (c & r & -> & Hc). exists sg, s, c, (r ++ ex). repeat split; auto.
    - exists sg, s, 48, (x :: u ++ t ++ ex). repeat split; auto. left. unfold dig. lia. }
  destruct K as (sg & s & c & r & -> & Sg & Hc). destruct (not_special c r Hc) as (S1 & S2 & S3). destruct Sg; assumption.
Qed.

(** In range: the nearest double; out of range: an error. *)
Lemma numeral_value t x e : numeral t x e -> (Z.abs e < 100000)%Z ->
  (in_double_range x -> exists f, go_parse_float t = Some f /\ finite_double f /\ double_value f = nearest x) /\
  (~ in_double_range x -> go_parse_float t = None).
Proof.
  intros Nu L. destruct (read_numeral t x e Nu L) as (neg & hex & m & k & R & ->).
  unfold go_parse_float, read_value. rewrite (numeral_not_special t _ e Nu), R. destruct (read_rounds neg hex m k) as (V & H1 & H2).
  set (f := if hex then f_of_binary neg m k else f_of_decimal neg m k) in *. split; intros Rg.
  - destruct (H1 Rg) as (E & F). exists f. split; [|split; [now split|exact E]]. destruct f; try reflexivity; discriminate.
  - now rewrite (H2 Rg).
Qed.

Lemma small_lower : small_letter = lower_ascii. Proof. reflexivity. Qed.
Lemma lower_sign c d : lower_ascii c = d -> d = 43 \/ d = 45 -> c = d.
Proof. unfold lower_ascii. destruct ((65 <=? c) && (c <=? 90)) eqn:E; lia. Qed.
Lemma special_is_word t f : parse_special t = Some f -> number_word t.
Proof.
  unfold parse_special. cbv zeta. intros H.
  assert (Inf : forall l, beqb l (b "inf") || beqb l (b "infinity") = true -> l = b "inf" \/ l = b "infinity").
  { intros l E. apply orb_prop in E as [E|E]; apply beqb_eq in E; auto. }
  destruct t as [|c r]; [discriminate|]. cbn [map] in H. remember (lower_ascii c) as a eqn:Ea. symmetry in Ea.
  destruct (N.eq_dec a 43) as [Q|N1]; [|destruct (N.eq_dec a 45) as [Q|N2]].
  - rewrite Q in *. apply lower_sign in Ea; [|tauto]. subst c. destruct (beqb (map lower_ascii r) (b "inf") || beqb (map lower_ascii r) (b "infinity")) eqn:E; [|discriminate].
    apply (nw_infinite (b "+") r); [tauto|]. now apply Inf.
  - rewrite Q in *. apply lower_sign in Ea; [|tauto]. subst c. destruct (beqb (map lower_ascii r) (b "inf") || beqb (map lower_ascii r) (b "infinity")) eqn:E; [|discriminate].
    apply (nw_infinite (b "-") r); [tauto|]. now apply Inf.
  - assert (H' : (if beqb (a :: map lower_ascii r) (b "inf") || beqb (a :: map lower_ascii r) (b "infinity") then Some (S754_infinity false) else if beqb (a :: map lower_ascii r) (b "nan") then Some S754_nan else None) = Some f).
    { clear Ea Inf. destruct a as [|p]; [exact H|]. repeat (destruct p as [p|p|]; try exact H; try (exfalso; lia)). }
    destruct (beqb (a :: map lower_ascii r) (b "inf") || beqb (a :: map lower_ascii r) (b "infinity")) eqn:E.
    + apply (nw_infinite [] (c :: r)); [tauto|]. cbn [map]. rewrite small_lower, Ea. now apply Inf.
    + destruct (beqb (a :: map lower_ascii r) (b "nan")) eqn:E2; [|discriminate]. apply beqb_eq in E2. apply nw_nan. cbn [map]. now rewrite small_lower, Ea.
Qed.
(** A word is read as an infinity, with its sign, or as no number. *)
Lemma value_special t f : word_value t f -> parse_special t = Some f.
Proof.
  intros [sg w Hs Hw|w Hw|w Hw]; rewrite small_lower in Hw; unfold parse_special.
  - destruct Hs as [-> | ->]; cbn [app map b].
    + destruct Hw as [-> | ->]; reflexivity.
    + change (map lower_ascii (b "+" ++ w)) with (43 :: map lower_ascii w). destruct Hw as [-> | ->]; reflexivity.
  - change (map lower_ascii (b "-" ++ w)) with (45 :: map lower_ascii w). destruct Hw as [-> | ->]; reflexivity.
  - rewrite Hw. reflexivity.
Qed.
Lemma word_has_value t : number_word t -> exists f, word_value t f.
Proof.
  intros [sg w Hs Hw|w Hw]; [|eexists; now apply wv_nan].
  destruct Hs as [-> | [-> | ->]]; eexists; [apply (wv_plus []); auto|apply (wv_plus (b "+")); auto|now apply wv_minus].
Qed.
Lemma word_special t : number_word t -> exists f, parse_special t = Some f /\ (f = S754_nan \/ exists s, f = S754_infinity s).
Proof.
  intros W. destruct (word_has_value t W) as (f & V). exists f. split; [now apply value_special|]. destruct V; eauto.
Qed.
Lemma go_parse_only t f : go_parse_float t = Some f -> (number_word t /\ (f = S754_nan \/ exists s, f = S754_infinity s)) \/ exists x e, numeral t x e.
Proof.
  unfold go_parse_float. destruct (parse_special t) as [g|] eqn:P.
  - intros [= <-]. left. pose proof (special_is_word t g P) as W. split; [exact W|]. destruct (word_special t W) as (g' & P' & Q). rewrite P in P'. now injection P' as <-.
  - unfold read_value. destruct (read_float t) as [y|] eqn:R; [|discriminate]. intros _. right. now apply (numeral_read t y).
Qed.

(** Decimal numbers are numerals. *)
Lemma plain_grouped (P : N -> Prop) ds : Forall P ds -> ds <> [] -> grouped P ds ds.
Proof.
  induction 1 as [|c ds Hc H IH]; [congruence|]. intros _. destruct ds as [|d ds]; [now apply gr_one|]. apply gr_next; [exact Hc|]. apply IH. discriminate.
Qed.
Lemma decimal_numeral t x : denotes_number t x -> exists e, numeral t x e /\ (Z.abs e < 100000)%Z.
Proof.
  intros [sg s ip dot fp ex e Sg D1 D2 Ne Dt X L].
  assert (Pa : forall ds, Forall decimal_digit ds -> part decimal_digit ds ds).
  { intros [|d ds] D; [left; auto|right; apply plain_grouped; [exact D|discriminate]]. }
  assert (M : mantissa decimal_digit ip fp (ip ++ dot ++ fp)).
  { destruct Dt as [(-> & ->)| ->].
    - cbn [app]. rewrite app_nil_r in *. apply ma_int. now apply plain_grouped.
    - apply ma_point; auto. }
  assert (Xe : ex = [] /\ e = 0%Z \/ written_exponent 101 69 ex e).
  { destruct X as [|c sg' ds Hc Hs D Ne'|c ds Hc D Ne']; [now left| |]; right; constructor; auto; now apply plain_grouped. }
  exists e. split; [|exact L]. replace (sg ++ ip ++ dot ++ fp ++ ex) with (sg ++ (ip ++ dot ++ fp) ++ ex) by (now rewrite <- !app_assoc). now apply nu_decimal.
Qed.
