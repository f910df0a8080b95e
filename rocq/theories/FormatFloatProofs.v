(** ParseFloat reads back what FormatFloat writes. *)
From Verif Require Import Bytes GoItoa ItoaProofs GoStrconv GoTime GoFloat NumSpec FloatProofs NumProofs FormatFloat.
From Coq Require Import Reals Lra ZifyBool ZifyN ZifyNat.
From Flocq Require Import Core BinarySingleNaN.
Local Notation valid := (valid_binary 53 1024).

Lemma f_same_eq x y : f_same x y = true -> x = y.
Proof.
  destruct x, y; cbn; try discriminate. rewrite !andb_true_iff, Pos.eqb_eq, Z.eqb_eq. intros [[E ->] ->]. apply Bool.eqb_prop in E. now subst.
Qed.

(** ** Digits *)
Lemma digits_val_app x y : digits_val (x ++ y) = fold_left (fun a c => a * 10 + digit_val c) y (digits_val x).
Proof. unfold digits_val. apply fold_left_app. Qed.
Lemma value_of_digits ds : forall a, value_of ds a = fold_left (fun a c => a * 10 + digit_val c) ds a.
Proof. unfold value_of. induction ds as [|c ds IH]; intros a; cbn [fold_left]; [reflexivity|]. rewrite IH. f_equal. unfold digit_val. lia. Qed.
Lemma itoa_digits n : digits_val (itoa n) = n /\ itoa n <> [] /\ Forall dig (itoa n).
Proof. destruct (itoa_value n) as (V & N & F). split; [|split; [exact N|exact F]]. unfold digits_val. now rewrite <- value_of_digits. Qed.
Lemma digits_zeros n a : fold_left (fun a c => a * 10 + digit_val c) (repeat 48 n) a = a * 10 ^ N.of_nat n.
Proof.
  revert a. induction n as [|n IH]; intros a; [cbn; lia|]. cbn [repeat fold_left]. rewrite IH. rewrite Nat2N.inj_succ, N.pow_succ_r'.
  change (digit_val 48) with 0. lia.
Qed.
Lemma zeros_dig n : Forall dig (repeat 48 n).
Proof. induction n; constructor; auto. unfold dig. lia. Qed.

(** The written text is a plain decimal number. *)
Lemma positional_parts d k : exists ip dot fp, positional d k = ip ++ dot ++ fp /\ Forall dig ip /\ Forall dig fp /\ ip <> [] /\
  (dot = [] /\ fp = [] \/ dot = b "." /\ fp <> []) /\
  ((0 <= k)%Z -> fp = [] /\ digits_val ip = d * 10 ^ Z.to_N k) /\
  ((k < 0)%Z -> digits_val (ip ++ fp) = d /\ Z.of_nat (length fp) = (- k)%Z).
Proof.
  destruct (itoa_digits d) as (V & Ne & F). unfold positional. destruct k as [|n|n].
  - exists (itoa d), [], []. cbn [Z.to_nat repeat]. repeat split; auto; intros; try lia. 
    change (Z.to_N 0) with 0. rewrite N.pow_0_r, N.mul_1_r. exact V.
  - exists (itoa d ++ repeat 48 (Z.to_nat (Z.pos n))), [], []. rewrite app_nil_r. repeat split; auto; intros; try lia.
    + apply Forall_app. split; [exact F|apply zeros_dig].
    + intros E. apply app_eq_nil in E as [E _]. now apply Ne.
    + rewrite digits_val_app, digits_zeros, V. do 2 f_equal. lia.
  - cbv zeta. set (s := repeat 48 (S (Pos.to_nat n) - length (itoa d)) ++ itoa d).
    assert (Fs : Forall dig s) by (apply Forall_app; split; [apply zeros_dig|exact F]).
    assert (Ls : (Pos.to_nat n < length s)%nat) by (unfold s; rewrite app_length, repeat_length; lia).
    assert (Vs : digits_val s = d).
    { unfold s. rewrite digits_val_app. unfold digits_val at 1. rewrite digits_zeros, N.mul_0_l. exact V. }
    exists (firstn (length s - Pos.to_nat n) s), (b "."), (skipn (length s - Pos.to_nat n) s). clearbody s.
    rewrite <- (firstn_skipn (length s - Pos.to_nat n) s) in Fs. apply Forall_app in Fs as [F1 F2].
    split; [reflexivity|]. split; [exact F1|]. split; [exact F2|].
    split; [intros E; apply (f_equal (@length N)) in E; rewrite firstn_length in E; cbn in E; lia|].
    split; [right; split; [reflexivity|]; intros E; apply (f_equal (@length N)) in E; rewrite skipn_length in E; cbn in E; lia|].
    split; [lia|]. intros _. rewrite firstn_skipn. split; [exact Vs|]. rewrite skipn_length. lia.
Qed.

Lemma decimal_scale neg d k : (0 <= k)%Z -> f_of_decimal neg (d * 10 ^ Z.to_N k) 0 = f_of_decimal neg d k.
Proof.
  intros K. destruct d as [|p]; [reflexivity|]. assert (E : N.pos p * 10 ^ Z.to_N k = N.pos (p * 10 ^ match k with Z.pos j => j | _ => 1%positive end) \/ k = 0%Z).
  { destruct k as [|j|j]; [now right| |lia]. left. reflexivity. }
  destruct E as [E|E]; [|subst k; now rewrite N.mul_1_r]. destruct k as [|j|j]; [now rewrite N.mul_1_r| |lia]. rewrite E. cbn [f_of_decimal].
  rewrite Pos2Z.inj_mul, Pos2Z.inj_pow. reflexivity.
Qed.

Lemma parse_positional other neg d k : is_inf (f_of_decimal neg d k) = false ->
  parse_float other ((if neg then b "-" else []) ++ positional d k) = Some (f_of_decimal neg d k).
Proof.
  intros Fin. destruct (positional_parts d k) as (ip & dot & fp & -> & D1 & D2 & Ne & Dt & K1 & K2).
  assert (Ne' : ip ++ fp <> []) by (destruct ip; [congruence|discriminate]).
  assert (Dt' : dot = [] /\ fp = [] \/ dot = b ".") by tauto.
  pose proof (parse_unsigned neg ip dot fp [] 0 D1 D2 Ne' Dt' xt_none ltac:(lia)) as U. rewrite app_nil_r in U.
  destruct (head_cases ip dot fp [] 0 D1 D2 Ne' Dt' xt_none) as (c & r & Eh & Hc). rewrite app_nil_r in Eh.
  destruct (not_special c r Hc) as (S1 & S2 & S3).
  assert (Ch : Forall (fun x => dig x \/ x = 46 \/ x = 45) ((if neg then b "-" else []) ++ ip ++ dot ++ fp)).
  { assert (Ds : forall ds, Forall dig ds -> Forall (fun x => dig x \/ x = 46 \/ x = 45) ds) by (intros ds; apply Forall_impl; auto).
    apply Forall_app; split; [destruct neg; [apply Forall_cons; [right; now right|constructor]|constructor]|].
    apply Forall_app; split; [auto|]. apply Forall_app; split; [|auto]. destruct Dt' as [[-> _]| ->]; [constructor|apply Forall_cons; [right; now left|constructor]]. }
  assert (Nb : forall x, ~ (dig x \/ x = 46 \/ x = 45) -> has_byte x ((if neg then b "-" else []) ++ ip ++ dot ++ fp) = false).
  { intros x Hx. apply no_byte. intros I. apply Hx. rewrite Forall_forall in Ch. now apply Ch. }
  unfold parse_float. rewrite !Nb by (unfold dig; lia). cbn [orb].
  assert (V : f_of_decimal neg (digits_val (ip ++ fp)) (0 - Z.of_nat (length fp)) = f_of_decimal neg d k).
  { destruct (Z.lt_ge_cases k 0) as [L|L].
    - destruct (K2 L) as [-> ->]. f_equal. lia.
    - destruct (K1 L) as [-> E]. rewrite app_nil_r, E. cbn [length]. now apply decimal_scale. }
  rewrite Eh in *. destruct neg.
  - change (b "-" ++ c :: r) with (45 :: c :: r). rewrite S3, parse_decimal_minus, U. cbn. cbn in V. rewrite V, Fin. reflexivity.
  - cbn [app]. rewrite S1, parse_decimal_head, U by exact Hc. cbn. cbn in V. rewrite V, Fin. reflexivity.
Qed.

(** ** All digits *)
Lemma finite_inj x y : finite_double x -> finite_double y -> double_value x <> 0%R -> double_value x = double_value y -> x = y.
Proof.
  intros (Vx & Fx) (Vy & Fy) Nz E. rewrite <- (B2SF_SF2B 53 1024 x Vx), <- (B2SF_SF2B 53 1024 y Vy). f_equal.
  apply B2R_inj; [| |now rewrite !B2R_SF2B].
  - apply is_finite_strict_B2R. now rewrite B2R_SF2B.
  - apply is_finite_strict_B2R. rewrite B2R_SF2B. unfold double_value in *. congruence.
Qed.
Lemma finite_representable x : finite_double x -> representable (double_value x) /\ in_double_range (double_value x).
Proof.
  intros (V & F). assert (R : representable (double_value x)).
  { unfold representable, double_value. rewrite <- (B2R_SF2B 53 1024 x V). apply (generic_format_B2R 53 1024). }
  split; [exact R|]. apply representable_range; [exact R|]. unfold double_value, max_double. rewrite <- (B2R_SF2B 53 1024 x V). apply abs_B2R_lt_emax.
Qed.
Lemma finite_value s m e : double_value (S754_finite s m e) = ((if s : bool then -1 else 1) * IZR (Z.pos m) * bpow radix2 e)%R.
Proof. unfold double_value, SF2R, F2R. cbn. destruct s; cbn [cond_Zopp]; [change (Z.neg m) with (- Z.pos m)%Z; rewrite opp_IZR|]; ring. Qed.

Lemma decimal_of_value f (neg : bool) d k : finite_double f -> double_value f <> 0%R ->
  ((if neg then -1 else 1) * IZR (Z.of_N d) * powerRZ 10 k)%R = double_value f -> f_of_decimal neg d k = f.
Proof.
  intros F Nz E. destruct (finite_representable f F) as [R I]. destruct (decimal_rounds neg d k) as (V & H & _). rewrite E in H.
  destruct (H I) as [H1 H2]. rewrite (nearest_id _ R) in H1. apply finite_inj; [now split|exact F| |exact H1]. now rewrite H1.
Qed.

Lemma shortest_found fuel neg f num den exact : forall k d k', shortest fuel neg f num den exact k = (d, k') ->
  f_of_decimal neg d k' = f \/ (d, k') = exact.
Proof.
  induction fuel as [|fuel IH]; intros k d k' E; cbn in E; [now right|]. destruct (digits_at neg f num den k) as [d0|] eqn:A; [|now apply IH in E].
  injection E as <- <-. left. unfold digits_at in A.
  set (q := num * 10 ^ Z.to_N (- k) / (den * 10 ^ Z.to_N k)) in *.
  destruct (f_same (f_of_decimal neg q k) f) eqn:E1, (f_same (f_of_decimal neg (q + 1) k) f) eqn:E2; try discriminate;
    [|injection A as <-; now apply f_same_eq|injection A as <-; now apply f_same_eq].
  injection A as <-. match goal with |- context [if ?c then _ else _] => destruct c end; now apply f_same_eq.
Qed.

Lemma bpow_pos k : bpow radix2 (Z.pos k) = IZR (2 ^ Z.pos k).
Proof. now rewrite <- (IZR_Zpower radix2) by lia. Qed.

(** ParseFloat(FormatFloat(f)) is f, and the text is a plain decimal number. *)
Theorem format_parse other f : finite_double f -> parse_float other (format_float f) = Some f.
Proof.
  intros F. destruct f as [s|s| |s m e]; [destruct s; reflexivity|now destruct F|now destruct F|]. unfold format_float.
  set (f := S754_finite s m e) in *.
  assert (Nz : double_value f <> 0%R).
  { unfold f. rewrite finite_value. assert (0 < IZR (Z.pos m))%R by (apply IZR_lt; lia). pose proof (bpow_gt_0 radix2 e). destruct s; nra. }
  destruct e as [|k|k].
  1: set (num := N.pos m * 2 ^ Z.to_N 0); set (xx0 := (num, 0%Z)).
  2: set (num := N.pos m * 2 ^ Z.to_N (Z.pos k)); set (xx0 := (num, 0%Z)).
  3: set (xx0 := (N.pos m * 5 ^ N.pos k, Z.neg k)).
  all: match goal with |- context [shortest ?fu ?ne ?ff ?nu ?de ?xx ?st] => destruct (shortest fu ne ff nu de xx st) as [d k0] eqn:Sh end.
  all: assert (E : f_of_decimal s d k0 = f); [|rewrite parse_positional; rewrite E; reflexivity].
  all: apply shortest_found in Sh as [Sh|Sh]; [exact Sh|]; unfold xx0 in Sh; injection Sh as -> ->; apply decimal_of_value; [exact F|exact Nz|].
  all: unfold f; rewrite finite_value, !Rmult_assoc; f_equal.
  - unfold num. change (Z.to_N 0) with 0. rewrite N.pow_0_r, N.mul_1_r. cbn. ring.
  - unfold num. rewrite N2Z.inj_mul, N2Z.inj_pow. cbn [powerRZ]. rewrite Rmult_1_r, mult_IZR, bpow_pos. f_equal.
  - change (N.pos (m * 5 ^ k)) with (N.pos m * 5 ^ N.pos k). rewrite N2Z.inj_mul, N2Z.inj_pow, mult_IZR, Rmult_assoc. f_equal. change (Z.of_N 5) with 5%Z. change (Z.of_N (N.pos k)) with (Z.pos k).
    change (Z.neg k) with (- Z.pos k)%Z. rewrite bpow_opp, bpow_pos.
    replace (powerRZ 10 (- Z.pos k)) with (/ IZR (10 ^ Z.pos k))%R.
    + replace (10 ^ Z.pos k)%Z with (5 ^ Z.pos k * 2 ^ Z.pos k)%Z by (rewrite <- Z.pow_mul_l; reflexivity). rewrite mult_IZR.
      assert (IZR (5 ^ Z.pos k) <> 0)%R by (apply not_0_IZR; assert (0 < 5 ^ Z.pos k)%Z by (apply Z.pow_pos_nonneg; lia); lia).
      assert (IZR (2 ^ Z.pos k) <> 0)%R by (apply not_0_IZR; assert (0 < 2 ^ Z.pos k)%Z by (apply Z.pow_pos_nonneg; lia); lia).
      now field.
    + rewrite <- pow10_Z by lia. reflexivity.
Qed.
Lemma format_text f : finite_double f -> exists s ip dot fp, format_float f = s ++ ip ++ dot ++ fp /\ (s = [] \/ s = b "-") /\
  Forall dig ip /\ Forall dig fp /\ ip <> [] /\ (dot = [] /\ fp = [] \/ dot = b "." /\ fp <> []).
Proof.
  intros F. destruct f as [s|s| |s m e]; [|now destruct F|now destruct F|].
  - exists (if s then b "-" else []), (b "0"), [], []. split; [reflexivity|]. split; [destruct s; auto|]. split; [constructor; [split; discriminate|constructor]|].
    split; [constructor|]. split; [discriminate|now left].
  - unfold format_float. destruct (match e with Z.neg k => _ | _ => _ end) as [[num den] ex].
    match goal with |- context [shortest ?fu ?ne ?ff ?nu ?de ?xx ?st] => destruct (shortest fu ne ff nu de xx st) as [d k0] eqn:Sh end.
    destruct (positional_parts d k0) as (ip & dot & fp & -> & D1 & D2 & Ne & Dt & _).
    exists (if s then b "-" else []), ip, dot, fp. split; [reflexivity|]. split; [destruct s; auto|]. auto.
Qed.
