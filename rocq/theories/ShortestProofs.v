(** The digits FormatFloat writes: as few as possible, and the nearest ones of them. *)
From Verif Require Import Bytes GoItoa ItoaProofs GoStrconv GoTime GoFloat NumSpec FloatProofs NumProofs FormatFloat FormatFloatProofs.
From Coq Require Import Reals Lra ZifyBool ZifyN ZifyNat.
From Flocq Require Import Core BinarySingleNaN.
Local Notation valid := (valid_binary 53 1024).
Local Notation p10 := (powerRZ 10).
#[local] Instance prec_pos : Prec_gt_0 53 := eq_refl.

(** ** Itoa *)
Lemma digits_of_head fuel : forall n acc, (N.size_nat n < fuel)%nat -> 0 < n ->
  exists c ds, digits_of fuel n acc = (c :: ds) ++ acc /\ c <> 48.
Proof.
  induction fuel as [|fuel IH]; intros n acc H P; [lia|]. cbn [digits_of].
  destruct (N.ltb_spec n 10).
  - exists (48 + n mod 10), []. split; [reflexivity|]. rewrite N.mod_small by lia. lia.
  - destruct (IH (n / 10) (48 + n mod 10 :: acc)) as (c & ds & E & D).
    + pose proof (size_div n). lia.
    + assert (n / 10 <> 0) by (intros E; apply N.div_small_iff in E; lia). lia.
    + exists c, (ds ++ [48 + n mod 10]). split; [rewrite E; cbn; now rewrite <- app_assoc|exact D].
Qed.
Lemma itoa_head n : 0 < n -> exists c ds, itoa n = c :: ds /\ c <> 48.
Proof.
  intros P. unfold itoa. destruct (digits_of_head (S (N.size_nat n)) n []) as (c & ds & E & D); [lia|exact P|].
  exists c, ds. now rewrite E, app_nil_r.
Qed.
Lemma digits_value_upper ds : Forall dig ds -> (digits_value ds < 10 ^ Z.of_nat (length ds))%Z.
Proof.
  induction ds as [|c r IH]; intros F; [cbn; lia|]. cbn [digits_value length]. inversion F as [|? ? D F']; subst. specialize (IH F').
  rewrite Nat2Z.inj_succ, Z.pow_succ_r by lia. unfold dig in D. assert (0 < 10 ^ Z.of_nat (length r))%Z by (apply Z.pow_pos_nonneg; lia). nia.
Qed.
Lemma digits_value_lower c ds : Forall dig (c :: ds) -> c <> 48 -> (10 ^ Z.of_nat (length ds) <= digits_value (c :: ds))%Z.
Proof.
  intros F D. inversion F as [|? ? Dc F']; subst. cbn [digits_value]. pose proof (digits_value_nonneg ds F'). unfold dig in Dc.
  assert (0 < 10 ^ Z.of_nat (length ds))%Z by (apply Z.pow_pos_nonneg; lia). nia.
Qed.
Lemma itoa_length n : 0 < n -> (10 ^ (Z.of_nat (length (itoa n)) - 1) <= Z.of_N n < 10 ^ Z.of_nat (length (itoa n)))%Z.
Proof.
  intros P. destruct (itoa_digits n) as (V & _ & F). destruct (itoa_head n P) as (c & ds & E & D).
  pose proof (digits_val_spec _ F) as S. rewrite V in S. rewrite S. split.
  - rewrite E in *. replace (Z.of_nat (length (c :: ds)) - 1)%Z with (Z.of_nat (length ds)) by (cbn [length]; lia). now apply digits_value_lower.
  - now apply digits_value_upper.
Qed.

Local Open Scope R_scope.

Lemma p10_pos k : 0 < p10 k.
Proof. apply powerRZ_lt. lra. Qed.
Lemma p10_add j k : p10 (j + k) = p10 j * p10 k.
Proof. apply powerRZ_add. lra. Qed.
Lemma p10_le j k : (j <= k)%Z -> p10 j <= p10 k.
Proof.
  intros H. replace k with (j + (k - j))%Z by lia. rewrite p10_add. pose proof (p10_pos j). rewrite (pow10_Z (k - j)) by lia.
  assert (1 <= IZR (10 ^ (k - j))) by (apply IZR_le; assert (0 < 10 ^ (k - j))%Z by (apply Z.pow_pos_nonneg; lia); lia). nra.
Qed.
Lemma p10_N k : p10 k = IZR (Z.of_N (10 ^ Z.to_N k)) / IZR (Z.of_N (10 ^ Z.to_N (- k))).
Proof.
  rewrite !N2Z.inj_pow. change (Z.of_N 10) with 10%Z.
  destruct (Z.le_ge_cases 0 k) as [H|H].
  - replace (Z.of_N (Z.to_N (- k))) with 0%Z by lia. rewrite Z.pow_0_r, Z2N.id by exact H. rewrite pow10_Z by exact H. field.
  - replace (Z.of_N (Z.to_N k)) with 0%Z by lia. rewrite Z.pow_0_r, Z2N.id by lia. rewrite <- pow10_Z by lia.
    assert (E : p10 k * p10 (- k) = 1) by (rewrite <- p10_add, Z.add_opp_diag_r; reflexivity). pose proof (p10_pos (- k)).
    apply (Rmult_eq_reg_r (p10 (- k))); [|lra]. rewrite E. field. lra.
Qed.

Lemma nearest_opp x : nearest (- x) = - nearest x.
Proof. apply round_NE_opp. Qed.
Lemma nearest_pos x : 0 <= x -> 0 <= nearest x.
Proof. intros H. apply nearest_mono in H. rewrite nearest_id in H; [exact H|apply generic_format_0]. Qed.

(** Being read back, as a statement about numbers. *)
Lemma reads_back s m e d k : finite_double (S754_finite s m e) ->
  f_same (f_of_decimal s d k) (S754_finite s m e) = true <-> nearest (IZR (Z.of_N d) * p10 k) = IZR (Z.pos m) * bpow radix2 e.
Proof.
  intros F. set (f := S754_finite s m e) in *. set (v := IZR (Z.pos m) * bpow radix2 e).
  assert (Pv : 0 < v) by (unfold v; apply Rmult_lt_0_compat; [apply IZR_lt; lia|apply bpow_gt_0]).
  assert (Ev : double_value f = (if s then -1 else 1) * v) by (unfold f, v; rewrite finite_value; ring).
  assert (Sg : forall x, nearest ((if s then -1 else 1) * x) = (if s then -1 else 1) * nearest x).
  { intros x. destruct s; [|now rewrite !Rmult_1_l]. replace (-1 * x) with (- x) by ring. rewrite nearest_opp. ring. }
  destruct (decimal_rounds s d k) as (V & H1 & H2). rewrite Rmult_assoc in H1, H2. set (x := IZR (Z.of_N d) * p10 k) in *.
  assert (Rg : nearest x = v -> in_double_range ((if s then -1 else 1) * x)).
  { intros E. unfold in_double_range. rewrite Sg, E, <- Ev. destruct (finite_representable f F) as [R I]. unfold in_double_range in I. now rewrite (nearest_id _ R) in I. }
  split.
  - intros E. apply f_same_eq in E. destruct (Rlt_le_dec (Rabs (nearest ((if s then -1 else 1) * x))) max_double) as [L|L].
    + destruct (H1 L) as [E' _]. rewrite E, Ev, Sg in E'. destruct s; lra.
    + rewrite H2 in E; [discriminate|]. unfold in_double_range. lra.
  - intros E. destruct (H1 (Rg E)) as [E' F']. rewrite Sg, E, <- Ev in E'.
    assert (Q : f_of_decimal s d k = f).
    { apply finite_inj; [now split|exact F| |exact E']. rewrite E', Ev. destruct s; lra. }
    rewrite Q. unfold f. cbn. rewrite Bool.eqb_reflx, Pos.eqb_refl, Z.eqb_refl. reflexivity.
Qed.

(** ** One unit *)
Section Unit.
Context (s : bool) (m : positive) (e : Z) (F : finite_double (S754_finite s m e)).
Local Notation f := (S754_finite s m e).
Local Notation v := (IZR (Z.pos m) * bpow radix2 e).
Context (num den : N) (Pd : (0 < den)%N) (Ev : v = IZR (Z.of_N num) / IZR (Z.of_N den)).

Lemma v_pos : 0 < v.
Proof. apply Rmult_lt_0_compat; [apply IZR_lt; lia|apply bpow_gt_0]. Qed.
Lemma v_representable : representable v.
Proof.
  destruct (finite_representable _ F) as [R _]. rewrite finite_value in R. unfold representable in *. destruct s; [|now rewrite Rmult_1_l in R].
  apply generic_format_opp in R. replace v with (- (-1 * IZR (Z.pos m) * bpow radix2 e)) by ring. exact R.
Qed.
Lemma v_nearest : nearest v = v.
Proof. apply nearest_id, v_representable. Qed.

(** [v] lies between two multiples of the unit. *)
Lemma unit_parts k : let d := (den * 10 ^ Z.to_N k)%N in let q := (num * 10 ^ Z.to_N (- k) / d)%N in let r := ((num * 10 ^ Z.to_N (- k)) mod d)%N in
  v = (IZR (Z.of_N q) + IZR (Z.of_N r) / IZR (Z.of_N d)) * p10 k /\ (r < d)%N.
Proof.
  set (up := (10 ^ Z.to_N k)%N). set (dn := (10 ^ Z.to_N (- k))%N). intros d q r.
  assert (Pu : (0 < up)%N) by (unfold up; apply N.neq_0_lt_0, N.pow_nonzero; lia).
  assert (Pn : (0 < dn)%N) by (unfold dn; apply N.neq_0_lt_0, N.pow_nonzero; lia).
  assert (Dz : (d <> 0)%N) by (unfold d; lia). split; [|apply N.mod_upper_bound; exact Dz].
  pose proof (N.div_mod (num * dn) d Dz) as E. fold q r in E. apply (f_equal (fun n => IZR (Z.of_N n))) in E. cbv beta in E. unfold d in *.
  rewrite N2Z.inj_add, !N2Z.inj_mul, plus_IZR, !mult_IZR in E. rewrite Ev, p10_N, N2Z.inj_mul, mult_IZR. fold up dn.
  assert (0 < IZR (Z.of_N den)) by (apply IZR_lt; lia). assert (0 < IZR (Z.of_N up)) by (apply IZR_lt; lia). assert (0 < IZR (Z.of_N dn)) by (apply IZR_lt; lia).
  apply (Rmult_eq_reg_r (IZR (Z.of_N dn) * IZR (Z.of_N den))); [|nra]. field_simplify; lra || (split; lra) || idtac.
Qed.
Local Notation reads k d := (nearest (IZR (Z.of_N d) * p10 k) = v).

Lemma digits_at_spec k :
  match digits_at s f num den k with
  | Some d => reads k d /\ forall d', reads k d' -> Rabs (IZR (Z.of_N d) * p10 k - v) <= Rabs (IZR (Z.of_N d') * p10 k - v)
  | None => forall d, ~ reads k d
  end.
Proof.
  destruct (unit_parts k) as [Ep Lr]. unfold digits_at.
  set (d := (den * 10 ^ Z.to_N k)%N) in *. set (q := (num * 10 ^ Z.to_N (- k) / d)%N) in *. set (r := ((num * 10 ^ Z.to_N (- k)) mod d)%N) in *.
  pose proof v_nearest as Nv. set (x := v) in *. set (u := p10 k) in *.
  assert (Pu : 0 < u) by apply p10_pos.
  assert (Dp : 0 < IZR (Z.of_N d)) by (apply IZR_lt; lia).
  assert (Fr : 0 <= IZR (Z.of_N r) / IZR (Z.of_N d) < 1).
  { split; [apply Rmult_le_pos; [apply IZR_le; lia|]; apply Rlt_le, Rinv_0_lt_compat, Dp|].
    apply (Rmult_lt_reg_r (IZR (Z.of_N d))); [exact Dp|]. unfold Rdiv. rewrite Rmult_assoc, Rinv_l, Rmult_1_r, Rmult_1_l by lra. apply IZR_lt. lia. }
  assert (Q1 : IZR (Z.of_N (q + 1)) = IZR (Z.of_N q) + 1) by (rewrite N2Z.inj_add, plus_IZR; reflexivity).
  set (a := IZR (Z.of_N r) / IZR (Z.of_N d)) in *.
  assert (Below : forall d', (d' <= q)%N -> IZR (Z.of_N d') * u <= IZR (Z.of_N q) * u).
  { intros d' L. apply Rmult_le_compat_r; [lra|]. apply IZR_le. lia. }
  assert (Above : forall d', (q < d')%N -> IZR (Z.of_N (q + 1)) * u <= IZR (Z.of_N d') * u).
  { intros d' L. apply Rmult_le_compat_r; [lra|]. apply IZR_le. lia. }
  assert (Lo : IZR (Z.of_N q) * u <= x) by (rewrite Ep; nra).
  assert (Hi : x <= IZR (Z.of_N (q + 1)) * u) by (rewrite Ep, Q1; nra).
  assert (Bq : forall d', (d' <= q)%N -> reads k d' -> reads k q).
  { intros d' L E. fold u x in E |- *. pose proof (nearest_mono _ _ (Below d' L)) as M1. pose proof (nearest_mono _ _ Lo) as M2. lra. }
  assert (Aq : forall d', (q < d')%N -> reads k d' -> reads k (q + 1)).
  { intros d' L E. fold u x in E |- *. pose proof (nearest_mono _ _ (Above d' L)) as M1. pose proof (nearest_mono _ _ Hi) as M2. lra. }
  assert (Dl : forall d', (d' <= q)%N -> Rabs (IZR (Z.of_N q) * u - x) <= Rabs (IZR (Z.of_N d') * u - x)).
  { intros d' L. specialize (Below d' L). rewrite !Rabs_left1 by lra. lra. }
  assert (Dr : forall d', (q < d')%N -> Rabs (IZR (Z.of_N (q + 1)) * u - x) <= Rabs (IZR (Z.of_N d') * u - x)).
  { intros d' L. specialize (Above d' L). rewrite !Rabs_pos_eq by lra. lra. }
  pose proof (reads_back s m e q k F) as R1. pose proof (reads_back s m e (q + 1) k F) as R2. fold u x in R1, R2, Bq, Aq |- *.
  destruct (f_same (f_of_decimal s q k) f), (f_same (f_of_decimal s (q + 1) k) f).
  - assert (T1 := proj1 R1 eq_refl). assert (T2 := proj1 R2 eq_refl).
    assert (Half : (2 * IZR (Z.of_N r) <= IZR (Z.of_N d) -> a <= /2) /\ (IZR (Z.of_N d) <= 2 * IZR (Z.of_N r) -> /2 <= a)).
    { unfold a. split; intros H; apply (Rmult_le_reg_r (IZR (Z.of_N d))); try exact Dp; unfold Rdiv; rewrite Rmult_assoc, Rinv_l, Rmult_1_r by lra; lra. }
    assert (Aq1 : Rabs (IZR (Z.of_N q) * u - x) = a * u) by (rewrite Rabs_left1 by lra; rewrite Ep; ring).
    assert (Aq2 : Rabs (IZR (Z.of_N (q + 1)) * u - x) = (1 - a) * u) by (rewrite Rabs_pos_eq by lra; rewrite Ep, Q1; ring).
    assert (Cd : IZR (Z.of_N d) < 2 * IZR (Z.of_N r) \/ 2 * IZR (Z.of_N r) <= IZR (Z.of_N d)) by lra.
    destruct ((2 * r <? d)%N || (2 * r =? d)%N && N.even q) eqn:C.
    + assert (H : 2 * IZR (Z.of_N r) <= IZR (Z.of_N d)) by (rewrite <- (mult_IZR 2); apply IZR_le; lia).
      split; [exact T1|]. intros d' E. apply Half in H. destruct (N.le_gt_cases d' q) as [L|L]; [auto|].
      specialize (Dr d' L). rewrite Aq1, Aq2 in *. nra.
    + assert (H : IZR (Z.of_N d) <= 2 * IZR (Z.of_N r)) by (rewrite <- (mult_IZR 2); apply IZR_le; lia).
      split; [exact T2|]. intros d' E. apply Half in H. destruct (N.le_gt_cases d' q) as [L|L]; [|auto].
      specialize (Dl d' L). rewrite Aq1, Aq2 in *. nra.
  - assert (T1 := proj1 R1 eq_refl). split; [exact T1|]. intros d' E. destruct (N.le_gt_cases d' q) as [L|L]; [auto|].
    apply (Aq d' L) in E. apply R2 in E. discriminate.
  - assert (T2 := proj1 R2 eq_refl). split; [exact T2|]. intros d' E. destruct (N.le_gt_cases d' q) as [L|L]; [|auto].
    apply (Bq d' L) in E. apply R1 in E. discriminate.
  - intros d' E. destruct (N.le_gt_cases d' q) as [L|L]; [apply (Bq d' L) in E; apply R1 in E|apply (Aq d' L) in E; apply R2 in E]; discriminate.
Qed.

(** ** All units *)
(** A unit below 10^-17 of the value always suffices. *)
Lemma fine_unit k : p10 k <= v * p10 (-17) -> digits_at s f num den k <> None.
Proof.
  intros Hk E. pose proof (digits_at_spec k) as H. rewrite E in H.
  destruct (unit_parts k) as [Ep Lr]. set (d := (den * 10 ^ Z.to_N k)%N) in *. set (q := (num * 10 ^ Z.to_N (- k) / d)%N) in *. set (r := ((num * 10 ^ Z.to_N (- k)) mod d)%N) in *.
  apply (H q). pose proof v_pos as Pv. pose proof v_representable as Rv. pose proof v_nearest as Nv. set (x := v) in *. set (u := p10 k) in *.
  assert (Pu : 0 < u) by apply p10_pos.
  assert (Dp : 0 < IZR (Z.of_N d)) by (apply IZR_lt; lia).
  assert (Fr : 0 <= IZR (Z.of_N r) / IZR (Z.of_N d) < 1).
  { split; [apply Rmult_le_pos; [apply IZR_le; lia|]; apply Rlt_le, Rinv_0_lt_compat, Dp|].
    apply (Rmult_lt_reg_r (IZR (Z.of_N d))); [exact Dp|]. unfold Rdiv. rewrite Rmult_assoc, Rinv_l, Rmult_1_r, Rmult_1_l by lra. apply IZR_lt. lia. }
  assert (Lo : IZR (Z.of_N q) * u <= x) by (rewrite Ep; nra).
  assert (Hi : x - u < IZR (Z.of_N q) * u) by (rewrite Ep; nra).
  apply Rle_antisym; [pose proof (nearest_mono _ _ Lo); fold u x; lra|].
  apply round_N_ge_midp; [apply (FLT_exp_valid (-1074) 53)|exact Rv|].
  set (p := pred radix2 (FLT_exp (-1074) 53) x).
  assert (Pp : 0 <= p) by (apply pred_ge_0; [apply (FLT_exp_valid (-1074) 53)|exact Pv|exact Rv]).
  assert (Es : p + ulp radix2 (FLT_exp (-1074) 53) p = x).
  { rewrite <- succ_eq_pos by exact Pp. apply succ_pred; [apply (FLT_exp_valid (-1074) 53)|exact Rv]. }
  pose proof (ulp_FLT_gt radix2 (-1074) 53 p) as G. rewrite (Rabs_pos_eq p Pp) in G.
  assert (B : bpow radix2 (- (53)) = / IZR (2 ^ 53)) by reflexivity. rewrite B in G. change (2 ^ 53)%Z with 9007199254740992%Z in G.
  assert (T : p10 (-17) = / 100000000000000000).
  { assert (X : p10 (-17) * p10 17 = 1) by (rewrite <- p10_add; reflexivity). rewrite (pow10_Z 17) in X by lia. change (10 ^ 17)%Z with 100000000000000000%Z in X. lra. }
  rewrite T in Hk. lra.
Qed.

Lemma start_bounds : (0 < num)%N ->
  let start := (Z.of_nat (length (itoa num)) - Z.of_nat (length (itoa den)) + 1)%Z in p10 (start - 2) <= v < p10 start.
Proof.
  intros Pn start. destruct (itoa_length num Pn) as [N1 N2]. destruct (itoa_length den Pd) as [D1 D2]. unfold start.
  set (a := Z.of_nat (length (itoa num))) in *. set (c := Z.of_nat (length (itoa den))) in *.
  assert (0 < a /\ 0 < c)%Z as [Pa Pc].
  { unfold a, c. destruct (itoa_digits num) as (_ & X & _), (itoa_digits den) as (_ & Y & _). destruct (itoa num), (itoa den); cbn [length]; try congruence; lia. }
  apply IZR_le in N1, D1. apply IZR_lt in N2, D2. rewrite <- pow10_Z in N1, N2, D1, D2 by lia. rewrite Ev.
  assert (0 < IZR (Z.of_N den)) by (apply IZR_lt; lia). set (n := IZR (Z.of_N num)) in *. set (dd := IZR (Z.of_N den)) in *.
  pose proof (p10_pos (a - c - 1)) as X1. pose proof (p10_pos (a - c + 1)) as X2.
  replace (a - c + 1 - 2)%Z with (a - c - 1)%Z by lia. split.
  - apply (Rmult_le_reg_r dd); [lra|]. unfold Rdiv. rewrite Rmult_assoc, Rinv_l, Rmult_1_r by lra.
    replace (a - 1)%Z with (a - c - 1 + c)%Z in N1 by lia. rewrite p10_add in N1. nra.
  - apply (Rmult_lt_reg_r dd); [lra|]. unfold Rdiv. rewrite Rmult_assoc, Rinv_l, Rmult_1_r by lra.
    replace a with (a - c + 1 + (c - 1))%Z in N2 at 1 by lia. rewrite p10_add in N2. nra.
Qed.

Lemma coarse_unit k d : v < p10 k -> (0 < d)%N -> reads (k + 1) d -> False.
Proof.
  intros Hk Pd' E. pose proof v_pos as Pv. pose proof v_representable as Rv. set (x := v) in *.
  assert (R2 : representable (2 * x)).
  { unfold representable in *. replace (2 * x) with (x * bpow radix2 1) by (cbn; ring).
    apply FLT_format_generic in Rv; [|reflexivity]. destruct Rv as [[fm fe] E0 Hm He]. cbn [Fnum Fexp] in *. rewrite E0.
    apply generic_format_FLT. apply (FLT_spec radix2 (-1074) 53 _ (Float radix2 fm (fe + 1))); cbn [Fnum Fexp]; [|exact Hm|lia].
    unfold F2R. cbn [Fnum Fexp]. rewrite bpow_plus. ring. }
  assert (L : 2 * x <= IZR (Z.of_N d) * p10 (k + 1)).
  { assert (1 <= IZR (Z.of_N d)) by (apply IZR_le; lia). rewrite p10_add. change (p10 1) with (10 * 1). pose proof (p10_pos k). nra. }
  apply nearest_mono in L. rewrite (nearest_id _ R2), E in L. lra.
Qed.

Lemma shortest_spec exact : forall fuel k, (exists k0, (k - Z.of_nat fuel < k0 <= k)%Z /\ digits_at s f num den k0 <> None) ->
  exists d k0, shortest fuel s f num den exact k = (d, k0) /\ (k0 <= k)%Z /\ digits_at s f num den k0 = Some d /\
    forall k', (k0 < k' <= k)%Z -> digits_at s f num den k' = None.
Proof.
  induction fuel as [|fuel IH]; intros k (k0 & B & Hk); [lia|]. cbn [shortest]. destruct (digits_at s f num den k) as [d|] eqn:E.
  - exists d, k. repeat split; auto; lia.
  - destruct (IH (k - 1)%Z) as (d & k1 & E1 & L & Hd & Hn).
    + exists k0. split; [|exact Hk]. assert (k0 <> k) by congruence. lia.
    + exists d, k1. split; [exact E1|]. split; [lia|]. split; [exact Hd|]. intros k' Hk'. destruct (Z.eq_dec k' k) as [->|Ne]; [exact E|]. apply Hn. lia.
Qed.

Lemma shortest_result exact : (0 < num)%N ->
  exists d k, shortest 20 s f num den exact (Z.of_nat (length (itoa num)) - Z.of_nat (length (itoa den)) + 1) = (d, k) /\
    reads k d /\ (forall d' k', (k < k')%Z -> ~ reads k' d') /\
    (forall d', reads k d' -> Rabs (IZR (Z.of_N d) * p10 k - v) <= Rabs (IZR (Z.of_N d') * p10 k - v)).
Proof.
  intros Pn. destruct (start_bounds Pn) as [B1 B2]. set (start := (Z.of_nat (length (itoa num)) - Z.of_nat (length (itoa den)) + 1)%Z) in *.
  destruct (shortest_spec exact 20 start) as (d & k & E & L & Hd & Hn).
  { exists (start - 19)%Z. split; [lia|]. apply fine_unit. replace (start - 19)%Z with (start - 2 + -17)%Z by lia. rewrite p10_add.
    pose proof (p10_pos (-17)). apply Rmult_le_compat_r; lra. }
  exists d, k. split; [exact E|]. pose proof (digits_at_spec k) as Sp. rewrite Hd in Sp. destruct Sp as [Rd Nd]. split; [exact Rd|]. split; [|exact Nd].
  intros d' k' Lk Rk. destruct (Z.le_gt_cases k' start) as [L'|L'].
  - pose proof (digits_at_spec k') as Sp'. rewrite Hn in Sp' by lia. exact (Sp' d' Rk).
  - assert (Pd' : (0 < d')%N).
    { apply N.neq_0_lt_0. intros ->. cbn in Rk. rewrite Rmult_0_l, nearest_id in Rk; [|apply generic_format_0]. pose proof v_pos. lra. }
    apply (coarse_unit (k' - 1) d'); [|exact Pd'|replace (k' - 1 + 1)%Z with k' by lia; exact Rk].
    apply Rlt_le_trans with (p10 start); [exact B2|]. apply p10_le. lia.
Qed.
End Unit.

(** What FormatFloat writes. *)
Lemma format_shortest s m e : finite_double (S754_finite s m e) ->
  let v := IZR (Z.pos m) * bpow radix2 e in
  exists d k, format_float (S754_finite s m e) = (if s then b "-" else []) ++ positional d k /\
    nearest (IZR (Z.of_N d) * p10 k) = v /\
    (forall d' k', (k < k')%Z -> nearest (IZR (Z.of_N d') * p10 k') <> v) /\
    (forall d', nearest (IZR (Z.of_N d') * p10 k) = v -> Rabs (IZR (Z.of_N d) * p10 k - v) <= Rabs (IZR (Z.of_N d') * p10 k - v)).
Proof.
  intros F v. unfold format_float.
  set (num := match e with Zneg _ => N.pos m | _ => (N.pos m * 2 ^ Z.to_N e)%N end).
  set (den := match e with Zneg k => (2 ^ N.pos k)%N | _ => 1%N end).
  set (exact := match e with Zneg k => ((N.pos m * 5 ^ N.pos k)%N, e) | _ => ((N.pos m * 2 ^ Z.to_N e)%N, 0%Z) end).
  replace (match e with Zneg k => _ | _ => _ end) with (num, den, exact) by (unfold num, den, exact; destruct e; reflexivity).
  assert (Pn : (0 < num)%N).
  { unfold num. destruct e; try lia; apply N.mul_pos_pos; try lia; apply N.neq_0_lt_0, N.pow_nonzero; lia. }
  assert (Pd : (0 < den)%N) by (unfold den; destruct e; try lia; apply N.neq_0_lt_0, N.pow_nonzero; lia).
  assert (Ev : v = IZR (Z.of_N num) / IZR (Z.of_N den)).
  { unfold v, num, den. destruct e as [|k|k].
    - change (Z.to_N 0) with 0%N. rewrite N.pow_0_r, N.mul_1_r. cbn. field.
    - rewrite N2Z.inj_mul, N2Z.inj_pow, mult_IZR, bpow_pos. change (Z.of_N 2) with 2%Z. change (Z.of_N (Z.to_N (Z.pos k))) with (Z.pos k). cbn [Z.of_N]. field.
    - change (Z.neg k) with (- Z.pos k)%Z. rewrite bpow_opp, bpow_pos, N2Z.inj_pow. reflexivity. }
  destruct (shortest_result s m e F num den Pd Ev exact Pn) as (d & k & E & H). rewrite E. exists d, k. split; [reflexivity|]. exact H.
Qed.
