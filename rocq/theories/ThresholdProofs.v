(** The threshold comparison of the sampler (Flocq). *)
From Verif Require Import Bytes GoStrconv GoTime GoFloat NumSpec FloatProofs Sampler.
From Coq Require Import Reals Lra ZifyBool ZifyN ZifyNat.
From Flocq Require Import Core BinarySingleNaN Relative.
Local Open Scope R_scope.

#[local] Instance prec_pos' : Prec_gt_0 53 := eq_refl.
#[local] Instance prec_small' : Prec_lt_emax 53 1024 := eq_refl.

Lemma int_exact z : (Z.abs z <= 2 ^ 53)%Z -> finite_double (f_of_Z z) /\ double_value (f_of_Z z) = IZR z.
Proof.
  intros H. destruct (f_of_Z_rounds z) as (V & F & _). destruct F as [E Fin]; [apply int_in_range; lia|].
  split; [now split|]. rewrite E. apply nearest_id. now apply integer_representable.
Qed.

Lemma nearest_0 : nearest 0 = 0.
Proof. apply round_0. apply valid_rnd_N. Qed.

(** A quotient within the range is the nearest double. *)
Lemma div_exact x y : finite_double x -> finite_double y -> double_value y <> 0 ->
  in_double_range (double_value x / double_value y) ->
  finite_double (f_div x y) /\ double_value (f_div x y) = nearest (double_value x / double_value y).
Proof.
  intros [Vx Fx] [Vy Fy] Ny R.
  destruct y as [sy| | |sy my ey]; try discriminate; [now destruct Ny|].
  destruct x as [sx| | |sx mx ex]; try discriminate.
  - split; [split; reflexivity|]. change (double_value (S754_zero sx)) with 0. unfold Rdiv. rewrite Rmult_0_l, nearest_0. reflexivity.
  - pose proof (Bdiv_correct_aux 53 1024 _ _ mode_NE sx mx ex sy my ey) as H. cbv zeta in H.
    unfold f_div, SFdiv. destruct (SFdiv_core_binary 53 1024 (Z.pos mx) ex (Z.pos my) ey) as [[q e] l].
    rewrite round_aux_equiv. destruct H as (V & H). rewrite nearest_eq in H.
    change (F2R (Float radix2 (cond_Zopp sx (Z.pos mx)) ex)) with (double_value (S754_finite sx mx ex)) in H.
    change (F2R (Float radix2 (cond_Zopp sy (Z.pos my)) ey)) with (double_value (S754_finite sy my ey)) in H.
    destruct (rounds_intro _ _ _ V H) as (_ & G & _). destruct (G R) as [G1 G2]. split; [now split|exact G1].
Qed.

(** Numbers of ordinary size are rounded by a relative error of at most 2^-53. *)
Lemma nearest_error r : / IZR (2 ^ 60) <= r -> Rabs (nearest r - r) <= / IZR (2 ^ 53) * r.
Proof.
  intros H. pose proof (Rinv_0_lt_compat (IZR (2 ^ 60)) ltac:(apply IZR_lt; reflexivity)) as P.
  assert (Pos : 0 < r) by lra.
  pose proof (relative_error_N_FLT radix2 (-1074) 53 eq_refl (fun x => negb (Z.even x)) r) as E.
  replace (/ 2 * bpow radix2 (- (53) + 1)) with (/ IZR (2 ^ 53)) in E.
  - rewrite (Rabs_pos_eq r) in E by lra. apply E.
    apply Rle_trans with (/ IZR (2 ^ 60)); [|exact H].
    replace (/ IZR (2 ^ 60)) with (bpow radix2 (-60)); [apply bpow_le; lia|].
    change (2 ^ 60)%Z with (radix2 ^ 60)%Z. rewrite IZR_Zpower by lia. now rewrite <- bpow_opp.
  - change (2 ^ 53)%Z with (radix2 ^ 53)%Z. rewrite IZR_Zpower by lia. rewrite <- bpow_opp.
    change (/ 2) with (bpow radix2 (-1)). now rewrite <- bpow_plus.
Qed.

Lemma in_range_between lo hi r : in_double_range lo -> in_double_range hi -> lo <= r <= hi -> in_double_range r.
Proof.
  unfold in_double_range. intros L H [A B]. apply nearest_mono in A, B.
  apply Rabs_def2 in L, H. apply Rabs_def1; lra.
Qed.

Lemma quotient_range c d : (Z.abs c <= 2 ^ 53)%Z -> (0 < d)%Z -> in_double_range (IZR c / IZR d).
Proof.
  intros C D. apply in_range_between with (IZR (- 2 ^ 53)) (IZR (2 ^ 53)); [apply int_in_range; lia|apply int_in_range; lia|].
  assert (D1 : 1 <= IZR d) by (apply IZR_le; lia).
  assert (Id : 0 < / IZR d <= 1).
  { split; [apply Rinv_0_lt_compat; lra|]. rewrite <- Rinv_1. apply Rinv_le_contravar; lra. }
  assert (C1 : IZR (- 2 ^ 53) <= IZR c <= IZR (2 ^ 53)) by (split; apply IZR_le; lia).
  assert (P : 0 < IZR (2 ^ 53)) by (apply IZR_lt; reflexivity). rewrite opp_IZR in *. unfold Rdiv. split; nra.
Qed.

Lemma threshold_exact docs t c : (0 < docs <= 2 ^ 53)%Z -> (Z.abs t <= 2 ^ 53)%Z -> (Z.of_N c <= 2 ^ 53)%Z -> (t * docs < 2 ^ 52)%Z ->
  at_threshold docs t c = true <-> (t * docs <= 100 * Z.of_N c)%Z.
Proof.
  intros Hd Ht Hc P. unfold at_threshold.
  destruct (int_exact (Z.of_N c) ltac:(lia)) as [Fc Ec]. destruct (int_exact docs ltac:(lia)) as [Fd Ed].
  destruct (int_exact t Ht) as [Ft Et]. destruct (int_exact 100 ltac:(lia)) as [Fh Eh].
  assert (Dp : 0 < IZR docs) by (apply IZR_lt; lia).
  destruct (div_exact _ _ Fc Fd) as [Fx Ex]; [rewrite Ed; lra|rewrite Ec, Ed; apply quotient_range; lia|].
  destruct (div_exact _ _ Ft Fh) as [Fy Ey]; [rewrite Eh; lra|rewrite Et, Eh; apply quotient_range; lia|].
  rewrite (ge_exact _ _ Fx Fy), Ex, Ey, Ec, Ed, Et, Eh. set (x := IZR (Z.of_N c) / IZR docs). set (y := IZR t / 100).
  assert (Xd : x * IZR docs = IZR (Z.of_N c)) by (unfold x; field; lra).
  assert (Yh : y * 100 = IZR t) by (unfold y; field).
  split.
  - intros G. destruct (Z_le_gt_dec (t * docs) (100 * Z.of_N c)) as [L|L]; [exact L|exfalso].
    assert (Tp : (0 < t)%Z) by nia.
    assert (G1 : 100 * IZR (Z.of_N c) + 1 <= IZR t * IZR docs) by (rewrite <- !mult_IZR, <- plus_IZR; apply IZR_le; lia).
    assert (G2 : IZR t * IZR docs < IZR (2 ^ 52)) by (rewrite <- mult_IZR; apply IZR_lt; lia).
    assert (Gap : (y - x) * IZR docs * 100 >= 1) by nra.
    assert (Xy : x < y) by nra.
    assert (Cp : 0 <= IZR (Z.of_N c)) by (apply IZR_le; lia).
    assert (Small : / IZR (2 ^ 60) <= y).
    { apply Rle_trans with (/ 100); [apply Rinv_le_contravar; [lra|apply IZR_le; lia]|]. assert (1 <= IZR t) by (apply IZR_le; lia). lra. }
    pose proof (nearest_error y Small) as Ery.
    assert (Erx : Rabs (nearest x - x) <= / IZR (2 ^ 53) * x).
    { destruct (Z.eq_dec (Z.of_N c) 0) as [Z0|Nz].
      - replace x with 0 by (unfold x; rewrite Z0; unfold Rdiv; ring). rewrite nearest_0, Rminus_0_r, Rabs_R0. lra.
      - apply nearest_error. unfold x. apply Rle_trans with (/ IZR docs).
        + apply Rinv_le_contravar; [lra|apply IZR_le; lia].
        + assert (1 <= IZR (Z.of_N c)) by (apply IZR_le; lia). assert (0 < / IZR docs) by now apply Rinv_0_lt_compat. unfold Rdiv. nra. }
    apply Rabs_le_inv in Ery, Erx.
    set (u := / IZR (2 ^ 53)) in *. assert (U : u * IZR (2 ^ 53) = 1) by (unfold u; field; apply IZR_neq; discriminate).
    assert (Up : 0 < u) by (unfold u; apply Rinv_0_lt_compat, IZR_lt; reflexivity).
    assert (B : y - x <= u * x + u * y) by lra. assert (B2 : y - x < 2 * u * y) by nra.
    assert (B3 : (y - x) * IZR docs * 100 < 2 * u * y * IZR docs * 100) by (assert (0 < IZR docs * 100) by lra; nra).
    assert (B4 : 2 * u * y * IZR docs * 100 = 2 * u * (IZR t * IZR docs)) by (rewrite <- Yh; ring).
    assert (B5 : 2 * u * (IZR t * IZR docs) < 2 * u * IZR (2 ^ 52)) by (assert (0 < 2 * u) by lra; nra).
    assert (B6 : 2 * u * IZR (2 ^ 52) = 1) by (rewrite <- U; replace (IZR (2 ^ 53)) with (2 * IZR (2 ^ 52)) by (rewrite <- mult_IZR; reflexivity); ring).
    lra.
  - intros L. apply Rle_ge, nearest_mono.
    assert (L' : IZR t * IZR docs <= 100 * IZR (Z.of_N c)) by (rewrite <- !mult_IZR; apply IZR_le; lia). nra.
Qed.
