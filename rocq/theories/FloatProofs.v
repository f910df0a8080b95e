(** The doubles of GoFloat.v are the nearest ones (Flocq). *)
From Verif Require Import Bytes GoStrconv GoTime GoFloat NumSpec.
From Coq Require Import Reals Lra.
From Flocq Require Import Core BinarySingleNaN.
Local Open Scope R_scope.
Local Notation valid := (valid_binary 53 1024).

#[local] Instance prec_pos : Prec_gt_0 53 := eq_refl.
#[local] Instance prec_small : Prec_lt_emax 53 1024 := eq_refl.

Definition double_value (x : f64) : R := SF2R radix2 x.
(** A finite double. *)
Definition finite_double (x : f64) : Prop := valid x = true /\ is_finite_SF x = true.

Lemma nearest_eq r : round radix2 (fexp 53 1024) (round_mode mode_NE) r = nearest r.
Proof. reflexivity. Qed.

Lemma round_aux_equiv sx mx ex lx :
  SpecFloat.binary_round_aux 53 1024 sx mx ex lx = binary_round_aux 53 1024 mode_NE sx mx ex lx.
Proof.
  unfold SpecFloat.binary_round_aux, binary_round_aux. destruct (shr_fexp _ _ _ _ _) as [mrs' e'].
  replace (round_nearest_even (shr_m mrs') (loc_of_shr_record mrs')) with (choice_mode mode_NE sx (shr_m mrs') (loc_of_shr_record mrs')); [reflexivity|].
  destruct (loc_of_shr_record mrs') as [|[]]; try reflexivity. cbn. unfold Round.cond_incr. now case Z.even.
Qed.
Lemma round_equiv s m e : SpecFloat.binary_round 53 1024 s m e = binary_round 53 1024 mode_NE s m e.
Proof. unfold SpecFloat.binary_round, binary_round, shl_align_fexp. destruct (shl_align _ _ _). apply round_aux_equiv. Qed.

(** [rounds x r neg]: [x] is the double nearest to [r], or an infinity if there is none. *)
Definition rounds (x : f64) (r : R) (neg : bool) : Prop :=
  valid x = true /\
  (in_double_range r -> double_value x = nearest r /\ is_finite_SF x = true) /\
  (~ in_double_range r -> x = S754_infinity neg).

Lemma rounds_intro x r neg : valid x = true ->
  (if Rlt_bool (Rabs (nearest r)) (bpow radix2 1024) then SF2R radix2 x = nearest r /\ is_finite_SF x = true /\ sign_SF x = neg
   else x = binary_overflow 53 1024 mode_NE neg) -> rounds x r neg.
Proof.
  intros V H. split; [exact V|]. unfold in_double_range, max_double. revert H. case Rlt_bool_spec; intros L H.
  - split; [intros _; now destruct H as (H & H' & _)|]. intros N. lra.
  - split; [lra|]. intros _. exact H.
Qed.

Lemma normalize_rounds m neg : rounds (SpecFloat.binary_normalize 53 1024 m 0 neg) (IZR m) (match m with Z0 => neg | Zpos _ => false | Zneg _ => true end).
Proof.
  destruct m as [|p|p]; cbn [SpecFloat.binary_normalize].
  - assert (N0 : nearest (IZR 0) = 0) by (apply round_0; apply valid_rnd_N).
    apply rounds_intro; [reflexivity|]. rewrite N0, Rabs_R0, Rlt_bool_true by apply bpow_gt_0. repeat split.
  - rewrite round_equiv. destruct (binary_round_correct 53 1024 _ _ mode_NE false p 0) as (V & H).
    apply rounds_intro; [exact V|]. cbv zeta in H. rewrite nearest_eq in H. cbn [cond_Zopp] in H. replace (F2R (Float radix2 (Z.pos p) 0)) with (IZR (Z.pos p)) in H; [exact H|].
    unfold F2R. cbn. ring.
  - rewrite round_equiv. destruct (binary_round_correct 53 1024 _ _ mode_NE true p 0) as (V & H).
    apply rounds_intro; [exact V|]. cbv zeta in H. rewrite nearest_eq in H. cbn [cond_Zopp] in H. change (- Z.pos p)%Z with (Z.neg p) in H.
    replace (F2R (Float radix2 (Z.neg p) 0)) with (IZR (Z.neg p)) in H; [exact H|].
    unfold F2R. cbn. ring.
Qed.

Lemma ratio_rounds neg m1 m2 : rounds (f_of_ratio neg m1 m2) ((if neg then -1 else 1) * IZR (Zpos m1) / IZR (Zpos m2)) neg.
Proof.
  unfold f_of_ratio. pose proof (Bdiv_correct_aux 53 1024 _ _ mode_NE neg m1 0 false m2 0) as H. cbv zeta in H.
  destruct (SFdiv_core_binary 53 1024 (Z.pos m1) 0 (Z.pos m2) 0) as [[q e] l]. rewrite round_aux_equiv. rewrite xorb_false_r in H. destruct H as (V & H).
  apply rounds_intro; [exact V|]. rewrite nearest_eq in H.
  replace (F2R (Float radix2 (cond_Zopp neg (Z.pos m1)) 0) / F2R (Float radix2 (cond_Zopp false (Z.pos m2)) 0))
    with ((if neg then -1 else 1) * IZR (Zpos m1) / IZR (Zpos m2)) in H; [exact H|].
  unfold F2R. cbn [Fnum Fexp bpow cond_Zopp]. rewrite !Rmult_1_r. unfold Rdiv. f_equal. destruct neg; cbn [cond_Zopp]; [rewrite opp_IZR|]; ring.
Qed.

Lemma pow10_Z k : (0 <= k)%Z -> powerRZ 10 k = IZR (10 ^ k).
Proof.
  intros H. rewrite <- (Z2Nat.id k H). rewrite <- pow_powerRZ. rewrite <- pow_IZR. reflexivity.
Qed.

(** What f_of_decimal computes. *)
Lemma decimal_rounds neg m e : rounds (f_of_decimal neg m e) ((if neg then -1 else 1) * IZR (Z.of_N m) * powerRZ 10 e) neg.
Proof.
  destruct m as [|p].
  - cbn [f_of_decimal Z.of_N].
    assert (N0 : nearest ((if neg then -1 else 1) * 0 * powerRZ 10 e) = 0).
    { replace ((if neg then -1 else 1) * 0 * powerRZ 10 e) with 0 by ring. apply round_0; apply valid_rnd_N. }
    apply rounds_intro; [reflexivity|]. rewrite N0, Rabs_R0, Rlt_bool_true by apply bpow_gt_0. repeat split.
  - cbn [f_of_decimal Z.of_N]. destruct e as [|k|k].
    + cbn [powerRZ]. rewrite Rmult_1_r. pose proof (normalize_rounds (if neg then - Z.pos p else Z.pos p)%Z neg) as H.
      destruct neg; cbn [Z.opp] in *.
      * replace (-1 * IZR (Z.pos p)) with (IZR (Z.neg p)); [exact H|]. change (Z.neg p) with (- Z.pos p)%Z. rewrite opp_IZR. ring.
      * now rewrite Rmult_1_l.
    + rewrite pow10_Z by lia. pose proof (normalize_rounds (if neg then - (Z.pos p * 10 ^ Z.pos k) else Z.pos p * 10 ^ Z.pos k)%Z neg) as H.
      rewrite Rmult_assoc, <- mult_IZR. assert (0 < Z.pos p * 10 ^ Z.pos k)%Z as Pos by (apply Z.mul_pos_pos; [lia|apply Z.pow_pos_nonneg; lia]).
      destruct (Z.pos p * 10 ^ Z.pos k)%Z as [|n|n]; try lia. destruct neg; cbn [Z.opp] in *.
      * replace (-1 * IZR (Z.pos n)) with (IZR (Z.neg n)); [exact H|]. change (Z.neg n) with (- Z.pos n)%Z. rewrite opp_IZR. ring.
      * now rewrite Rmult_1_l.
    + pose proof (ratio_rounds neg p (10 ^ k)) as H. replace (powerRZ 10 (Z.neg k)) with (/ IZR (Z.pos (10 ^ k))); [exact H|].
      rewrite Pos2Z.inj_pow. rewrite <- pow10_Z by lia. reflexivity.
Qed.

(** ** Comparison *)
Lemma compare_exact x y : finite_double x -> finite_double y ->
  SFcompare x y = Some (Rcompare (double_value x) (double_value y)).
Proof.
  intros (Vx & Fx) (Vy & Fy).
  pose proof (Bcompare_correct 53 1024 (SF2B x Vx) (SF2B y Vy)) as H.
  rewrite !is_finite_SF2B in H. specialize (H Fx Fy). unfold Bcompare in H. rewrite !B2SF_SF2B, !B2R_SF2B in H. exact H.
Qed.
Lemma lt_exact x y : finite_double x -> finite_double y -> f_lt x y = true <-> double_value x < double_value y.
Proof. intros. unfold f_lt. rewrite compare_exact by auto. destruct (Rcompare_spec (double_value x) (double_value y)); split; intros; try discriminate; try reflexivity; lra. Qed.
Lemma le_exact x y : finite_double x -> finite_double y -> f_le x y = true <-> double_value x <= double_value y.
Proof. intros. unfold f_le. rewrite compare_exact by auto. destruct (Rcompare_spec (double_value x) (double_value y)); split; intros; try discriminate; try reflexivity; lra. Qed.
Lemma eq_exact x y : finite_double x -> finite_double y -> f_eq x y = true <-> double_value x = double_value y.
Proof. intros. unfold f_eq. rewrite compare_exact by auto. destruct (Rcompare_spec (double_value x) (double_value y)); split; intros; try discriminate; try reflexivity; lra. Qed.
Lemma gt_exact x y : finite_double x -> finite_double y -> f_gt x y = true <-> double_value x > double_value y.
Proof. intros. unfold f_gt. rewrite compare_exact by auto. destruct (Rcompare_spec (double_value x) (double_value y)); split; intros; try discriminate; try reflexivity; lra. Qed.
Lemma ge_exact x y : finite_double x -> finite_double y -> f_ge x y = true <-> double_value x >= double_value y.
Proof. intros. unfold f_ge. rewrite compare_exact by auto. destruct (Rcompare_spec (double_value x) (double_value y)); split; intros; try discriminate; try reflexivity; lra. Qed.

(** ** Properties of [nearest] *)
Lemma nearest_mono x y : x <= y -> nearest x <= nearest y.
Proof. intros H. apply round_le; [apply (FLT_exp_valid (-1074) 53)|apply valid_rnd_N|exact H]. Qed.
Lemma nearest_strict x y : nearest x < nearest y -> x < y.
Proof. intros H. destruct (Rlt_le_dec x y) as [L|L]; [exact L|]. apply nearest_mono in L. lra. Qed.
Lemma nearest_id x : representable x -> nearest x = x.
Proof. intros H. apply round_generic; [apply valid_rnd_N|exact H]. Qed.
Lemma integer_representable z : (Z.abs z <= 2 ^ 53)%Z -> representable (IZR z).
Proof.
  intros H. unfold representable.
  destruct (Z.eq_dec (Z.abs z) (2 ^ 53)) as [E|N].
  - replace (IZR z) with (F2R (Float radix2 (Z.sgn z) 53)).
    + apply generic_format_FLT. apply (FLT_spec radix2 (-1074) 53 _ (Float radix2 (Z.sgn z) 53)); [reflexivity| |cbn; lia].
      destruct z; cbn; lia.
    + unfold F2R. cbn [Fnum Fexp]. rewrite <- (IZR_Zpower radix2 53) by lia. rewrite <- mult_IZR. f_equal. cbn [radix_val radix2].
      rewrite <- E. apply Z.sgn_abs || (rewrite Z.mul_comm; apply Z.abs_sgn).
  - apply generic_format_FLT. apply (FLT_spec radix2 (-1074) 53 _ (Float radix2 z 0)); [|cbn; lia|cbn; lia].
    unfold F2R. cbn. ring.
Qed.
Lemma representable_range x : representable x -> Rabs x < max_double -> in_double_range x.
Proof. intros H L. unfold in_double_range. now rewrite nearest_id. Qed.

Lemma f_of_Z_rounds z : rounds (f_of_Z z) (IZR z) (match z with Zneg _ => true | _ => false end).
Proof. pose proof (normalize_rounds z false) as H. unfold f_of_Z. destruct z; exact H. Qed.
Lemma int_in_range z : (- 2 ^ 63 <= z <= 2 ^ 63)%Z -> in_double_range (IZR z).
Proof.
  intros H. unfold in_double_range, max_double. apply Rle_lt_trans with (bpow radix2 63); [|apply bpow_lt; lia].
  apply abs_round_le_generic; [apply (FLT_exp_valid (-1074) 53)|apply valid_rnd_N| |].
  - apply generic_format_bpow. cbn. lia.
  - rewrite <- (IZR_Zpower radix2 63) by lia. rewrite <- abs_IZR. apply IZR_le. cbn [radix_val radix2]. lia.
Qed.
