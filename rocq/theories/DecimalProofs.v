(** Texts in plain notation; FormatFloat writes them; numbers of 15 digits come back unchanged. *)
From Verif Require Import Bytes GoItoa ItoaProofs GoStrconv GoTime GoFloat NumSpec FloatProofs NumProofs FormatFloat FormatFloatProofs ShortestProofs DecimalSpec.
From Coq Require Import Reals Lra ZifyBool ZifyN ZifyNat.
From Flocq Require Import Core BinarySingleNaN.
Local Notation p10 := (powerRZ 10).
#[local] Instance prec_pos : Prec_gt_0 53 := eq_refl.

(** ** Uniqueness *)
Lemma digits_value_app x y : digits_value (x ++ y) = (digits_value x * 10 ^ Z.of_nat (length y) + digits_value y)%Z.
Proof.
  induction x as [|c x IH]; cbn [app digits_value]; [lia|]. rewrite IH, app_length, Nat2Z.inj_add, Z.pow_add_r by lia. ring.
Qed.
Lemma digits_value_inj x : forall y, length x = length y -> Forall dig x -> Forall dig y -> digits_value x = digits_value y -> x = y.
Proof.
  induction x as [|c x IH]; intros [|d y] L Fx Fy E; try discriminate; [reflexivity|]. cbn [length] in L. injection L as L.
  inversion Fx as [|? ? Dc Fx']; inversion Fy as [|? ? Dd Fy']; subst. cbn [digits_value] in E. rewrite L in E.
  pose proof (digits_value_nonneg x Fx'). pose proof (digits_value_nonneg y Fy'). pose proof (digits_value_upper x Fx') as Ux. pose proof (digits_value_upper y Fy').
  rewrite L in Ux. set (P := (10 ^ Z.of_nat (length y))%Z) in *. unfold dig in *.
  assert (c = d) by nia. subst d. f_equal. apply IH; auto. lia.
Qed.

Lemma plain_unique_le sg1 ip1 fp1 s1 sg2 ip2 fp2 s2 :
  sign_text sg1 s1 -> sign_text sg2 s2 -> (sg1 = [] \/ sg1 = b "-") -> (sg2 = [] \/ sg2 = b "-") ->
  Forall dig ip1 -> Forall dig fp1 -> Forall dig ip2 -> Forall dig fp2 -> ip1 <> [] ->
  (ip1 = b "0" \/ exists c r, ip1 = c :: r /\ c <> 48) -> (ip2 = b "0" \/ exists c r, ip2 = c :: r /\ c <> 48) ->
  (fp2 = [] \/ exists l c, fp2 = l ++ [c] /\ c <> 48) ->
  (length fp1 <= length fp2)%nat ->
  (s1 * IZR (digits_value (ip1 ++ fp1)) * p10 (- Z.of_nat (length fp1)) = s2 * IZR (digits_value (ip2 ++ fp2)) * p10 (- Z.of_nat (length fp2)))%R ->
  (s1 * IZR (digits_value (ip1 ++ fp1)) * p10 (- Z.of_nat (length fp1)) <> 0)%R ->
  sg1 = sg2 /\ ip1 = ip2 /\ fp1 = fp2.
Proof.
  intros S1 S2 G1 G2 I1 F1 I2 F2 Ne H1 H2 Hl L E Nz.
  assert (A1 : Forall dig (ip1 ++ fp1)) by (apply Forall_app; now split). assert (A2 : Forall dig (ip2 ++ fp2)) by (apply Forall_app; now split).
  pose proof (digits_value_nonneg _ A1) as N1. pose proof (digits_value_nonneg _ A2) as N2.
  set (D1 := digits_value (ip1 ++ fp1)) in *. set (D2 := digits_value (ip2 ++ fp2)) in *.
  pose proof (p10_pos (- Z.of_nat (length fp2))) as P2.
  set (g := (Z.of_nat (length fp2) - Z.of_nat (length fp1))%Z) in *.
  replace (- Z.of_nat (length fp1))%Z with (g + - Z.of_nat (length fp2))%Z in E, Nz by (unfold g; lia).
  rewrite p10_add, pow10_Z in E, Nz by (unfold g; lia).
  assert (Pg : (0 < 10 ^ g)%Z) by (apply Z.pow_pos_nonneg; unfold g; lia).
  assert (E' : (s1 * (IZR D1 * IZR (10 ^ g)) = s2 * IZR D2)%R) by (apply (Rmult_eq_reg_r (p10 (- Z.of_nat (length fp2)))); [lra|lra]).
  rewrite <- mult_IZR in E'.
  assert (Nd1 : (D1 <> 0)%Z) by (intros Q; rewrite Q in Nz; apply Nz; ring).
  assert (Pd1 : (0 < IZR (D1 * 10 ^ g))%R) by (apply IZR_lt, Z.mul_pos_pos; lia).
  assert (Pd2 : (0 <= IZR D2)%R) by (apply IZR_le; lia).
  assert (Sg : sg1 = sg2 /\ s1 = s2).
  { inversion S1; inversion S2; subst; try (split; [reflexivity|lra]); try (destruct G1; discriminate); try (destruct G2; discriminate); lra. }
  destruct Sg as [-> ->]. assert (Q : (D1 * 10 ^ g = D2)%Z) by (apply eq_IZR; inversion S1; subst; lra).
  assert (Lf : length fp1 = length fp2).
  { destruct (Nat.eq_dec (length fp1) (length fp2)) as [|Df]; [assumption|exfalso].
    destruct Hl as [->|(l & c & -> & Hc)]; [cbn [length] in *; lia|]. unfold D2 in Q. rewrite app_assoc, digits_value_app in Q. cbn [digits_value length] in Q.
    replace g with (Z.succ (g - 1)) in Q by lia. rewrite Z.pow_succ_r in Q by (unfold g; lia). apply Forall_app in F2 as [_ F2]. inversion F2 as [|? ? Dc _]; subst. unfold dig in Dc.
    change (Z.of_nat 1) with 1%Z in Q. change (Z.of_nat 0) with 0%Z in Q. rewrite Z.pow_1_r, Z.pow_0_r in Q. lia. }
  replace g with 0%Z in Q by (unfold g; lia). rewrite Z.pow_0_r, Z.mul_1_r in Q.
  split; [reflexivity|]. assert (Li : length ip1 = length ip2).
  { assert (Lower : forall ip fp, Forall dig (ip ++ fp) -> (1 < length ip)%nat -> (ip = b "0" \/ exists c r, ip = c :: r /\ c <> 48) ->
      (10 ^ (Z.of_nat (length (ip ++ fp)) - 1) <= digits_value (ip ++ fp))%Z).
    { intros ip fp A Lx [->|(c & r & -> & Hc)]; [cbn in Lx; lia|].
      replace (Z.of_nat (length ((c :: r) ++ fp)) - 1)%Z with (Z.of_nat (length (r ++ fp))) by (cbn [app length]; lia).
      apply (digits_value_lower c (r ++ fp)); assumption. }
    pose proof (digits_value_upper _ A1) as U1. pose proof (digits_value_upper _ A2) as U2. fold D1 in U1. fold D2 in U2. rewrite app_length in U1, U2.
    destruct (Nat.lt_trichotomy (length ip1) (length ip2)) as [Lt|[|Lt]]; [exfalso|assumption|exfalso].
    - assert (1 < length ip2)%nat by (destruct ip1; [congruence|cbn [length] in Lt; lia]). pose proof (Lower ip2 fp2 A2 H H2) as Lw. fold D2 in Lw. rewrite app_length in Lw.
      assert (10 ^ Z.of_nat (length ip1 + length fp1) <= 10 ^ (Z.of_nat (length ip2 + length fp2) - 1))%Z by (apply Z.pow_le_mono_r; lia). lia.
    - assert (1 < length ip1)%nat.
      { destruct ip2; [|cbn [length] in Lt; lia]. destruct H2 as [Q2|(? & ? & Q2 & _)]; discriminate. }
      pose proof (Lower ip1 fp1 A1 H H1) as Lw. fold D1 in Lw. rewrite app_length in Lw.
      assert (10 ^ Z.of_nat (length ip2 + length fp2) <= 10 ^ (Z.of_nat (length ip1 + length fp1) - 1))%Z by (apply Z.pow_le_mono_r; lia). lia. }
  assert (T : ip1 ++ fp1 = ip2 ++ fp2) by (apply digits_value_inj; auto; rewrite !app_length; lia).
  apply app_eq_app in T as (l & [[T1 T2]|[T1 T2]]); subst; rewrite app_length in *; destruct l; cbn [length] in *; try lia; now rewrite ?app_nil_r.
Qed.

Lemma plain_denotes sg ip fp : (sg = [] \/ sg = b "-") -> Forall dig ip -> Forall dig fp -> (ip = b "0" \/ exists c r, ip = c :: r /\ c <> 48) ->
  exists s, sign_text sg s /\ denotes_number (sg ++ ip ++ (match fp with [] => [] | _ => 46 :: fp end)) (s * IZR (digits_value (ip ++ fp)) * p10 (- Z.of_nat (length fp))).
Proof.
  intros G I F H. assert (Ne : ip ++ fp <> []) by (destruct H as [->|(c & r & -> & _)]; discriminate).
  assert (Sg : exists s, sign_text sg s) by (destruct G as [->| ->]; eexists; constructor). destruct Sg as [s Sg]. exists s. split; [exact Sg|].
  replace (- Z.of_nat (length fp))%Z with (0 - Z.of_nat (length fp))%Z by lia.
  destruct fp as [|c fp].
  - pose proof (dec_number sg s ip [] [] [] 0 Sg I F Ne (or_introl (conj eq_refl eq_refl)) xt_none ltac:(lia)) as D. exact D.
  - pose proof (dec_number sg s ip (b ".") (c :: fp) [] 0 Sg I F Ne (or_intror eq_refl) xt_none ltac:(lia)) as D. now rewrite app_nil_r in D.
Qed.

Lemma plain_unique t1 t2 x : plain_notation t1 -> plain_notation t2 -> denotes_number t1 x -> denotes_number t2 x -> x <> 0%R -> t1 = t2.
Proof.
  intros (sg1 & ip1 & fp1 & -> & G1 & I1 & F1 & H1 & L1) (sg2 & ip2 & fp2 & -> & G2 & I2 & F2 & H2 & L2) D1 D2 Nz.
  destruct (plain_denotes sg1 ip1 fp1 G1 I1 F1 H1) as (s1 & S1 & D1'). destruct (plain_denotes sg2 ip2 fp2 G2 I2 F2 H2) as (s2 & S2 & D2').
  pose proof (denotes_number_fun _ _ _ D1 D1') as E1. pose proof (denotes_number_fun _ _ _ D2 D2') as E2.
  assert (N1 : ip1 <> []) by (destruct H1 as [->|(c & r & -> & _)]; discriminate). assert (N2 : ip2 <> []) by (destruct H2 as [->|(c & r & -> & _)]; discriminate).
  destruct (Nat.le_ge_cases (length fp1) (length fp2)) as [L|L].
  - destruct (plain_unique_le sg1 ip1 fp1 s1 sg2 ip2 fp2 s2) as (-> & -> & ->); auto; congruence.
  - destruct (plain_unique_le sg2 ip2 fp2 s2 sg1 ip1 fp1 s1) as (-> & -> & ->); auto; congruence.
Qed.

(** ** The notation of FormatFloat *)
Lemma positional_plain d k : 0 < d -> ((k < 0)%Z -> d mod 10 <> 0) -> exists ip fp, positional d k = ip ++ (match fp with [] => [] | _ => 46 :: fp end) /\
  Forall dig ip /\ Forall dig fp /\ (ip = b "0" \/ exists c r, ip = c :: r /\ c <> 48) /\ (fp = [] \/ exists l c, fp = l ++ [c] /\ c <> 48) /\
  (IZR (digits_value (ip ++ fp)) * p10 (- Z.of_nat (length fp)) = IZR (Z.of_N d) * p10 k)%R.
Proof.
  intros P M. destruct (itoa_digits d) as (V & Ne & F). destruct (itoa_head d P) as (c0 & r0 & E0 & H0).
  destruct (Z.lt_ge_cases k 0) as [Lk|Lk].
  - specialize (M Lk). destruct k as [|n|n]; try lia. unfold positional. cbv zeta. set (z := repeat 48 (S (Pos.to_nat n) - length (itoa d))).
    set (s := z ++ itoa d).
    assert (Fs : Forall dig s) by (apply Forall_app; split; [apply zeros_dig|exact F]).
    assert (Ls : (Pos.to_nat n < length s)%nat) by (unfold s, z; rewrite app_length, repeat_length; lia).
    assert (Vs : digits_val s = d).
    { unfold s, z. rewrite digits_val_app. unfold digits_val at 1. rewrite digits_zeros, N.mul_0_l. exact V. }
    exists (firstn (length s - Pos.to_nat n) s), (skipn (length s - Pos.to_nat n) s).
    assert (Lfp : length (skipn (length s - Pos.to_nat n) s) = Pos.to_nat n) by (rewrite skipn_length; lia).
    assert (Nfp : skipn (length s - Pos.to_nat n) s <> []) by (intros Q; rewrite Q in Lfp; cbn in Lfp; lia).
    split. { f_equal. destruct (skipn (length s - Pos.to_nat n) s); [congruence|reflexivity]. }
    pose proof Fs as Fs'. rewrite <- (firstn_skipn (length s - Pos.to_nat n) s) in Fs'. apply Forall_app in Fs' as [F1 F2]. split; [exact F1|]. split; [exact F2|].
    split; [|split; [right|]].
    + destruct (Nat.le_gt_cases (S (Pos.to_nat n)) (length (itoa d))) as [Lg|Lg].
      * right. assert (z = []) by (unfold z; replace (S (Pos.to_nat n) - length (itoa d))%nat with 0%nat by lia; reflexivity).
        assert (Es : s = c0 :: r0) by (unfold s; rewrite H, E0; reflexivity). rewrite Es. rewrite Es in Ls.
        destruct (length (c0 :: r0) - Pos.to_nat n)%nat as [|j] eqn:Ej; [lia|]. cbn [firstn]. now exists c0, (firstn j r0).
      * left. assert (Lz : length s = S (Pos.to_nat n)) by (unfold s, z; rewrite app_length, repeat_length; lia). replace (length s - Pos.to_nat n)%nat with 1%nat by lia.
        unfold s, z. destruct (S (Pos.to_nat n) - length (itoa d))%nat as [|j] eqn:Ej; [lia|]. reflexivity.
    + destruct (exists_last Nfp) as (l & c & El). exists l, c. split; [exact El|]. intros ->.
      apply M. assert (Ed : d = digits_val (firstn (length s - Pos.to_nat n) s ++ l) * 10).
      { rewrite <- Vs at 1. rewrite <- (firstn_skipn (length s - Pos.to_nat n) s) at 1. rewrite El, app_assoc, digits_val_app. cbn [fold_left]. change (digit_val 48) with 0. rewrite N.add_0_r. reflexivity. }
      rewrite Ed. apply N.mod_mul. lia.
    + rewrite firstn_skipn, <- digits_val_spec, Vs, Lfp by exact Fs. do 2 f_equal. lia.
  - exists (positional d k), []. rewrite !app_nil_r. assert (Ep : positional d k = itoa d ++ repeat 48 (Z.to_nat k)).
    { destruct k; [cbn; now rewrite app_nil_r|reflexivity|lia]. }
    assert (Fp : Forall dig (positional d k)) by (rewrite Ep; apply Forall_app; split; [exact F|apply zeros_dig]).
    split; [reflexivity|]. split; [exact Fp|]. split; [constructor|].
    split; [right; rewrite Ep, E0; cbn; now eexists _, _|]. split; [now left|].
    rewrite <- digits_val_spec by exact Fp. rewrite Ep, digits_val_app, digits_zeros, V, N2Z.inj_mul, mult_IZR, N2Z.inj_pow. cbn [length Z.of_nat Z.opp powerRZ]. change (powerRZ 10 k) with (p10 k).
    rewrite (pow10_Z k) by lia. rewrite Rmult_1_r. do 3 f_equal. lia.
Qed.

Local Open Scope R_scope.
(** Value of a nonzero finite double, and what is written for it. *)
Lemma format_decimal s m e : finite_double (S754_finite s m e) ->
  let f := S754_finite s m e in let sg := if s then -1 else 1 in
  exists d k, (0 < d)%N /\ plain_notation (format_float f) /\ denotes_number (format_float f) (sg * (IZR (Z.of_N d) * p10 k)) /\
    nearest (IZR (Z.of_N d) * p10 k) = sg * double_value f /\
    (forall d' k', (k < k')%Z -> nearest (IZR (Z.of_N d') * p10 k') <> sg * double_value f) /\
    (forall d', nearest (IZR (Z.of_N d') * p10 k) = sg * double_value f ->
       Rabs (IZR (Z.of_N d) * p10 k - sg * double_value f) <= Rabs (IZR (Z.of_N d') * p10 k - sg * double_value f)).
Proof.
  intros F f sg. destruct (format_shortest s m e F) as (d & k & E & Rd & Hk & Hn).
  assert (Ev : IZR (Z.pos m) * bpow radix2 e = sg * double_value f) by (unfold f, sg; rewrite finite_value; destruct s; ring).
  rewrite Ev in *. assert (Pv : 0 < sg * double_value f) by (rewrite <- Ev; apply Rmult_lt_0_compat; [apply IZR_lt; lia|apply bpow_gt_0]).
  exists d, k. assert (Pd : (0 < d)%N).
  { apply N.neq_0_lt_0. intros ->. change (IZR (Z.of_N 0)) with 0 in Rd. rewrite Rmult_0_l, nearest_id in Rd; [lra|apply generic_format_0]. }
  split; [exact Pd|].
  assert (Md : (d mod 10 <> 0)%N).
  { intros M. apply (Hk (d / 10)%N (k + 1)%Z); [lia|]. rewrite p10_add. change (p10 1) with (10 * 1). rewrite <- Rd. f_equal.
    pose proof (N.div_mod d 10 ltac:(lia)) as Q. rewrite M, N.add_0_r in Q. rewrite Q at 2. rewrite N2Z.inj_mul, mult_IZR. change (Z.of_N 10) with 10%Z. ring. }
  destruct (positional_plain d k Pd (fun _ => Md)) as (ip & fp & Ep & I & Fp & H1 & H2 & V). fold f in E. rewrite E, Ep.
  assert (G : (if s then b "-" else []) = [] \/ (if s then b "-" else []) = b "-") by (destruct s; auto).
  split; [|split]; [| |split; [exact Rd|split; [exact Hk|exact Hn]]].
  - exists (if s then b "-" else []), ip, fp. repeat (split; [assumption||reflexivity|]); assumption.
  - destruct (plain_denotes _ ip fp G I Fp H1) as (s0 & S0 & D). replace (sg * (IZR (Z.of_N d) * p10 k)) with (s0 * IZR (digits_value (ip ++ fp)) * p10 (- Z.of_nat (length fp))); [exact D|].
    rewrite Rmult_assoc, V. f_equal. unfold sg. destruct s; inversion S0; reflexivity.
Qed.

(** The same with signed numbers. *)
Lemma signed s v z k : 0 < (if s : bool then -1 else 1) * v -> nearest (IZR z * p10 k) = v ->
  IZR z = (if s then -1 else 1) * IZR (Z.of_N (Z.abs_N z)) /\ nearest (IZR (Z.of_N (Z.abs_N z)) * p10 k) = (if s then -1 else 1) * v.
Proof.
  intros P E. pose proof (p10_pos k) as Pk.
  assert (Sz : 0 < (if s then -1 else 1) * IZR z).
  { destruct (Rlt_le_dec 0 ((if s then -1 else 1) * IZR z)) as [L|L]; [exact L|exfalso]. destruct s.
    - assert (H : 0 <= IZR z * p10 k) by nra. apply nearest_pos in H. lra.
    - assert (H : 0 <= - (IZR z * p10 k)) by nra. apply nearest_pos in H. rewrite nearest_opp in H. lra. }
  assert (Ez : IZR (Z.of_N (Z.abs_N z)) = (if s then -1 else 1) * IZR z).
  { rewrite N2Z.inj_abs_N, abs_IZR. destruct s; [rewrite Rabs_left by lra|rewrite Rabs_pos_eq by lra]; ring. }
  rewrite Ez. split; [destruct s; ring|]. destruct s; [|now rewrite !Rmult_1_l]. replace (-1 * IZR z * p10 k) with (- (IZR z * p10 k)) by ring. rewrite nearest_opp, E. ring.
Qed.
Lemma signed_value (s : bool) m e : 0 < (if s then -1 else 1) * double_value (S754_finite s m e).
Proof.
  rewrite finite_value. assert (0 < IZR (Z.pos m)) by (apply IZR_lt; lia). pose proof (bpow_gt_0 radix2 e). destruct s; nra.
Qed.

Lemma format_digits f : finite_double f -> double_value f <> 0 ->
  exists x k, plain_notation (format_float f) /\ denotes_number (format_float f) x /\ nearest x = double_value f /\ multiple k x /\
    (forall k' x', (k < k')%Z -> multiple k' x' -> nearest x' <> double_value f) /\
    (forall x', multiple k x' -> nearest x' = double_value f -> Rabs (x - double_value f) <= Rabs (x' - double_value f)).
Proof.
  intros F Nz. destruct f as [s|s| |s m e]; [destruct s; now elim Nz|now destruct F|now destruct F|].
  destruct (format_decimal s m e F) as (d & k & Pd & Hp & Hd & Hr & Hk & Hn). pose proof (signed_value s m e) as Pv.
  set (f := S754_finite s m e) in *. set (v := double_value f) in *. set (x := IZR (Z.of_N d) * p10 k) in *.
  exists ((if s then -1 else 1) * x), k. split; [exact Hp|]. split; [exact Hd|].
  assert (Nx : nearest ((if s then -1 else 1) * x) = v).
  { destruct s; [replace (-1 * x) with (- x) by ring; rewrite nearest_opp|rewrite Rmult_1_l]; lra. }
  split; [exact Nx|]. split; [|split].
  - exists (if s then - Z.of_N d else Z.of_N d)%Z. unfold x. destruct s; [rewrite opp_IZR|]; ring.
  - intros k' x' L (z & ->) E. destruct (signed s v z k' Pv E) as [_ E']. exact (Hk _ _ L E').
  - intros x' (z & ->) E. destruct (signed s v z k Pv E) as [Ez E']. specialize (Hn _ E').
    assert (Ab : forall y, Rabs (y - (if s then -1 else 1) * v) = Rabs ((if s then -1 else 1) * y - v)).
    { intros y. destruct s; [|now rewrite !Rmult_1_l]. rewrite <- Rabs_Ropp. f_equal. ring. }
    rewrite !Ab in Hn. rewrite Ez. now rewrite Rmult_assoc.
Qed.

(** ** As few digits as possible *)
Lemma format_fewest f x n x' : finite_double f -> double_value f <> 0 -> denotes_number (format_float f) x ->
  nearest x' = double_value f -> written_with n x' -> written_with n x.
Proof.
  intros F Nz D E (z & k' & Bz & ->). destruct f as [s|s| |s m e]; [destruct s; now elim Nz|now destruct F|now destruct F|].
  destruct (format_decimal s m e F) as (d & k & Pd & _ & Hd & Hr & Hk & Hn). pose proof (signed_value s m e) as Pv.
  rewrite (denotes_number_fun _ _ _ D Hd). destruct (signed _ _ _ _ Pv E) as [_ E']. set (d' := Z.abs_N z) in *.
  set (w := (if s then -1 else 1) * double_value (S754_finite s m e)) in *.
  assert (Bd' : (Z.of_N d' < 10 ^ n)%Z) by (unfold d'; rewrite N2Z.inj_abs_N; exact Bz). clearbody d'.
  assert (Lk : (k' <= k)%Z) by (destruct (Z.le_gt_cases k' k) as [|L]; [assumption|exfalso; exact (Hk _ _ L E')]).
  assert (Pd' : (0 < d')%N).
  { apply N.neq_0_lt_0. intros ->. change (IZR (Z.of_N 0)) with 0 in E'. rewrite Rmult_0_l, nearest_id in E'; [lra|apply generic_format_0]. }
  assert (Pn : (0 < n)%Z) by (destruct (Z.le_gt_cases n 0) as [L|]; [|assumption]; destruct n; try lia; rewrite ?Z.pow_0_r, ?Z.pow_neg_r in Bd' by lia; lia).
  exists (if s then - Z.of_N d else Z.of_N d)%Z, k. split; [|destruct s; [rewrite opp_IZR|]; ring].
  replace (Z.abs (if s then - Z.of_N d else Z.of_N d)) with (Z.of_N d) by (destruct s; lia).
  destruct (Z.lt_ge_cases (Z.of_N d) (10 ^ n)) as [|Ge]; [assumption|exfalso].
  (* 10^n * 10^k lies between the two numbers *)
  assert (A1 : IZR (Z.of_N d') * p10 k' <= 1 * p10 (k + n)).
  { rewrite Rmult_1_l, p10_add, (pow10_Z n) by lia. rewrite Rmult_comm. pose proof (p10_le k' k Lk). pose proof (p10_pos k').
    apply Rmult_le_compat; [lra|apply IZR_le; lia|exact H|apply IZR_le; lia]. }
  assert (A2 : 1 * p10 (k + n) <= IZR (Z.of_N d) * p10 k).
  { rewrite Rmult_1_l, p10_add, (pow10_Z n) by lia. rewrite Rmult_comm. pose proof (p10_pos k). apply Rmult_le_compat_r; [lra|]. apply IZR_le. lia. }
  apply (Hk 1%N (k + n)%Z); [lia|]. change (IZR (Z.of_N 1)) with 1. apply nearest_mono in A1, A2. lra.
Qed.

(** 17 digits always suffice. *)
Definition radix10 : radix := Build_radix 10 eq_refl.
Lemma bpow10 k : bpow radix10 k = p10 k.
Proof. apply bpow_powerRZ. Qed.
Lemma near_value v x : representable v -> 0 < v -> Rabs (x - v) <= v * / 20000000000000000 -> nearest x = v.
Proof.
  intros Rv Pv H. apply Rle_antisym.
  - apply round_N_le_midp; [apply (FLT_exp_valid (-1074) 53)|exact Rv|]. rewrite succ_eq_pos by lra.
    pose proof (ulp_FLT_gt radix2 (-1074) 53 v) as G. rewrite (Rabs_pos_eq v) in G by lra.
    assert (B : bpow radix2 (- (53)) = / IZR (2 ^ 53)) by reflexivity. rewrite B in G. change (2 ^ 53)%Z with 9007199254740992%Z in G.
    apply Rabs_le_inv in H. lra.
  - apply round_N_ge_midp; [apply (FLT_exp_valid (-1074) 53)|exact Rv|].
    set (p := pred radix2 (FLT_exp (-1074) 53) v).
    assert (Pp : 0 <= p) by (apply pred_ge_0; [apply (FLT_exp_valid (-1074) 53)|exact Pv|exact Rv]).
    assert (Es : p + ulp radix2 (FLT_exp (-1074) 53) p = v).
    { rewrite <- succ_eq_pos by exact Pp. apply succ_pred; [apply (FLT_exp_valid (-1074) 53)|exact Rv]. }
    pose proof (ulp_FLT_gt radix2 (-1074) 53 p) as G. rewrite (Rabs_pos_eq p Pp) in G.
    assert (B : bpow radix2 (- (53)) = / IZR (2 ^ 53)) by reflexivity. rewrite B in G. change (2 ^ 53)%Z with 9007199254740992%Z in G.
    apply Rabs_le_inv in H. lra.
Qed.
Lemma seventeen_pos v : representable v -> 0 < v -> exists x, written_with 17 x /\ nearest x = v.
Proof.
  intros Rv Pv. destruct (mag radix10 v) as [g Hg]. specialize (Hg ltac:(lra)). rewrite Rabs_pos_eq, !bpow10 in Hg by lra.
  set (k := (g - 17)%Z). set (z := ZnearestE (v * p10 (- k))). pose proof (p10_pos k) as Pk. pose proof (p10_pos (- k)) as Pk'.
  assert (Ek : p10 (- k) * p10 k = 1) by (rewrite <- p10_add; replace (- k + k)%Z with 0%Z by lia; reflexivity).
  assert (Hz : Rabs (v * p10 (- k) - IZR z) <= / 2) by apply Znearest_half.
  assert (Ez : IZR z * p10 k - v = (IZR z - v * p10 (- k)) * p10 k).
  { rewrite Rmult_minus_distr_r, Rmult_assoc, Ek, Rmult_1_r. reflexivity. }
  assert (Nv : nearest (IZR z * p10 k) = v).
  { apply near_value; [exact Rv|exact Pv|]. rewrite Ez, Rabs_mult, (Rabs_pos_eq (p10 k)) by lra. rewrite Rabs_minus_sym.
    assert (Hk : p10 k * 10000000000000000 <= v).
    { destruct Hg as [Hg _]. replace (g - 1)%Z with (k + 16)%Z in Hg by (unfold k; lia). rewrite p10_add, (pow10_Z 16) in Hg by lia.
      change (10 ^ 16)%Z with 10000000000000000%Z in Hg. exact Hg. }
    apply Rle_trans with (/ 2 * p10 k); [apply Rmult_le_compat_r; lra|lra]. }
  assert (Bz : (0 <= z <= 10 ^ 17)%Z).
  { split.
    - apply le_IZR. apply Rnot_lt_le. intros L. assert (IZR z <= -1) by (apply (IZR_le z (-1)); apply lt_IZR in L; lia). apply Rabs_le_inv in Hz. assert (0 < v * p10 (- k)) by nra. lra.
    - assert (L : v * p10 (- k) < IZR (10 ^ 17)).
      { rewrite <- pow10_Z by lia. replace 17%Z with (g + - k)%Z by (unfold k; lia). rewrite p10_add. apply Rmult_lt_compat_r; [exact Pk'|apply Hg]. }
      apply Rabs_le_inv in Hz. assert (IZR z < IZR (10 ^ 17 + 1)) by (rewrite plus_IZR; lra). apply lt_IZR in H. lia. }
  exists (IZR z * p10 k). split; [|exact Nv]. destruct (Z.eq_dec z (10 ^ 17)) as [E|Ne].
  - exists 1%Z, (17 + k)%Z. split; [reflexivity|]. rewrite E, p10_add, (pow10_Z 17) by lia. ring.
  - exists z, k. split; [lia|reflexivity].
Qed.
Lemma written_opp n x : written_with n x -> written_with n (- x).
Proof. intros (z & k & B & ->). exists (- z)%Z, k. split; [lia|]. rewrite opp_IZR. ring. Qed.
Lemma format_seventeen f x : finite_double f -> double_value f <> 0 -> denotes_number (format_float f) x -> written_with 17 x.
Proof.
  intros F Nz D. destruct (finite_representable f F) as [R _].
  destruct (Rlt_le_dec 0 (double_value f)) as [L|L].
  - destruct (seventeen_pos _ R L) as (x' & W & E). exact (format_fewest f x 17 x' F Nz D E W).
  - destruct (seventeen_pos (- double_value f)) as (x' & W & E); [now apply generic_format_opp|lra|].
    apply (format_fewest f x 17 (- x') F Nz D); [rewrite nearest_opp, E; ring|now apply written_opp].
Qed.

(** ** 15 digits *)
(** Two multiples of one unit, one of them with 15 digits, are read as the same double only if they are equal. *)
Lemma fifteen_apart z z' k : (Z.abs z < 10 ^ 15)%Z -> bpow radix2 (-1022) <= Rabs (nearest (IZR z * p10 k)) ->
  nearest (IZR z * p10 k) = nearest (IZR z' * p10 k) -> z = z'.
Proof.
  intros Bz Nm E. set (x := IZR z * p10 k) in *. set (x' := IZR z' * p10 k) in *. pose proof (p10_pos k) as Pk.
  pose proof (error_le_half_ulp_round radix2 (FLT_exp (-1074) 53) (fun n => negb (Z.even n)) x) as H1. 
  pose proof (error_le_half_ulp_round radix2 (FLT_exp (-1074) 53) (fun n => negb (Z.even n)) x') as H2.
  change (round radix2 (FLT_exp (-1074) 53) ZnearestE x) with (nearest x) in H1. change (round radix2 (FLT_exp (-1074) 53) ZnearestE x') with (nearest x') in H2.
  rewrite <- E in H2. set (v := nearest x) in *.
  pose proof (ulp_FLT_le radix2 (-1074) 53 v Nm) as U.
  assert (B : bpow radix2 (1 - 53) = / IZR (2 ^ 52)) by reflexivity. rewrite B in U. change (2 ^ 52)%Z with 4503599627370496%Z in U.
  set (w := ulp radix2 (FLT_exp (-1074) 53) v) in *.
  assert (X : Rabs (x - x') <= w).
  { replace (x - x') with ((v - x') - (v - x)) by ring. eapply Rle_trans; [apply Rabs_triang_inv2 || apply Rabs_triang|]. rewrite ?Rabs_Ropp. lra. }
  assert (Av : Rabs v <= Rabs x + / 2 * w).
  { replace v with (x + (v - x)) at 1 by ring. eapply Rle_trans; [apply Rabs_triang|]. lra. }
  assert (Ax : Rabs x < 1000000000000000 * p10 k).
  { unfold x. rewrite Rabs_mult, (Rabs_pos_eq (p10 k)) by lra. apply Rmult_lt_compat_r; [exact Pk|]. rewrite <- abs_IZR. apply IZR_lt. exact Bz. }
  assert (Sm : Rabs (x - x') < 1 * p10 k) by lra.
  unfold x, x' in Sm. rewrite <- Rmult_minus_distr_r, Rabs_mult, (Rabs_pos_eq (p10 k)) in Sm by lra. apply Rmult_lt_reg_r in Sm; [|exact Pk].
  rewrite <- minus_IZR, <- abs_IZR in Sm. apply lt_IZR in Sm. lia.
Qed.

Lemma nearest_normal x : bpow radix2 (-1022) <= Rabs x -> bpow radix2 (-1022) <= Rabs (nearest x).
Proof.
  intros Nm. unfold nearest. apply abs_round_ge_generic; [apply (FLT_exp_valid (-1074) 53)|apply valid_rnd_N| |exact Nm].
  apply generic_format_bpow. unfold FLT_exp. lia.
Qed.
Lemma fifteen_same x y : written_with 15 x -> written_with 15 y -> bpow radix2 (-1022) <= Rabs x -> nearest x = nearest y -> x = y.
Proof.
  intros (z & k & Bz & Ex) (zy & j & By & Ey) Nm E.
  pose proof (nearest_normal x Nm) as Nv.
  assert (Sc : forall c i i', (i <= i')%Z -> IZR c * p10 i' = IZR (c * 10 ^ (i' - i)) * p10 i).
  { intros c i i' L. rewrite mult_IZR, <- pow10_Z, Rmult_assoc, <- p10_add by lia. do 2 f_equal. lia. }
  destruct (Z.le_ge_cases k j) as [L|L].
  - assert (Q : z = (zy * 10 ^ (j - k))%Z) by (apply (fifteen_apart z _ k Bz); rewrite <- ?Sc, <- ?Ex, <- ?Ey by exact L; assumption).
    rewrite Ex, Q, <- Sc by exact L. congruence.
  - assert (Q : zy = (z * 10 ^ (k - j))%Z) by (apply (fifteen_apart zy _ j By); rewrite <- ?Sc, <- ?Ex, <- ?Ey by exact L; congruence).
    rewrite Ey, Q, <- Sc by exact L. congruence.
Qed.
