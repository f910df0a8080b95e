(** Integer, date and timestamp literals against the specification. *)
From Verif Require Import Bytes Utf8 Utf8Proofs GoStrconv GoTime Oracles Ast GrammarSpec LiteralSpec.
From Coq Require Import ZifyBool ZifyN ZifyNat.

(** ** Digits *)
Lemma digits_acc_spec t a : digits t -> digits_acc a t = Some (Z.to_N (fold_left (fun a c => 10 * a + (Z.of_N c - 48))%Z t (Z.of_N a))).
Proof.
  intros H. revert a. induction H as [|c t Hc Ht IH]; intros a; cbn; [now rewrite N2Z.id|].
  unfold digit, is_digit in *. replace ((48 <=? c) && (c <=? 57)) with true by lia.
  rewrite IH. unfold digit_val. replace (Z.of_N (a * 10 + (c - 48))) with (10 * Z.of_N a + (Z.of_N c - 48))%Z by lia. reflexivity.
Qed.
Lemma dec_fold_nonneg t a : digits t -> (0 <= a)%Z -> (0 <= fold_left (fun a c => 10 * a + (Z.of_N c - 48))%Z t a)%Z.
Proof. intros H. revert a. induction H as [|c t Hc Ht IH]; intros a Ha; cbn [fold_left]; [lia|]. apply IH. unfold digit in *. lia. Qed.
Lemma dec_num_nonneg t : digits t -> (0 <= dec_num t)%Z.
Proof. intros. apply dec_fold_nonneg; auto. lia. Qed.
Lemma digits_dec t : digits t -> digits_acc 0 t = Some (Z.to_N (dec_num t)).
Proof. intros H. now rewrite digits_acc_spec. Qed.
Lemma digits_ascii t : digits t -> Forall (fun c => c < 128) t.
Proof. intros H. eapply Forall_impl; [|exact H]. unfold digit. intros; lia. Qed.
Lemma digits_encode t : digits t -> encode t = t.
Proof. intros. now apply encode_ascii, digits_ascii. Qed.

(** ** Integers *)
Lemma int_lit_cases t : int_lit t -> (exists d, t = 45 :: d /\ digits1 d) \/ (digits1 t /\ exists c d, t = c :: d /\ digit c).
Proof.
  intros (s & d & -> & [->| ->] & D); [right|left; exists d; auto]. cbn [app]. split; auto. destruct D as [D N]. destruct d as [|c d]; [congruence|].
  inversion D; subst. exists c, d. auto.
Qed.
Lemma int_lit_ascii t : int_lit t -> Forall (fun c => c < 128) t.
Proof.
  intros H. apply int_lit_cases in H as [(d & -> & D & _)|[[D _] _]]; [constructor; [lia|]|]; now apply digits_ascii.
Qed.
Lemma parse_int_spec t : int_lit t ->
  parse_int t = if ((-9223372036854775808 <=? int_value t) && (int_value t <=? 9223372036854775807))%Z then Some (int_value t) else None.
Proof.
  intros H. apply int_lit_cases in H as [(d & -> & D & N)|[[D N] (c & d & -> & Hc)]].
  - cbn [parse_int int_value]. destruct d as [|x d]; [congruence|]. rewrite (digits_dec _ D). pose proof (dec_num_nonneg _ D).
    set (z := dec_num (x :: d)) in *. destruct (9223372036854775808 <? Z.to_N z) eqn:E.
    + replace ((-9223372036854775808 <=? - z) && (- z <=? 9223372036854775807))%Z with false by lia. reflexivity.
    + replace ((-9223372036854775808 <=? - z) && (- z <=? 9223372036854775807))%Z with true by lia. f_equal. lia.
  - assert (V : int_value (c :: d) = dec_num (c :: d)).
    { unfold int_value. unfold digit in Hc. destruct c as [|p]; [lia|]. do 6 (destruct p as [p|p|]; try reflexivity; try lia). }
    assert (P : parse_int (c :: d) = match digits_acc 0 (c :: d) with None => None | Some n => if 9223372036854775807 <? n then None else Some (Z.of_N n) end).
    { unfold parse_int. unfold digit in Hc. destruct c as [|p]; [lia|]. do 6 (destruct p as [p|p|]; try reflexivity; try lia). }
    rewrite V, P, (digits_dec _ D). pose proof (dec_num_nonneg _ D). set (z := dec_num (c :: d)) in *.
    destruct (9223372036854775807 <? Z.to_N z) eqn:E.
    + replace ((-9223372036854775808 <=? z) && (z <=? 9223372036854775807))%Z with false by lia. reflexivity.
    + replace ((-9223372036854775808 <=? z) && (z <=? 9223372036854775807))%Z with true by lia. f_equal. lia.
Qed.

(** Texts of different literal classes. *)
Lemma quoted_hd t : quoted t -> hd 0 t = 34.
Proof. now intros (u & -> & _). Qed.
Lemma regex_hd t : regex_lit t -> hd 0 t = 47.
Proof. now intros (u & -> & _). Qed.
Lemma digits1_hd d t : digits1 d -> digit (hd 0 (d ++ t)).
Proof. intros [D N]. destruct d; [congruence|]. now inversion D. Qed.

Lemma no_char_digits c d : digits d -> ~ digit c -> ~ In c d.
Proof. intros D N I. apply N. eapply Forall_forall in D; eauto. Qed.

Section L.
Context (O : oracles).

Lemma int_lit_no c t : int_lit t -> In c t -> c = 45 \/ digit c.
Proof.
  intros H I. apply int_lit_cases in H as [(d & -> & D & _)|[[D _] _]].
  - destruct I as [<-|I]; [now left|]. right. eapply Forall_forall in D; eauto.
  - right. eapply Forall_forall in D; eauto.
Qed.
Lemma ndigits_digits1 k t : ndigits (S k) t -> digits1 t.
Proof. intros [D L]. split; auto. intros ->. discriminate. Qed.
Lemma date_prefix_not_int d r : date_lit d -> ~ int_lit (d ++ r).
Proof.
  intros (y & m & dd & -> & Y & M & D) I. apply ndigits_digits1 in Y. destruct Y as [Y Ny].
  destruct y as [|c y]; [congruence|]. inversion Y as [|? ? Hc Hy]; subst.
  apply int_lit_cases in I as [(d & E & _)|[[I _] _]].
  - cbn in E. injection E as -> _. unfold digit in Hc. lia.
  - assert (In 45 (((c :: y) ++ tx "-" ++ m ++ tx "-" ++ dd) ++ r)) as K by (rewrite !in_app_iff; cbn; tauto).
    eapply Forall_forall in I; eauto. unfold digit in I. lia.
Qed.

Lemma int_literal t p v : int_lit t ->
  (literal O t p v <-> (-9223372036854775808 <= int_value t <= 9223372036854775807)%Z /\ v = AInt (int_value t) t p).
Proof.
  intros I. pose proof (encode_ascii _ (int_lit_ascii _ I)) as E. pose proof (parse_int_spec t I) as P. split.
  - intros L. assert (N : new_int_val (encode t) p = Some v).
    { inversion L; subst; auto; exfalso.
      - apply quoted_hd in H. apply int_lit_cases in I as [(d & -> & _)|[_ (c & d & -> & Hc)]]; cbn in H; unfold digit in *; lia.
      - apply regex_hd in H. apply int_lit_cases in I as [(d & -> & _)|[_ (c & d & -> & Hc)]]; cbn in H; unfold digit in *; lia.
      - destruct H as [(d & s & u & -> & D & _)|D]; [now apply date_prefix_not_int in I|].
        rewrite <- (app_nil_r t) in I. now apply date_prefix_not_int in I.
      - destruct H as (o1 & o2 & o3 & o4 & m & -> & _). apply (int_lit_no 46) in I; [unfold digit in *; lia|]. rewrite !in_app_iff; cbn; tauto.
      - destruct H as (s & d & e & -> & _). apply (int_lit_no 46) in I; [unfold digit in *; lia|]. rewrite !in_app_iff; cbn; tauto.
      - apply (int_lit_no 116) in I; [unfold digit in *; lia|cbn; tauto].
      - apply (int_lit_no 97) in I; [unfold digit in *; lia|cbn; tauto]. }
    unfold new_int_val in N. rewrite E, P in N.
    destruct ((-9223372036854775808 <=? int_value t) && (int_value t <=? 9223372036854775807))%Z eqn:R; [|discriminate].
    injection N as <-. split; [lia|reflexivity].
  - intros [R ->]. apply lit_int; auto. unfold new_int_val. rewrite E, P.
    replace ((-9223372036854775808 <=? int_value t) && (int_value t <=? 9223372036854775807))%Z with true by lia. reflexivity.
Qed.
End L.

(** ** Calendar *)
Lemma leap_eq y : (0 <= y)%Z -> leap y = is_leap (Z.to_N y).
Proof.
  intros H. unfold leap, is_leap.
  replace (y mod 4 =? 0)%Z with (Z.to_N y mod 4 =? 0) by lia.
  replace (y mod 100 =? 0)%Z with (Z.to_N y mod 100 =? 0) by lia.
  replace (y mod 400 =? 0)%Z with (Z.to_N y mod 400 =? 0) by lia. reflexivity.
Qed.
Lemma month_cases m : (1 <= m <= 12)%Z -> m = 1%Z \/ m = 2%Z \/ m = 3%Z \/ m = 4%Z \/ m = 5%Z \/ m = 6%Z \/ m = 7%Z \/ m = 8%Z \/ m = 9%Z \/ m = 10%Z \/ m = 11%Z \/ m = 12%Z.
Proof. lia. Qed.
Lemma month_days_eq y m : (0 <= y)%Z -> (1 <= m <= 12)%Z -> month_days y m = Z.of_N (days_in (Z.to_N m) (Z.to_N y)).
Proof.
  intros Hy Hm. unfold days_in. unfold month_days. rewrite (leap_eq y Hy).
  destruct (month_cases m Hm) as [->|[->|[->|[->|[->|[->|[->|[->|[->|[->|[->| ->]]]]]]]]]]]; cbn; try reflexivity.
  destruct (is_leap (Z.to_N y)); reflexivity.
Qed.
Lemma date_ok_spec y m d : date_ok y m d = true <-> valid_date {| yr := Z.of_N y; mo := Z.of_N m; dy := Z.of_N d |}.
Proof.
  unfold date_ok, valid_date. cbn [yr mo dy]. split.
  - intros H. rewrite !andb_true_iff, !N.leb_le in H. split; [lia|]. rewrite month_days_eq, !N2Z.id by lia. lia.
  - intros [H1 H2]. rewrite month_days_eq, !N2Z.id in H2 by lia. rewrite !andb_true_iff, !N.leb_le. lia.
Qed.

(** Days of a date, as a function of the specification's date. *)
Definition cd (x : date) : Z := civil_days (Z.to_N (yr x)) (Z.to_N (mo x)) (Z.to_N (dy x)).
Lemma cycle_shift y k : days_since_cycle (y + 400 * k) = days_since_cycle y + 146097 * k.
Proof.
  unfold days_since_cycle. cbv zeta. replace (y + 400 * k + 399) with (y + 399 + k * 400) by lia.
  rewrite N.div_add by lia. set (n := (y + 399) / 400).
  assert (400 * n <= y + 399) by (unfold n; lia).
  replace (y + 399 + k * 400 - 400 * (n + k)) with (y + 399 - 400 * n) by lia. lia.
Qed.
Lemma leap_shift y k : is_leap (y + 400 * k) = is_leap y.
Proof.
  unfold is_leap. replace (y + 400 * k) with (y + k * 100 * 4) at 1 by lia.
  replace (y + 400 * k) with (y + k * 4 * 100) at 1 by lia. replace (y + 400 * k) with (y + k * 400) by lia.
  now rewrite !N.mod_add by lia.
Qed.
Lemma year_step_small : forallb (fun i => let y := N.of_nat i in
  days_since_cycle (y + 1) =? days_since_cycle y + (if is_leap y then 366 else 365)) (seq 0 400) = true.
Proof. vm_compute. reflexivity. Qed.
Lemma year_step y : days_since_cycle (y + 1) = days_since_cycle y + (if is_leap y then 366 else 365).
Proof.
  assert (E : y = y mod 400 + 400 * (y / 400)) by lia.
  pose proof (proj1 (forallb_forall _ _) year_step_small (N.to_nat (y mod 400))) as H. cbv beta zeta in H.
  rewrite N2Nat.id, N.eqb_eq in H. specialize (H ltac:(apply in_seq; lia)).
  rewrite E at 1 2 3. replace (y mod 400 + 400 * (y / 400) + 1) with (y mod 400 + 1 + 400 * (y / 400)) by lia.
  rewrite !cycle_shift, leap_shift, H. lia.
Qed.

Lemma cd_next x : (0 <= yr x)%Z -> valid_date x -> cd (next_day x) = (cd x + 1)%Z.
Proof.
  destruct x as [y m d]. unfold valid_date, next_day. cbn [yr mo dy]. intros Hy [Hm Hd].
  destruct (d <? month_days y m)%Z eqn:E1.
  { unfold cd, civil_days. cbn [yr mo dy]. cbv zeta. replace (Z.to_N (d + 1)) with (Z.to_N d + 1) by lia. lia. }
  assert (d = month_days y m) by lia. subst d. clear Hd E1.
  rewrite month_days_eq by auto. unfold cd, civil_days. cbn [yr mo dy]. cbv zeta. rewrite N2Z.id.
  assert (YS := year_step (Z.to_N y)).
  destruct (m <? 12)%Z eqn:E2; cbn [yr mo dy]; unfold days_in;
  destruct (month_cases m Hm) as [->|[->|[->|[->|[->|[->|[->|[->|[->|[->|[->| ->]]]]]]]]]]]; try discriminate;
    cbn -[days_since_cycle is_leap Z.of_N]; try (replace (Z.to_N (y + 1)) with (Z.to_N y + 1) by lia; rewrite YS);
    destruct (is_leap (Z.to_N y)); cbn -[days_since_cycle is_leap Z.of_N]; rewrite ?andb_false_r; try lia.
Qed.

Lemma next_valid x : (0 <= yr x)%Z -> valid_date x -> valid_date (next_day x) /\ (yr x <= yr (next_day x))%Z.
Proof.
  destruct x as [y m d]. unfold valid_date, next_day. cbn [yr mo dy]. intros Hy [Hm Hd].
  assert (P : forall y m, (1 <= m <= 12)%Z -> (1 <= month_days y m)%Z).
  { intros y' m' H. unfold month_days. destruct (_ =? 2)%Z; [destruct (leap y'); lia|]. destruct (_ || _); lia. }
  destruct (d <? month_days y m)%Z eqn:E1; cbn [yr mo dy]; [lia|].
  destruct (m <? 12)%Z eqn:E2; cbn [yr mo dy].
  - specialize (P y (m + 1)%Z). lia.
  - specialize (P (y + 1)%Z 1%Z). lia.
Qed.
Lemma cd_after n : forall x, (0 <= yr x)%Z -> valid_date x ->
  cd (after_days n x) = (cd x + Z.of_nat n)%Z /\ valid_date (after_days n x) /\ (yr x <= yr (after_days n x))%Z.
Proof.
  induction n as [|n IH]; intros x Hy V; cbn [after_days]; [split; [lia|split; [auto|lia]]|].
  destruct (next_valid x Hy V) as [V' Y']. destruct (IH (next_day x)) as (E & V2 & Y2); auto; [lia|].
  rewrite E, cd_next by auto. split; [lia|]. split; [auto|lia].
Qed.

(** Every date has a predecessor, so all are reached from the first of January of year 0. *)
Definition year0 : date := {| yr := 0; mo := 1; dy := 1 |}.
Lemma prev_day x : (0 <= yr x)%Z -> valid_date x -> x = year0 \/ exists w, (0 <= yr w)%Z /\ valid_date w /\ next_day w = x.
Proof.
  destruct x as [y m d]. unfold valid_date. cbn [yr mo dy]. intros Hy [Hm Hd].
  assert (P : forall y m, (1 <= m <= 12)%Z -> (1 <= month_days y m)%Z).
  { intros y' m' H. unfold month_days. destruct (_ =? 2)%Z; [destruct (leap y'); lia|]. destruct (_ || _); lia. }
  destruct (1 <? d)%Z eqn:E1.
  { right. exists {| yr := y; mo := m; dy := d - 1 |}. unfold valid_date, next_day. cbn [yr mo dy].
    replace (d - 1 <? month_days y m)%Z with true by lia. split; [lia|]. split; [lia|]. f_equal. lia. }
  assert (d = 1)%Z by lia. subst d.
  destruct (1 <? m)%Z eqn:E2.
  { right. exists {| yr := y; mo := m - 1; dy := month_days y (m - 1) |}. unfold valid_date, next_day. cbn [yr mo dy].
    rewrite Z.ltb_irrefl. replace (m - 1 <? 12)%Z with true by lia. specialize (P y (m - 1)%Z). split; [lia|]. split; [lia|]. f_equal. lia. }
  assert (m = 1)%Z by lia. subst m.
  destruct (0 <? y)%Z eqn:E3; [|left; unfold year0; f_equal; lia].
  right. exists {| yr := y - 1; mo := 12; dy := 31 |}. unfold valid_date, next_day. cbn [yr mo dy].
  change (month_days (y - 1) 12) with 31%Z. split; [lia|]. split; [lia|]. cbn. f_equal. lia.
Qed.
Lemma cd_nonneg x : (cd year0 <= cd x)%Z.
Proof.
  unfold cd, civil_days, year0. cbn [yr mo dy]. cbv zeta. change (days_since_cycle (Z.to_N 0)) with 145731.
  assert (145731 <= days_since_cycle (Z.to_N (yr x))); [|cbn -[days_since_cycle Z.of_N]; lia].
  generalize (Z.to_N (yr x)). intros y. induction y as [|y IH] using N.peano_ind; [vm_compute; discriminate|].
  rewrite <- N.add_1_r, year_step. destruct (is_leap y); lia.
Qed.
Lemma reach x : (0 <= yr x)%Z -> valid_date x -> after_days (Z.to_nat (cd x - cd year0)) year0 = x.
Proof.
  intros Hy V. remember (Z.to_nat (cd x - cd year0)) as n eqn:En. revert x Hy V En.
  assert (SN : forall n x, after_days (S n) x = next_day (after_days n x)).
  { clear. induction n as [|n IH]; intros x; [reflexivity|]. cbn [after_days] in *. apply IH. }
  induction n as [|n IH]; intros x Hy V En; pose proof (cd_nonneg x).
  - destruct (prev_day x Hy V) as [->|(w & Hw & Vw & E)]; [reflexivity|].
    exfalso. pose proof (cd_next w Hw Vw) as C. rewrite E in C. pose proof (cd_nonneg w). lia.
  - destruct (prev_day x Hy V) as [->|(w & Hw & Vw & E)]; [lia|].
    rewrite SN, (IH w); auto. pose proof (cd_next w Hw Vw) as C. rewrite E in C. lia.
Qed.
Lemma after_add n m x : after_days (n + m) x = after_days m (after_days n x).
Proof. revert x. induction n as [|n IH]; intros x; [reflexivity|]. cbn [Nat.add after_days]. apply IH. Qed.

(** The day number of the specification is the one computed. *)
Lemma day_number_spec x n : (0 <= yr x)%Z -> valid_date x -> (day_number x n <-> n = cd x).
Proof.
  intros Hy V. assert (C0 : cd epoch = 0%Z) by (vm_compute; reflexivity).
  assert (Ve : valid_date epoch) by (unfold valid_date; vm_compute; repeat split; discriminate).
  split.
  - intros [[Hn E]|[Hn E]].
    + destruct (cd_after (Z.to_nat n) epoch) as (C & _ & _); auto; [vm_compute; discriminate|]. rewrite E in C. lia.
    + destruct (cd_after (Z.to_nat (- n)) x) as (C & _ & _); auto. rewrite E in C. lia.
  - intros ->. pose proof (cd_nonneg x). pose proof (cd_nonneg epoch).
    pose proof (reach x Hy V) as Rx. pose proof (reach epoch ltac:(vm_compute; discriminate) Ve) as Re. rewrite C0 in Re.
    destruct (Z.le_ge_cases 0 (cd x)).
    + left. split; auto. rewrite <- Re at 1. rewrite <- after_add. rewrite <- Rx at 2. f_equal. lia.
    + right. split; auto. rewrite <- Rx at 2. rewrite <- after_add. rewrite <- Re. f_equal. lia.
Qed.

(** ** Dates *)
Lemma num2_ok h r : ndigits 2 h -> num2 (h ++ r) = Some (Z.to_N (dec_num h), r).
Proof.
  intros [D L]. destruct h as [|a [|c [|]]]; try discriminate. cbn [app]. unfold num2. now rewrite (digits_dec [a; c] D).
Qed.
Lemma num4_ok h r : ndigits 4 h -> num4 (h ++ r) = Some (Z.to_N (dec_num h), r).
Proof.
  intros [D L]. destruct h as [|a [|c [|d [|e [|]]]]]; try discriminate. cbn [app]. unfold num4. now rewrite (digits_dec [a; c; d; e] D).
Qed.
Lemma eat_ok c r : eat c (c :: r) = Some r.
Proof. unfold eat. now rewrite N.eqb_refl. Qed.
Lemma parse_ymd_ok y m d r : ndigits 4 y -> ndigits 2 m -> ndigits 2 d ->
  parse_ymd (y ++ tx "-" ++ m ++ tx "-" ++ d ++ r) =
    if date_ok (Z.to_N (dec_num y)) (Z.to_N (dec_num m)) (Z.to_N (dec_num d))
    then Some (Z.to_N (dec_num y), Z.to_N (dec_num m), Z.to_N (dec_num d), r) else None.
Proof.
  intros Y M D. unfold parse_ymd. rewrite num4_ok by auto. change (tx "-") with [45]. cbn [app].
  rewrite eat_ok, num2_ok by auto. cbn [app]. rewrite eat_ok, num2_ok by auto. reflexivity.
Qed.
Definition the_date (y m d : text) : date := {| yr := dec_num y; mo := dec_num m; dy := dec_num d |}.
Lemma date_ok_text y m d : digits y -> digits m -> digits d ->
  date_ok (Z.to_N (dec_num y)) (Z.to_N (dec_num m)) (Z.to_N (dec_num d)) = true <-> valid_date (the_date y m d).
Proof.
  intros Y M D. rewrite date_ok_spec. rewrite !Z2N.id by now apply dec_num_nonneg. reflexivity.
Qed.
Lemma date_denotes_iff y m d n : ndigits 4 y -> ndigits 2 m -> ndigits 2 d ->
  valid_date (the_date y m d) -> (day_number (the_date y m d) n <-> n = civil_days (Z.to_N (dec_num y)) (Z.to_N (dec_num m)) (Z.to_N (dec_num d))).
Proof. intros [Y _] _ _ V. apply (day_number_spec (the_date y m d)); auto. cbn. now apply dec_num_nonneg. Qed.

Lemma ndigits_encode k t : ndigits k t -> Forall (fun c => c < 128) t.
Proof. intros [D _]. now apply digits_ascii. Qed.
Lemma date_ascii t : date_lit t -> Forall (fun c => c < 128) t.
Proof.
  intros (y & m & d & -> & Y & M & D). apply ndigits_encode in Y, M, D.
  repeat (apply Forall_app; split; auto); repeat constructor.
Qed.
Lemma date_len t : date_lit t -> length t = 10%nat.
Proof. intros (y & m & d & -> & [_ Y] & [_ M] & [_ D]). rewrite !app_length, Y, M, D. reflexivity. Qed.

Section T.
Context (O : oracles).

Lemma date_prefix_hd d r : date_lit d -> digit (hd 0 (d ++ r)).
Proof. intros (y & m & dd & -> & Y & _). rewrite <- !app_assoc. apply digits1_hd. eapply ndigits_digits1; eauto. Qed.
Lemma date_prefix_dash d r : date_lit d -> In 45 (tl (d ++ r)).
Proof.
  intros (y & m & dd & -> & [_ Y] & _). destruct y as [|c y]; [discriminate|]. cbn [app tl]. rewrite !in_app_iff. cbn. tauto.
Qed.
Lemma time_literal d r p v : date_lit d -> (timestamp_lit (d ++ r)) ->
  (literal O (d ++ r) p v <-> new_time_val (encode (d ++ r)) p = Some v).
Proof.
  intros D T. split; [|now apply lit_time]. intros L. pose proof (date_prefix_hd d r D) as H. pose proof (date_prefix_dash d r D) as I.
  inversion L as [t s p' Q U|t v' p' R N|t v' p' R N|t v' p' R N|t v' p' R N|t v' p' R N|p' E|p' E]; subst; auto; exfalso.
  - apply quoted_hd in Q. unfold digit in H. lia.
  - apply regex_hd in R. unfold digit in H. lia.
  - destruct R as (o1 & o2 & o3 & o4 & m & E & [O1 _] & [O2 _] & [O3 _] & [O4 _] & M). rewrite E in I.
    apply (in_cons 0), (or_intror (A := 45 = hd 0 (o1 ++ tx "." ++ o2 ++ tx "." ++ o3 ++ tx "." ++ o4 ++ m))) in I.
    destruct I as [I|[I|I]]; [rewrite <- E in I; unfold digit in H; lia|discriminate|].
    assert (J : In 45 (o1 ++ tx "." ++ o2 ++ tx "." ++ o3 ++ tx "." ++ o4 ++ m)).
    { destruct (o1 ++ tx "." ++ o2 ++ tx "." ++ o3 ++ tx "." ++ o4 ++ m); [destruct I|now right]. }
    assert (ND : forall x, digits1 x -> ~ In 45 x) by (intros x [X _]; apply no_char_digits; auto; unfold digit; lia).
    rewrite !in_app_iff in J. cbn in J.
    destruct M as [->|(dd & -> & Dd & _)]; rewrite ?in_app_iff in J; cbn in J; pose proof (ND _ O1); pose proof (ND _ O2); pose proof (ND _ O3); pose proof (ND _ O4);
      try pose proof (ND _ Dd); repeat match goal with H : _ \/ _ |- _ => destruct H end; try discriminate; try contradiction.
  - destruct R as (s & dd & e & E & [->| ->] & Dd & De); [|rewrite E in H; cbn in H; unfold digit in H; lia]. rewrite E in I.
    assert (ND : forall x, digits1 x -> ~ In 45 x) by (intros x [X _]; apply no_char_digits; auto; unfold digit; lia).
    cbn [app] in I. destruct dd as [|c dd]; [destruct Dd; congruence|]. cbn [app tl] in I. rewrite !in_app_iff in I. cbn in I.
    pose proof (ND _ Dd) as N1. pose proof (ND _ De) as N2. cbn in N1. repeat destruct I as [I|I]; try discriminate; tauto.
  - now apply date_prefix_not_int in R.
  - rewrite <- E in H. cbn in H. unfold digit in H. lia.
  - rewrite <- E in H. cbn in H. unfold digit in H. lia.
Qed.

Lemma date_literal t p v : date_lit t ->
  (literal O t p v <-> exists n, date_denotes t n /\ v = ATime {| i_sec := n * 86400; i_nsec := 0 |} true t p).
Proof.
  intros D. pose proof (time_literal t [] p v D) as T. rewrite app_nil_r in T. rewrite T by now right. clear T.
  rewrite (encode_ascii _ (date_ascii _ D)). unfold new_time_val. rewrite (date_len _ D). cbn [Nat.eqb].
  assert (P : forall y m d, ndigits 4 y -> ndigits 2 m -> ndigits 2 d -> parse_date (y ++ tx "-" ++ m ++ tx "-" ++ d) =
    if date_ok (Z.to_N (dec_num y)) (Z.to_N (dec_num m)) (Z.to_N (dec_num d))
    then Some {| i_sec := civil_days (Z.to_N (dec_num y)) (Z.to_N (dec_num m)) (Z.to_N (dec_num d)) * 86400; i_nsec := 0 |} else None).
  { intros y m d Y M Dd. unfold parse_date. rewrite <- (app_nil_r d) at 1. rewrite parse_ymd_ok by auto. destruct (date_ok _ _ _); reflexivity. }
  split.
  - destruct D as (y & m & d & -> & Y & M & Dd). rewrite P by auto. destruct (date_ok _ _ _) eqn:E; [|discriminate]. intros [= <-].
    eexists. split; [|reflexivity]. apply date_ok_text in E; [|apply Y|apply M|apply Dd]. apply dt; auto. now apply date_denotes_iff.
  - intros (n & Dn & ->). destruct Dn as [y m d n Y M Dd x V N]. rewrite P by auto.
    destruct (date_ok _ _ _) eqn:E; [|apply date_ok_text in V; [congruence|apply Y|apply M|apply Dd]].
    apply (date_denotes_iff y m d n Y M Dd V) in N. now subst n.
Qed.

(** ** Timestamps *)
Lemma dec_num_cons c t : dec_num (c :: t) = ((Z.of_N c - 48) * 10 ^ Z.of_nat (length t) + dec_num t)%Z.
Proof.
  unfold dec_num. cbn [fold_left]. rewrite Z.mul_0_r, Z.add_0_l. generalize (Z.of_N c - 48)%Z. intros a.
  assert (G : forall t a, fold_left (fun a c => 10 * a + (Z.of_N c - 48))%Z t a = (a * 10 ^ Z.of_nat (length t) + fold_left (fun a c => 10 * a + (Z.of_N c - 48))%Z t 0)%Z).
  { clear. induction t as [|c t IH]; intros a; cbn [fold_left length]; [cbn; lia|].
    rewrite IH, (IH (10 * 0 + _)%Z). rewrite Nat2Z.inj_succ, Z.pow_succ_r by lia. lia. }
  apply G.
Qed.
Lemma frac_nanos_ok k : forall t, digits t ->
  let n := Z.of_N (frac_nanos k t) in
  (0 <= n /\ n * 10 ^ Z.of_nat (length t) <= dec_num t * 10 ^ Z.of_nat k < (n + 1) * 10 ^ Z.of_nat (length t))%Z.
Proof.
  assert (DB : forall t, digits t -> (0 <= dec_num t < 10 ^ Z.of_nat (length t))%Z).
  { induction 1 as [|c t Hc Ht IH]; [cbn; lia|]. rewrite dec_num_cons. cbn [length]. rewrite Nat2Z.inj_succ, Z.pow_succ_r by lia.
    unfold digit in Hc. nia. }
  induction k as [|k IH]; intros t D; cbv zeta.
  - cbn [frac_nanos Z.of_N]. pose proof (DB t D). lia.
  - destruct t as [|c t]; cbn [frac_nanos].
    + cbn. lia.
    + inversion D as [|? ? Hc Ht]; subst. specialize (IH t Ht). cbv zeta in IH. rewrite dec_num_cons. cbn [length].
      rewrite !Nat2Z.inj_succ, !Z.pow_succ_r by lia. unfold digit, digit_val in *.
      rewrite N2Z.inj_add, N2Z.inj_mul, N2Z.inj_pow, N2Z.inj_sub by lia. rewrite nat_N_Z. change (Z.of_N 10) with 10%Z.
      set (P := (10 ^ Z.of_nat (length t))%Z) in *. set (K := (10 ^ Z.of_nat k)%Z) in *.
      set (F := Z.of_N (frac_nanos k t)) in *. set (C := (Z.of_N c - 48)%Z) in *. change (Z.of_N c - Z.of_N 48)%Z with C.
      assert (0 <= C)%Z by (unfold C; lia). assert (0 < P)%Z by (unfold P; apply Z.pow_pos_nonneg; lia). assert (0 < K)%Z by (unfold K; apply Z.pow_pos_nonneg; lia).
      split; [nia|]. nia.
Qed.

Definition nanos (f : text) : N := match f with [] => 0 | _ :: d => frac_nanos 9 d end.
Lemma span_digits_app d z : digits d -> (forall c r, z = c :: r -> ~ digit c) -> span_digits (d ++ z) = (d, z).
Proof.
  intros D N. induction D as [|c d Hc Hd IH]; cbn [app].
  - destruct z as [|c r]; [reflexivity|]. cbn. specialize (N c r eq_refl). unfold digit, is_digit in *. replace ((48 <=? c) && (c <=? 57)) with false by lia. reflexivity.
  - cbn. rewrite IH. unfold digit, is_digit in *. replace ((48 <=? c) && (c <=? 57)) with true by lia. reflexivity.
Qed.
Lemma zone_hd z : zone z -> exists c r, z = c :: r /\ (c = 90 \/ c = 122 \/ c = 43 \/ c = 45).
Proof.
  intros [->|[->|(s & h & m & -> & [->| ->] & _)]]; do 2 eexists; (split; [reflexivity|tauto]).
Qed.
Lemma parse_frac_ok f z : secfrac f -> zone z -> parse_frac (f ++ z) = (nanos f, z).
Proof.
  intros [->|(d & -> & D & Nd)] Z; destruct (zone_hd z Z) as (c & r & -> & Hc).
  - cbn [app nanos]. destruct Hc as [->|[->|[->| ->]]]; reflexivity.
  - change (tx "." ++ d) with (46 :: d). cbn [app parse_frac]. rewrite span_digits_app; auto.
    + destruct d; [congruence|]. reflexivity.
    + intros c' r' [= <- <-]. unfold digit. lia.
Qed.
Lemma frac_denotes_iff f ns : secfrac f -> (frac_denotes f ns <-> ns = Z.of_N (nanos f)).
Proof.
  assert (U : forall d n, digits1 d -> frac_value d n -> n = Z.of_N (frac_nanos 9 d)).
  { intros d n [D _] (N0 & L1 & L2). destruct (frac_nanos_ok 9 d D) as (M0 & M1 & M2). change (10 ^ Z.of_nat 9)%Z with 1000000000%Z in *.
    assert (0 < 10 ^ Z.of_nat (length d))%Z by (apply Z.pow_pos_nonneg; lia). nia. }
  intros F. split.
  - intros D. destruct D as [|d n D V]; [reflexivity|]. change (tx "." ++ d) with (46 :: d). cbn [nanos]. auto.
  - intros ->. destruct F as [->|(d & -> & D)]; [constructor|]. constructor; auto. destruct D as [D _].
    pose proof (frac_nanos_ok 9 d D) as X. cbv zeta in X. exact X.
Qed.
Lemma parse_zone_iff z off : zone z -> (parse_zone z = Some off <-> zone_denotes z off).
Proof.
  assert (NM : forall (c : N) h m, c = 43 \/ c = 45 -> ndigits 2 h -> ndigits 2 m -> parse_zone (c :: h ++ tx ":" ++ m) =
    if (24 <? Z.to_N (dec_num h)) || (60 <? Z.to_N (dec_num m)) then None
    else Some (if (c =? 45)%N then - (dec_num h * 3600 + dec_num m * 60) else dec_num h * 3600 + dec_num m * 60)%Z).
  { intros c h m Hc H M. assert (E : parse_zone (c :: h ++ tx ":" ++ m) = 
      (do (h, r) <- num2 (h ++ tx ":" ++ m);; do r <- eat 58 r;; do (m, r) <- num2 r;;
      match r with
      | [] => if (24 <? h) || (60 <? m) then None
              else let o := (Z.of_N (h * 3600 + m * 60)) in
                   Some (if c =? 45 then Z.opp o else o)
      | _ => None
      end)) by (destruct Hc as [->| ->]; reflexivity).
    rewrite E, num2_ok by auto. change (tx ":") with [58]. cbn [app]. rewrite eat_ok. rewrite <- (app_nil_r m) at 1. rewrite num2_ok by auto.
    destruct (_ || _); [reflexivity|]. cbv zeta. do 2 f_equal.
    assert (0 <= dec_num h)%Z by (apply dec_num_nonneg, H). assert (0 <= dec_num m)%Z by (apply dec_num_nonneg, M).
    replace (Z.of_N (Z.to_N (dec_num h) * 3600 + Z.to_N (dec_num m) * 60)) with (dec_num h * 3600 + dec_num m * 60)%Z by lia. reflexivity. }
  intros Z. split.
  - destruct Z as [->|[->|(s & h & m & -> & [->| ->] & H & M)]]; try discriminate.
    + intros [= <-]. constructor.
    + change (tx "+" ++ h ++ tx ":" ++ m) with (43 :: h ++ tx ":" ++ m). rewrite NM by auto. change (43 =? 45) with false. cbn match.
      destruct (_ || _) eqn:E; [discriminate|]. intros [= <-]. apply (zn_plus h m H M); lia.
    + change (tx "-" ++ h ++ tx ":" ++ m) with (45 :: h ++ tx ":" ++ m). rewrite NM by auto. change (45 =? 45) with true. cbn match.
      destruct (_ || _) eqn:E; [discriminate|]. intros [= <-]. apply (zn_minus h m H M); lia.
  - intros D. destruct D as [|h m H M L1 L2|h m H M L1 L2]; [reflexivity| |].
    + change (tx "+" ++ h ++ tx ":" ++ m) with (43 :: h ++ tx ":" ++ m). rewrite NM by auto. replace (_ || _) with false by lia. reflexivity.
    + change (tx "-" ++ h ++ tx ":" ++ m) with (45 :: h ++ tx ":" ++ m). rewrite NM by auto. replace (_ || _) with false by lia. reflexivity.
Qed.
Lemma parse_rfc3339_ok y m d s h mi se f z : ndigits 4 y -> ndigits 2 m -> ndigits 2 d -> ndigits 2 h -> ndigits 2 mi -> ndigits 2 se ->
  secfrac f -> zone z ->
  parse_rfc3339 ((y ++ tx "-" ++ m ++ tx "-" ++ d) ++ [s] ++ h ++ tx ":" ++ mi ++ tx ":" ++ se ++ f ++ z) =
    if date_ok (Z.to_N (dec_num y)) (Z.to_N (dec_num m)) (Z.to_N (dec_num d)) && (s =? 84) &&
       (dec_num h <=? 23)%Z && (dec_num mi <=? 59)%Z && (dec_num se <=? 59)%Z
    then do off <- parse_zone z;;
      Some {| i_sec := civil_days (Z.to_N (dec_num y)) (Z.to_N (dec_num m)) (Z.to_N (dec_num d)) * 86400 + dec_num h * 3600 + dec_num mi * 60 + dec_num se - off;
              i_nsec := Z.of_N (nanos f) |}
    else None.
Proof.
  intros Y M D H Mi Se F Z. unfold parse_rfc3339. rewrite <- !app_assoc, parse_ymd_ok by auto.
  destruct (date_ok _ _ _); [|reflexivity]. cbn [app andb]. unfold eat at 1. destruct (s =? 84) eqn:Es; [|reflexivity].
  cbn [andb]. rewrite num2_ok by auto. change (tx ":") with [58]. cbn [app]. rewrite eat_ok, num2_ok by auto. rewrite eat_ok, num2_ok by auto.
  assert (0 <= dec_num h)%Z by (apply dec_num_nonneg, H). assert (0 <= dec_num mi)%Z by (apply dec_num_nonneg, Mi). assert (0 <= dec_num se)%Z by (apply dec_num_nonneg, Se).
  destruct ((dec_num h <=? 23)%Z && (dec_num mi <=? 59)%Z && (dec_num se <=? 59)%Z) eqn:R.
  2: { replace ((23 <? Z.to_N (dec_num h)) || (59 <? Z.to_N (dec_num mi)) || (59 <? Z.to_N (dec_num se))) with true by lia. reflexivity. }
  replace ((23 <? Z.to_N (dec_num h)) || (59 <? Z.to_N (dec_num mi)) || (59 <? Z.to_N (dec_num se))) with false by lia.
  rewrite parse_frac_ok by auto. destruct (parse_zone z); [|reflexivity]. do 2 f_equal. lia.
Qed.

Lemma secfrac_ascii f : secfrac f -> Forall (fun c => c < 128) f.
Proof. intros [->|(d & -> & D & _)]; [constructor|]. constructor; [cbn; lia|]. now apply digits_ascii. Qed.
Lemma zone_ascii z : zone z -> Forall (fun c => c < 128) z.
Proof.
  intros [->|[->|(s & h & m & -> & S & H & M)]]; [repeat constructor..|]. apply ndigits_encode in H, M.
  repeat (apply Forall_app; split; auto); [destruct S as [->| ->]|]; repeat constructor.
Qed.
Lemma datetime_ascii t : datetime_lit t -> Forall (fun c => c < 128) t.
Proof.
  intros (d & s & u & -> & D & S & (h & m & se & f & z & -> & H & M & Se & F & Z)).
  apply date_ascii in D. apply ndigits_encode in H, M, Se. apply secfrac_ascii in F. apply zone_ascii in Z.
  repeat (apply Forall_app; split; auto); [destruct S as [->|[->| ->]]| |]; repeat constructor.
Qed.
Lemma datetime_len t : datetime_lit t -> Nat.eqb (length t) 10 = false.
Proof.
  intros (d & s & u & -> & D & S & (h & m & se & f & z & -> & [_ H] & _)). apply date_len in D.
  apply Nat.eqb_neq. rewrite !app_length, D, H. lia.
Qed.

Lemma timestamp_literal t p v : datetime_lit t ->
  (literal O t p v <-> exists s ns, timestamp_denotes t s ns /\ v = ATime {| i_sec := s; i_nsec := ns |} false t p).
Proof.
  intros T.
  assert (L : literal O t p v <-> new_time_val (encode t) p = Some v).
  { pose proof T as (d & s & u & E & D & _). rewrite E. apply time_literal; auto. left. now rewrite <- E. }
  rewrite L. clear L. rewrite (encode_ascii _ (datetime_ascii _ T)). unfold new_time_val. rewrite (datetime_len _ T). split.
  - destruct T as (d & s & u & -> & (y & m & dd & -> & Y & M & D) & S & (h & mi & se & f & z & -> & H & Mi & Se & F & Z)).
    assert (exists c, s = [c]) as (c & ->) by (destruct S as [->|[->| ->]]; eexists; reflexivity).
    rewrite parse_rfc3339_ok by auto.
    destruct (date_ok _ _ _) eqn:Ed; cbn [andb]; [|discriminate]. destruct (c =? 84) eqn:Ec; cbn [andb]; [|discriminate].
    destruct ((dec_num h <=? 23)%Z && (dec_num mi <=? 59)%Z && (dec_num se <=? 59)%Z) eqn:R; [|discriminate].
    destruct (parse_zone z) as [off|] eqn:Ez; [|discriminate]. intros [= <-].
    apply N.eqb_eq in Ec. subst c. apply date_ok_text in Ed; [|apply Y|apply M|apply D].
    do 2 eexists. split; [|reflexivity]. apply parse_zone_iff in Ez; auto.
    apply (ts (y ++ tx "-" ++ m ++ tx "-" ++ dd)); auto; try lia.
    + apply dt; auto. now apply date_denotes_iff.
    + now apply frac_denotes_iff.
  - intros (sec & ns & D & ->). destruct D as [d n h mi se f ns z off D H Mi Se R1 R2 R3 F Z].
    destruct D as [y m d n Y M D x V N].
    assert (Ff : secfrac f) by (destruct F; [now left|right; eauto]).
    assert (Zz : zone z). { destruct Z as [|? ? A B|? ? A B]; [now left|right; right|right; right]; do 3 eexists; (split; [reflexivity|auto]). }
    change (tx "T") with [84]. rewrite parse_rfc3339_ok by auto.
    rewrite (proj2 (date_ok_text y m d (proj1 Y) (proj1 M) (proj1 D)) V). change (84 =? 84) with true. cbn [andb].
    replace ((dec_num h <=? 23)%Z && (dec_num mi <=? 59)%Z && (dec_num se <=? 59)%Z) with true by lia.
    rewrite (proj2 (parse_zone_iff z off Zz) Z).
    apply (frac_denotes_iff f ns Ff) in F. apply (date_denotes_iff y m d n Y M D V) in N. now subst.
Qed.
End T.
