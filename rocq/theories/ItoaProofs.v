(** strconv.Itoa writes the number. *)
From Verif Require Import Bytes GoItoa.
From Coq Require Import ZifyBool ZifyN ZifyNat.

Definition value_of (s : bytes) (acc : N) : N := fold_left (fun a c => 10 * a + (c - 48)) s acc.
Lemma size_nat_log n : N.size_nat n = match n with 0 => 0%nat | _ => S (N.to_nat (N.log2 n)) end.
Proof.
  destruct n as [|p]; [reflexivity|]. cbn [N.size_nat N.log2]. destruct p as [p|p|]; cbn [Pos.size_nat]; [| |reflexivity]; f_equal;
    rewrite <- (Pos2Nat.inj_1 : Pos.to_nat 1 = 1%nat) || idtac; cbn [N.to_nat]; clear; induction p as [p IH|p IH|]; cbn [Pos.size_nat Pos.size]; rewrite ?Pos2Nat.inj_succ; auto.
Qed.
Lemma size_div n : 10 <= n -> (N.size_nat (n / 10) < N.size_nat n)%nat.
Proof.
  intros H. assert (D : n / 10 <> 0) by (intros E; apply N.div_small_iff in E; lia).
  assert (L : N.log2 (n / 10) < N.log2 n).
  { assert (L2 : N.log2 (2 * (n / 10)) <= N.log2 n) by (apply N.log2_le_mono; pose proof (N.mul_div_le n 10); lia).
    rewrite N.log2_double in L2 by lia. lia. }
  rewrite !size_nat_log. destruct n as [|p]; [lia|]. destruct (N.pos p / 10) as [|q]; [congruence|]. lia.
Qed.
Lemma digits_of_value fuel : forall n acc, (N.size_nat n < fuel)%nat ->
  exists ds, digits_of fuel n acc = ds ++ acc /\ value_of ds 0 = n /\ ds <> [] /\ Forall (fun c => 48 <= c <= 57) ds.
Proof.
  induction fuel as [|fuel IH]; intros n acc H; [lia|]. cbn [digits_of].
  assert (M : n mod 10 < 10) by (apply N.mod_upper_bound; lia).
  destruct (N.ltb_spec n 10).
  - exists [48 + n mod 10]. split; [reflexivity|]. split; [unfold value_of; cbn [fold_left]; rewrite N.mod_small by lia; lia|]. split; [discriminate|]. constructor; [lia|constructor].
  - destruct (IH (n / 10) (48 + n mod 10 :: acc)) as (ds & E & V & _ & F).
    + pose proof (size_div n). lia.
    + exists (ds ++ [48 + n mod 10]). split; [rewrite E, <- app_assoc; reflexivity|].
      split; [unfold value_of in *; rewrite fold_left_app, V; cbn [fold_left]; pose proof (N.div_mod n 10); lia|].
      split; [now destruct ds|]. apply Forall_app. split; [exact F|]. constructor; [lia|constructor].
Qed.
Lemma itoa_value n : value_of (itoa n) 0 = n /\ itoa n <> [] /\ Forall (fun c => 48 <= c <= 57) (itoa n).
Proof.
  unfold itoa. destruct (digits_of_value (S (N.size_nat n)) n []) as (ds & E & V & H & F); [lia|].
  rewrite E, app_nil_r. auto.
Qed.
Lemma itoa_inj n m : itoa n = itoa m -> n = m.
Proof. intros E. rewrite <- (proj1 (itoa_value n)), <- (proj1 (itoa_value m)). now rewrite E. Qed.
