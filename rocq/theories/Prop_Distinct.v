(** C17, further: which values cannot occur twice in an accepted list, by value. *)
From Verif Require Import Bytes Utf8 Utf8Proofs GoStrconv GoFloat GoTime GoNet Oracles Ast AstSpec PegSyntax Validators Visitors ParseQuery GrammarSpec LiteralSpec LiteralProofs
  MatchSpec NetProofs NetLitProofs PrintedProofs TestOracle Prop_Validators.
From Verif Require Prop_Grammar.
From Coq Require Import ZifyBool ZifyN ZifyNat.

Notation digs t := (Forall (fun c => 48 <= c <= 57) t).
Lemma decimal_snoc t : forall a c, decimal a (t ++ [c]) = decimal a t * 10 + (c - 48).
Proof. induction t as [|x t IH]; intros a c; cbn [app decimal]; [reflexivity|apply IH]. Qed.
Lemma decimal_len_inj t : forall t', digs t -> digs t' -> length t = length t' -> decimal 0 t = decimal 0 t' -> t = t'.
Proof.
  induction t as [|c t IH] using rev_ind; intros t' D D' L E; [destruct t'; [reflexivity|discriminate]|].
  destruct t' as [|c' t'] using rev_ind; [rewrite app_length in L; cbn in L; lia|]. clear IHt'.
  rewrite !app_length in L. cbn [length] in L. apply Forall_app in D as [D Dc], D' as [D' Dc']. inversion Dc; inversion Dc'; subst.
  rewrite !decimal_snoc in E. assert (decimal 0 t = decimal 0 t' /\ c = c') as [E1 ->] by lia. f_equal. apply IH; auto. lia.
Qed.
Lemma decimal_bounds t : forall a, digs t -> a * 10 ^ N.of_nat (length t) <= decimal a t < (a + 1) * 10 ^ N.of_nat (length t).
Proof.
  induction t as [|c t IH]; intros a D; cbn [decimal length]; [cbn; lia|]. inversion D; subst. specialize (IH (a * 10 + (c - 48)) ltac:(assumption)).
  rewrite Nat2N.inj_succ, N.pow_succ_r'. nia.
Qed.
Lemma plain_digits t : plain t -> digs t -> decimal 0 t = 0 /\ t = [48] \/ 10 ^ N.of_nat (length t - 1) <= decimal 0 t < 10 ^ N.of_nat (length t) /\ (1 <= length t)%nat.
Proof.
  intros [->|(c & r & -> & Nz)] D; [left; split; reflexivity|]. right. inversion D; subst. cbn [decimal length]. pose proof (decimal_bounds r (0 * 10 + (c - 48)) ltac:(assumption)) as B.
  replace (S (length r) - 1)%nat with (length r) by lia. rewrite Nat2N.inj_succ, N.pow_succ_r'. split; [|lia]. nia.
Qed.
(** Numbers without leading zeros are written in one way. *)
Lemma plain_inj t t' : plain t -> plain t' -> digs t -> digs t' -> decimal 0 t = decimal 0 t' -> t = t'.
Proof.
  intros P P' D D' E.
  destruct (plain_digits t P D) as [(Z1 & ->)|(B & L)], (plain_digits t' P' D') as [(Z2 & ->)|(B' & L')]; auto.
  - exfalso. assert (0 < 10 ^ N.of_nat (length t' - 1)) by (apply N.neq_0_lt_0, N.pow_nonzero; discriminate). lia.
  - exfalso. assert (0 < 10 ^ N.of_nat (length t - 1)) by (apply N.neq_0_lt_0, N.pow_nonzero; discriminate). lia.
  - apply decimal_len_inj; auto. destruct (lt_eq_lt_dec (length t) (length t')) as [[Lt|Eq]|Gt]; [|exact Eq|]; exfalso.
    + assert (10 ^ N.of_nat (length t) <= 10 ^ N.of_nat (length t' - 1)) by (apply N.pow_le_mono_r; lia). lia.
    + assert (10 ^ N.of_nat (length t') <= 10 ^ N.of_nat (length t - 1)) by (apply N.pow_le_mono_r; lia). lia.
Qed.
Lemma dec_num_decimal t : digs t -> dec_num t = Z.of_N (decimal 0 t).
Proof.
  intros D. unfold dec_num. change 0%Z with (Z.of_N 0). revert D. generalize 0. induction t as [|c t IH]; intros a D; cbn [fold_left decimal]; [reflexivity|].
  inversion D; subst. rewrite <- IH by assumption. f_equal. lia.
Qed.

(** An integer as one writes it: no leading zeros, and no sign before a zero. *)
Definition usual (s : bytes) : Prop := exists d, digs d /\ plain d /\ (s = d \/ s = 45 :: d /\ d <> [48]).
Lemma int_value_plain d : digs d -> int_value d = Z.of_N (decimal 0 d).
Proof.
  intros D. rewrite <- dec_num_decimal by exact D. unfold int_value. destruct d as [|c s]; [reflexivity|]. assert (Nc : c <> 45) by (inversion D; lia).
  destruct c as [|c]; [reflexivity|]. do 6 (destruct c as [c|c|]; try reflexivity); destruct (Nc eq_refl).
Qed.
Lemma usual_inj s s' : usual s -> usual s' -> int_value s = int_value s' -> s = s'.
Proof.
  assert (Ps : forall d, digs d -> plain d -> d <> [48] -> 0 < decimal 0 d).
  { intros d D P N0. destruct (plain_digits d P D) as [(_ & ->)|((B & _) & _)]; [destruct (N0 eq_refl)|]. assert (0 < 10 ^ N.of_nat (length d - 1)) by (apply N.neq_0_lt_0, N.pow_nonzero; discriminate). lia. }
  intros (d & D & P & [->|(-> & N0)]) (d' & D' & P' & [->|(-> & N0')]) E; cbn [int_value] in E; rewrite ?int_value_plain, ?dec_num_decimal in E by assumption.
  - apply plain_inj; auto. lia.
  - specialize (Ps d' D' P' N0'). lia.
  - specialize (Ps d D P N0). lia.
  - f_equal. apply plain_inj; auto. lia.
Qed.

(** Networks *)
Lemma split_at (c : N) x y x' y' : ~ In c x -> ~ In c x' -> x ++ c :: y = x' ++ c :: y' -> x = x' /\ y = y'.
Proof.
  revert x'. induction x as [|a x IH]; intros [|a' x'] N1 N2 E; cbn [app] in E.
  - injection E as ->. auto.
  - injection E as <- _. destruct N2. now left.
  - injection E as -> _. destruct N1. now left.
  - injection E as -> E. destruct (IH x') as [-> ->]; auto; intros H; [apply N1|apply N2]; now right.
Qed.
Definition dotted4 d1 d2 d3 d4 : bytes := d1 ++ 46 :: d2 ++ 46 :: d3 ++ 46 :: d4.
Lemma quad_inj d1 d2 d3 d4 e1 e2 e3 e4 v1 v2 v3 v4 w1 w2 w3 w4 :
  digit_text 3 d1 -> digit_text 3 d2 -> digit_text 3 d3 -> digit_text 3 d4 -> digit_text 3 e1 -> digit_text 3 e2 -> digit_text 3 e3 -> digit_text 3 e4 ->
  octet d1 v1 -> octet d2 v2 -> octet d3 v3 -> octet d4 v4 -> octet e1 w1 -> octet e2 w2 -> octet e3 w3 -> octet e4 w4 ->
  v1 * 256 ^ 3 + v2 * 256 ^ 2 + v3 * 256 + v4 = w1 * 256 ^ 3 + w2 * 256 ^ 2 + w3 * 256 + w4 -> dotted4 d1 d2 d3 d4 = dotted4 e1 e2 e3 e4.
Proof.
  intros (_ & _ & D1) (_ & _ & D2) (_ & _ & D3) (_ & _ & D4) (_ & _ & E1) (_ & _ & E2) (_ & _ & E3) (_ & _ & E4)
    (P1 & V1 & B1) (P2 & V2 & B2) (P3 & V3 & B3) (P4 & V4 & B4) (Q1 & W1 & C1) (Q2 & W2 & C2) (Q3 & W3 & C3) (Q4 & W4 & C4) E.
  change (256 ^ 3) with 16777216 in E. change (256 ^ 2) with 65536 in E.
  assert (v1 = w1 /\ v2 = w2 /\ v3 = w3 /\ v4 = w4) as (-> & -> & -> & ->) by lia.
  rewrite (plain_inj d1 e1), (plain_inj d2 e2), (plain_inj d3 e3), (plain_inj d4 e4) by (auto; congruence). reflexivity.
Qed.
Lemma net_inj O t t' net : o_strict_bits O = true -> denotes_net O t net -> denotes_net O t' net -> net_text t = net_text t'.
Proof.
  intros St H H'.
  assert (Sl : forall d1 d2 d3 d4, digit_text 3 d1 -> digit_text 3 d2 -> digit_text 3 d3 -> digit_text 3 d4 -> has_byte 47 (dotted4 d1 d2 d3 d4) = false).
  { intros d1 d2 d3 d4 (_ & _ & D1) (_ & _ & D2) (_ & _ & D3) (_ & _ & D4). unfold has_byte, dotted4. destruct (existsb _ _) eqn:X; [|reflexivity].
    apply existsb_exists in X as (c & I & C). apply N.eqb_eq in C. subst c. rewrite Forall_forall in D1, D2, D3, D4.
    repeat (rewrite in_app_iff in I || cbn [In] in I). destruct I as [I|[I|[I|[I|[I|[I|I]]]]]]; try discriminate;
      [apply D1 in I|apply D2 in I|apply D3 in I|apply D4 in I]; lia. }
  assert (S2 : forall x n, has_byte 47 (x ++ 47 :: n) = true).
  { intros x n. unfold has_byte. apply existsb_exists. exists 47. split; [apply in_or_app; right; now left|reflexivity]. }
  assert (B32 : forall n, digit_text 2 n -> plain n -> decimal 0 n = 32 -> n = b "32").
  { intros n (_ & _ & Dn) Pn E. change (b "32") with [51; 50]. apply plain_inj; [exact Pn|right; exists 51, [50]; split; [reflexivity|discriminate]|exact Dn|repeat (constructor; [lia|]); constructor|exact E]. }
  unfold net_text.
  inversion H as [d1 d2 d3 d4 v1 v2 v3 v4 G1 G2 G3 G4 K1 K2 K3 K4 E1 E2|d1 d2 d3 d4 n v1 v2 v3 v4 G1 G2 G3 G4 Gn K1 K2 K3 K4 Sn Bn E1 E2];
  inversion H' as [e1 e2 e3 e4 w1 w2 w3 w4 G1' G2' G3' G4' K1' K2' K3' K4' E1' E2'|e1 e2 e3 e4 n' w1 w2 w3 w4 G1' G2' G3' G4' Gn' K1' K2' K3' K4' Sn' Bn' E1' E2'];
  subst net; injection E2'; clear E2'; intros; fold (dotted4 d1 d2 d3 d4); fold (dotted4 e1 e2 e3 e4);
  rewrite ?S2, ?(Sl d1 d2 d3 d4), ?(Sl e1 e2 e3 e4) by assumption;
  rewrite <- (quad_inj d1 d2 d3 d4 e1 e2 e3 e4 v1 v2 v3 v4 w1 w2 w3 w4) by (auto; lia).
  - reflexivity.
  - rewrite (B32 n') by (auto; lia). reflexivity.
  - rewrite (B32 n) by (auto; lia). reflexivity.
  - do 2 f_equal. destruct Gn as (_ & _ & Dn), Gn' as (_ & _ & Dn'). apply plain_inj; auto.
Qed.
Lemma net_shown O t p net s u : literal O t p (ANet net s u) -> s = net_text t /\ denotes_net O t net.
Proof.
  intros L. pose proof (net_literal_inv _ _ _ _ _ _ L) as Dn. split; [|exact Dn]. pose proof (dotted_ascii _ (denotes_dotted _ _ _ Dn)) as A.
  inversion L as [|? ? ? R N|? ? ? R N|? ? ? R N|? ? ? R N|? ? ? R N| |]; subst.
  - unfold new_regexp_val in N. destruct (o_re_parse O _); discriminate.
  - unfold new_time_val in N. destruct (Nat.eqb _ _); [destruct (parse_date _)|destruct (parse_rfc3339 _)]; discriminate.
  - rewrite (encode_ascii _ A) in N. unfold new_net_val in N. destruct (parse_prefix _ _); [|discriminate]. injection N as _ <- _. reflexivity.
  - unfold new_float_val in N. destruct (parse_float _ _) as [g|]; [|discriminate]. destruct g; discriminate.
  - unfold new_int_val in N. destruct (parse_int _); discriminate.
Qed.

(** The same value: texts, truth values, doubles (with their sign), integers that are written as usual, networks
    with the same address and length. *)
Inductive same_datum (O : oracles) : aval -> aval -> Prop :=
| sd_str s p p' : same_datum O (AStr s p) (AStr s p')
| sd_bool x p p' : same_datum O (ABool x p) (ABool x p')
| sd_float x s s' p p' : same_datum O (AFloat x s p) (AFloat x s' p')
| sd_int z s s' p p' : usual s -> usual s' -> same_datum O (AInt z s p) (AInt z s' p')
| sd_net net s s' p p' : o_strict_bits O = true -> same_datum O (ANet net s p) (ANet net s' p').
Theorem C17_values O q t o f vs p i j v w : parse_plain O q = QOk t -> subnode (NExpr o f vs p) t ->
  nth_error vs i = Some v -> nth_error vs j = Some w -> same_datum O v w -> i = j.
Proof.
  intros P Sb Hi Hj Sd. destruct (C17_distinct_printed _ _ _ _ _ _ _ P Sb) as [D _]. eapply D; eauto.
  pose proof (nth_error_In _ _ Hi) as Iv. pose proof (nth_error_In _ _ Hj) as Iw.
  pose proof (accepted_shape O _ _ _ _ _ _ _ P Sb Iv) as Sv. pose proof (accepted_shape O _ _ _ _ _ _ _ P Sb Iw) as Sw.
  destruct Sd as [s p1 p2|x p1 p2|x s s' p1 p2|z s s' p1 p2 U U'|net s s' p1 p2 St]; cbn [val_string].
  - reflexivity.
  - reflexivity.
  - inversion Sv; inversion Sw; subst. reflexivity.
  - inversion Sv; inversion Sw; subst. apply usual_inj; auto.
  - destruct (Prop_Grammar.C06_literal_positions O q t o f vs p _ P Sb Iv) as (bf & own & af & _ & L & _).
    destruct (Prop_Grammar.C06_literal_positions O q t o f vs p _ P Sb Iw) as (bf' & own' & af' & _ & L' & _).
    apply net_shown in L as (-> & Dn). apply net_shown in L' as (-> & Dn'). eapply net_inj; eauto.
Qed.
Print Assumptions C17_values.
(** What is accepted although the values are the same: a zero with a sign, an instant in two zones, and where Go
    reads them, lengths of networks with a leading zero. *)
Theorem C17_zero_refuted : exists q, forall O, exists f p p1 p2, parse_plain O q = QOk (NExpr EQ f [AInt 0 (b "0") p1; AInt 0 (b "-0") p2] p).
Proof. exists (b "a:(0,-0)"). intros O. do 4 eexists. vm_compute. reflexivity. Qed.
Print Assumptions C17_zero_refuted.
Theorem C17_zone_refuted : exists q, forall O, exists f p x d s s' p1 p2, s <> s' /\ parse_plain O q = QOk (NExpr EQ f [ATime x d s p1; ATime x d s' p2] p).
Proof.
  exists (b "a:(2020-01-01T01:00:00+01:00,2020-01-01T00:00:00Z)"). intros O. do 8 eexists. split; [|vm_compute; reflexivity]. vm_compute. discriminate.
Qed.
Print Assumptions C17_zone_refuted.
Theorem C17_length_refuted : exists q, forall O, o_strict_bits O = false -> exists f p x s s' p1 p2, s <> s' /\ parse_plain O q = QOk (NExpr EQ f [ANet x s p1; ANet x s' p2] p).
Proof.
  exists (b "a:(10.0.0.0/8,10.0.0.0/08)"). intros O E. destruct O as [x1 x2 x3 x4 x5 x6 x7 x8]. cbn in E. subst. do 7 eexists. split; [|vm_compute; reflexivity]. vm_compute. discriminate.
Qed.
Print Assumptions C17_length_refuted.
Example C17_values_example :
  (exists t, parse_plain test_oracle (b "a:(1.5,2,-2,10.0.0.1,10.0.0.2/32,true,""1.5"")") = QOk t) /\
  parse_plain test_oracle (b "a:(10.0.0.1,10.0.0.1/32)") = QErr (QInvalid (VeDuplicate (b "10.0.0.1/32") 2 2) {| p_line := 1; p_col := 13; p_off := 12; p_len := 11 |}) /\
  (exists k p, parse_plain test_oracle (b "a:(1.5,1.50)") = QErr (QInvalid k p)) /\
  usual (b "10") /\ usual (b "-7") /\ ~ usual (b "-0") /\ ~ usual (b "01").
Proof.
  split; [eexists; vm_compute; reflexivity|]. split; [vm_compute; reflexivity|]. split; [do 2 eexists; vm_compute; reflexivity|].
  split; [exists [49; 48]; repeat split; [repeat (constructor; [lia|]); constructor|right; exists 49, [48]; split; [reflexivity|discriminate]|now left]|].
  split; [exists [55]; repeat split; [repeat (constructor; [lia|]); constructor|right; exists 55, []; split; [reflexivity|discriminate]|right; split; [reflexivity|discriminate]]|].
  split; intros (d & D & P & [E|(E & N0)]).
  - rewrite <- E in D. inversion D. lia.
  - injection E as <-. now apply N0.
  - rewrite <- E in P. destruct P as [P|(c & r & P & Nc)]; [discriminate P|]. injection P as <- _. now apply Nc.
  - discriminate E.
Qed.
