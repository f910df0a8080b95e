(** Numeric literals of queries and documents, and their comparison. *)
From Verif Require Import Bytes Utf8 Utf8Proofs GoStrconv GoTime GoFloat Oracles Ast Json MatchSpec LiteralSpec NumSpec FloatProofs NumProofs.
From Verif Require GrammarSpec JsonSpec LiteralProofs.
From Coq Require Import Reals Lra ZifyBool ZifyN ZifyNat.

Section WithOracles.
Context (O : oracles).

Definition numeric (v : aval) : Prop := match v with AInt _ _ _ | AFloat _ _ _ => True | _ => False end.

Lemma dec_num_acc t : Forall dig t -> forall a, fold_left (fun a c => 10 * a + (Z.of_N c - 48))%Z t a = (a * 10 ^ Z.of_nat (length t) + digits_value t)%Z.
Proof.
  induction 1 as [|c t Hc H IH]; intros a; cbn [fold_left length digits_value]; [cbn; lia|].
  rewrite IH. rewrite Nat2Z.inj_succ, Z.pow_succ_r by lia. ring.
Qed.
Lemma dec_num_value t : Forall dig t -> dec_num t = digits_value t.
Proof. intros H. unfold dec_num. rewrite dec_num_acc by exact H. lia. Qed.

Lemma sign_cases s : GrammarSpec.sign s -> s = [] \/ s = b "-".
Proof. auto. Qed.

Lemma int_literal_decimal t : GrammarSpec.int_lit t -> denotes_number t (IZR (LiteralSpec.int_value t)).
Proof.
  intros (s & d & -> & Hs & D & Ne). change (Forall dig d) in D.
  assert (E : forall sg, sg = [] \/ sg = b "-" -> forall r sr, sign_text sg sr -> r = (sr * IZR (digits_value d))%R -> denotes_number (sg ++ d) r).
  { intros sg _ r sr Sg ->. pose proof (dec_number sg sr d [] [] [] 0%Z Sg D ltac:(constructor) ltac:(now rewrite app_nil_r) ltac:(left; auto) xt_none ltac:(lia)) as H.
    rewrite !app_nil_r in H. cbn [length Z.of_nat Z.sub powerRZ Z.opp Z.add] in H. rewrite Rmult_1_r in H. exact H. }
  destruct Hs as [-> | ->].
  - eapply E; [now left|apply sg_none|]. cbn [app]. rewrite Rmult_1_l. f_equal. rewrite <- dec_num_value by exact D.
    unfold LiteralSpec.int_value. destruct d as [|c d]; [congruence|]. apply Forall_inv in D. unfold dig in D.
    destruct c as [|p]; [lia|]. repeat (destruct p as [p|p|]; try reflexivity; try (exfalso; lia)).
  - eapply (E (b "-")); [now right|apply sg_minus|]. change (GrammarSpec.tx "-" ++ d) with (45 :: d). cbn [LiteralSpec.int_value]. rewrite opp_IZR, dec_num_value by exact D. ring.
Qed.
Lemma float_literal_decimal t : GrammarSpec.float_lit t -> exists r, denotes_number t r.
Proof.
  intros (s & d & e & -> & Hs & (D & Ne) & (D' & Ne')). change (Forall dig d) in D. change (Forall dig e) in D'.
  assert (E : forall sg sr, sign_text sg sr -> exists r, denotes_number (sg ++ d ++ GrammarSpec.tx "." ++ e) r).
  { intros sg sr Sg. eexists. pose proof (dec_number sg sr d (b ".") e [] 0%Z Sg D D' ltac:(destruct d; [congruence|discriminate]) ltac:(right; reflexivity) xt_none ltac:(lia)) as H.
    rewrite app_nil_r in H. exact H. }
  destruct Hs as [-> | ->]; [apply (E _ _ sg_none)|apply (E _ _ sg_minus)].
Qed.
Lemma decimal_text_ascii t r : denotes_number t r -> Forall (fun c => c < 128) t.
Proof. intros D. eapply Forall_impl; [|exact (decimal_chars t r D)]. cbn beta. unfold dig. intros c [H|H]; [lia|]. cbn in H. lia. Qed.

Lemma literal_exact own p v : GrammarSpec.literal O own p v -> numeric v ->
  exists y g, denotes_number own y /\ in_double_range y /\ literal_num v = Some g /\ finite_double g /\ double_value g = nearest y.
Proof.
  intros L Nm. destruct L as [t s p Q U|t v p R E|t v p R E|t v p R E|t v p R E|t v p R E|p|p]; try contradiction.
  - unfold new_regexp_val in E. cbv zeta in E. destruct (o_re_parse O _); [|discriminate]. injection E as <-. contradiction.
  - unfold new_time_val in E. repeat match type of E with context [match ?x with _ => _ end] => destruct x; try discriminate end; injection E as <-; contradiction.
  - unfold new_net_val in E. repeat match type of E with context [match ?x with _ => _ end] => destruct x; try discriminate end; try (injection E as <-; contradiction).
  - destruct (float_literal_decimal t R) as (y & D). pose proof (decimal_text_ascii t y D) as A. rewrite (encode_ascii t A) in E.
    unfold new_float_val in E. destruct (parse_float_exact (o_float_other O) t y D) as (H1 & H2).
    assert (In : in_double_range y).
    { destruct (Rlt_le_dec (Rabs (nearest y)) max_double) as [L|L]; [exact L|]. rewrite H2 in E by (unfold in_double_range; lra). discriminate. }
    destruct (H1 In) as (f & P & F & V). rewrite P in E. cbn in E. exists y, f. split; [exact D|]. split; [exact In|].
    destruct f; try discriminate; injection E as <-; (split; [reflexivity|]); now split.
  - pose proof (int_literal_decimal t R) as D. pose proof (decimal_text_ascii _ _ D) as A. rewrite (encode_ascii t A) in E.
    unfold new_int_val in E. rewrite LiteralProofs.parse_int_spec in E by exact R.
    destruct ((-9223372036854775808 <=? LiteralSpec.int_value t) && (LiteralSpec.int_value t <=? 9223372036854775807))%Z eqn:B; [|discriminate]. cbn in E. injection E as <-.
    assert (In : in_double_range (IZR (LiteralSpec.int_value t))) by (apply int_in_range; lia).
    exists (IZR (LiteralSpec.int_value t)), (f_of_Z (LiteralSpec.int_value t)). split; [exact D|]. split; [exact In|]. split; [reflexivity|].
    destruct (f_of_Z_rounds (LiteralSpec.int_value t)) as (V & H & _). destruct (H In) as (H1 & H2). split; [now split|exact H1].
Qed.

(** A number of a document. *)
Lemma json_number_decimal raw : JsonSpec.number_text raw ->
  (exists r, denotes_number raw r) \/ exists before c sg ds, raw = before ++ c :: sg ++ ds /\ (c = 101 \/ c = 69) /\ Forall dig ds /\ (100000 <= digits_value ds)%Z.
Proof.
  intros N. destruct N as [sg i f e Hs Hi Hf He].
  assert (Di : Forall dig i /\ i <> []).
  { destruct Hi as [|c ds Hc Hd]; (split; [|discriminate]); constructor; try constructor; unfold dig; try lia. exact Hd. }
  destruct Di as (Di & Ni).
  assert (Sg : exists sr, sign_text sg sr) by (destruct Hs as [-> | ->]; eexists; [apply sg_none|apply sg_minus]). destruct Sg as (sr & Sg).
  assert (Fp : exists dot fp, f = dot ++ fp /\ Forall dig fp /\ (dot = [] /\ fp = [] \/ dot = b ".")).
  { destruct Hf as [|ds Hd Hn]; [exists [], []; auto|]. exists (b "."), ds. auto. }
  destruct Fp as (dot & fp & -> & Dfp & Dt).
  assert (Ne : i ++ fp <> []) by (destruct i; [congruence|discriminate]).
  destruct He as [|c es ds Hc He Hd Hn].
  - left. eexists. rewrite <- app_assoc. eapply dec_number; eauto. apply xt_none. lia.
  - change (Forall dig ds) in Hd. destruct (Z_lt_le_dec (digits_value ds) 100000) as [L|L].
    + left. pose proof (digits_value_nonneg ds Hd). rewrite <- app_assoc. destruct He as [-> | [-> | ->]]; eexists.
      * eapply dec_number; eauto. apply (xt_pos c [] ds); auto. lia.
      * eapply dec_number; eauto. apply (xt_pos c (b "+") ds); auto. lia.
      * eapply dec_number; eauto. apply (xt_neg c ds); auto. lia.
    + right. exists (sg ++ i ++ dot ++ fp), c, es, ds. rewrite !app_assoc. auto.
Qed.

(** The order of doubles, as an order of exact numbers. *)
Definition real_rel (o : op) (x y : R) : Prop :=
  match o with LT => x < y | LTE => x <= y | GT => x > y | GTE => x >= y | EQ => x = y | _ => False end%R.

Lemma number_of_decimal raw x : denotes_number raw x -> forall f, number_of O (JNum raw) f <->
  in_double_range x /\ finite_double f /\ parse_float (o_float_other O) raw = Some f /\ double_value f = nearest x.
Proof.
  intros D f. destruct (parse_float_exact (o_float_other O) raw x D) as (H1 & H2). unfold number_of. split.
  - intros (raw' & [E|E] & P); [discriminate|]. injection E as <-.
    assert (In : in_double_range x).
    { destruct (Rlt_le_dec (Rabs (nearest x)) max_double) as [L|L]; [exact L|]. rewrite H2 in P by (unfold in_double_range; lra). discriminate. }
    destruct (H1 In) as (f' & P' & F & V). rewrite P in P'. injection P' as <-. auto.
  - intros (_ & _ & P & _). eauto.
Qed.
Lemma number_of_exists raw x : denotes_number raw x -> in_double_range x -> exists f, number_of O (JNum raw) f.
Proof. intros D In. destruct (proj1 (parse_float_exact (o_float_other O) raw x D) In) as (f & P & _). exists f, raw. auto. Qed.

Lemma rel_exact o f g x y : finite_double f -> finite_double g -> double_value f = nearest x -> double_value g = nearest y ->
  match o with LT => f_lt f g | LTE => f_le f g | GT => f_gt f g | GTE => f_ge f g | EQ => f_eq f g | _ => false end = true <-> real_rel o (nearest x) (nearest y).
Proof.
  intros Ff Fg Ef Eg. rewrite <- Ef, <- Eg. destruct o; cbn [real_rel]; try (split; [discriminate|contradiction]).
  - now apply eq_exact.
  - now apply lt_exact.
  - now apply le_exact.
  - now apply gt_exact.
  - now apply ge_exact.
Qed.
End WithOracles.
