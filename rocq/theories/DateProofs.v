(** Proofs about timestamps in comparisons. *)
From Verif Require Import Bytes Utf8 Utf8Proofs GoStrconv GoFloat GoTime GoNet Oracles Ast AstSpec GrammarSpec LiteralSpec LiteralProofs Layout LayoutProofs
  GrammarFacts SimpleQuery ParseQuery Prop_Grammar Json DateSpec.
From Verif Require MatchSpec.
From Coq Require Import ZifyBool ZifyN ZifyNat.

Lemma literal_fun O t p v v' : scalars t -> literal O t p v -> literal O t p v' -> v = v'.
Proof.
  intros St L L'. pose proof (literal_pos _ _ _ _ L) as Ep. pose proof (literal_pos _ _ _ _ L') as Ep'.
  apply (literal_move O _ _ _ (pos_of (tx "a" ++ tx ":") t)) in L, L'.
  apply (accept_one O (tx "a") [b "a"]) in L, L'; auto using field_a; try (repeat constructor).
  rewrite L in L'. injection L' as E. rewrite <- (set_pos_pos p v Ep), <- (set_pos_pos p v' Ep').
  apply (f_equal (set_pos p)) in E. now rewrite !set_pos_set in E.
Qed.

Lemma date_denotes_lit t n : date_denotes t n -> date_lit t.
Proof. intros [y m d n' Y M D x V Dn]. exists y, m, d. auto. Qed.
Lemma timestamp_denotes_lit t s ns : timestamp_denotes t s ns -> datetime_lit t.
Proof.
  intros [d n h m se f ns' z off D H M Se R1 R2 R3 F Z]. exists d, (tx "T"), (h ++ tx ":" ++ m ++ tx ":" ++ se ++ f ++ z).
  split; [reflexivity|]. split; [eapply date_denotes_lit; eauto|]. split; [auto|]. exists h, m, se, f, z. repeat (split; [first [reflexivity|assumption]|]). split.
  - destruct F; [now left|right; eauto].
  - destruct Z as [|? ? A B|? ? A B]; [now left|right; right|right; right]; do 3 eexists; (split; [reflexivity|auto]).
Qed.
Lemma not_both t : date_lit t -> datetime_lit t -> False.
Proof.
  intros D (d & s & u & -> & D' & S & U). apply date_len in D. rewrite !app_length, (date_len d D') in D. destruct S as [->|[->| ->]]; cbn in D; lia.
Qed.

(** The value of a literal that names an instant. *)
Lemma instant_literal O own p v t : literal O own p v -> names_instant own t ->
  exists d, v = ATime t d own p /\ (d = true <-> date_lit own).
Proof.
  intros L Nm. revert L. destruct Nm as [own' n D|own' s ns D]; intros L.
  - pose proof (date_denotes_lit _ _ D) as Dl. exists true. split; [|tauto].
    apply (literal_fun O own' p); [now apply ascii_scalars, date_ascii|exact L|]. apply date_literal; eauto.
  - pose proof (timestamp_denotes_lit _ _ _ D) as Dl. exists false. split; [|split; [discriminate|intros X; destruct (not_both _ X Dl)]].
    apply (literal_fun O own' p); [now apply ascii_scalars, datetime_ascii|exact L|]. apply timestamp_literal; eauto.
Qed.

Lemma wrap64_id z : (- 2 ^ 63 <= z < 2 ^ 63)%Z -> wrap64 z = z.
Proof. intros H. unfold wrap64. rewrite Z.mod_small; lia. Qed.
Lemma unix_nano_near i : near i -> unix_nano i = exact_nanos i.
Proof. intros H. apply wrap64_id. exact H. Qed.

Lemma instant_eq i t : i_sec i = i_sec t -> i_nsec i = i_nsec t -> i = t.
Proof. destruct i, t; cbn; congruence. Qed.

Lemma nano_rel_time o i t : In o [EQ; LT; LTE; GT; GTE] -> normal i -> normal t -> near i -> near t ->
  (match o with EQ => unix_nano i = unix_nano t | _ => MatchSpec.nano_rel o (unix_nano i) (unix_nano t) end) <-> time_rel o i t.
Proof.
  intros Io Ni Nt Ri Rt. rewrite (unix_nano_near i Ri), (unix_nano_near t Rt). unfold exact_nanos, normal in *.
  assert (Ei : forall a c : instant, a = c -> i_sec a = i_sec c /\ i_nsec a = i_nsec c) by (intros ? ? ->; auto).
  cbn in Io. destruct Io as [<-|[<-|[<-|[<-|[<-|[]]]]]]; cbn [MatchSpec.nano_rel time_rel]; unfold before.
  - split; [intros E; apply instant_eq; lia|intros ->; reflexivity].
  - split; lia.
  - split; [|intros [H|H]; [|apply Ei in H]; lia]. intros H. destruct (Z.eq_dec (i_sec i) (i_sec t)); [|lia].
    destruct (Z.eq_dec (i_nsec i) (i_nsec t)); [right; apply instant_eq; lia|lia].
  - split; lia.
  - split; [|intros [H|H]; [|apply Ei in H]; lia]. intros H. destruct (Z.eq_dec (i_sec i) (i_sec t)); [|lia].
    destruct (Z.eq_dec (i_nsec i) (i_nsec t)); [right; apply instant_eq; lia|lia].
Qed.

Lemma names_normal own t : names_instant own t -> normal t.
Proof.
  intros [own' n D|own' s ns D]; unfold normal; cbn; [lia|].
  destruct D as [d n h m se f ns' z off D H M Se R1 R2 R3 F Z]. destruct F as [|d' ns' D' (F1 & F2 & F3)]; [lia|].
  split; [exact F1|]. 
  assert (B : (dec_num d' < 10 ^ Z.of_nat (length d'))%Z).
  { destruct D' as [D' _]. clear -D'. unfold dec_num.
    assert (G : forall l a, Forall digit l -> (0 <= a)%Z -> (0 <= fold_left (fun a c => 10 * a + (Z.of_N c - 48)) l a < (a + 1) * 10 ^ Z.of_nat (length l))%Z).
    { induction l as [|c l IH]; intros a F A; [cbn; lia|]. inversion F as [|? ? Hc Hl]; subst. unfold digit in Hc.
      cbn [fold_left length]. specialize (IH (10 * a + (Z.of_N c - 48))%Z Hl ltac:(lia)). rewrite Nat2Z.inj_succ, Z.pow_succ_r by lia. nia. }
    specialize (G d' 0%Z D' ltac:(lia)). lia. }
  assert (P : (0 < 10 ^ Z.of_nat (length d'))%Z) by (apply Z.pow_pos_nonneg; lia). nia.
Qed.
