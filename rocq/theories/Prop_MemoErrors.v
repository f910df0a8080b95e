(** C130, further: with the option Memoize the list of errors stays short as well (without it, it doubles and
    doubles again with each parenthesis, C147). *)
From Verif Require Import Bytes Utf8 Oracles Ast PegSyntax Grammar Actions Engine EngineBasics Memo MemoProofs ErrorList TestOracle CostProofs Prop_Memo Prop_ErrorList.
From Coq Require Import ZifyBool ZifyN ZifyNat.

(** No literal of the grammar is longer than the word exists, and each character of it is read once. *)
Fixpoint short_lits (e : expr) : bool :=
  match e with
  | EAction _ e | ELabel _ e | EOpt e | ENot e | EPlus e | EStar e => short_lits e
  | ERecover e r _ => short_lits e && short_lits r
  | ESeq l | EChoice l => forallb short_lits l
  | ELit s _ _ => Nat.leb (length s) 6
  | ERule _ | EThrow _ | EClass _ _ _ _ _ | EAny | EState _ => true
  end.
Lemma short_rules r : short_lits (rules r) = true.
Proof. destruct r; vm_compute; reflexivity. Qed.

Definition nerr (m : mstate) : N := N.of_nat (length (errs (ms m))).
(** at most [k] errors beyond six for each expression evaluated *)
Definition grown (k : N) (m m' : mstate) : Prop := nerr m' + 6 * cnt (ms m) <= nerr m + 6 * cnt (ms m') + k.
Definition rgrown (k : N) (m : mstate) (x : mres) : Prop := match x with MVal _ _ m' | MFail m' | MPanic m' => grown k m m' | MFuel => True end.
Lemma grown_refl m : grown 0 m m.
Proof. unfold grown. lia. Qed.
Lemma grown_trans k k' m1 m2 m3 : grown k m1 m2 -> grown k' m2 m3 -> grown (k + k') m1 m3.
Proof. unfold grown. lia. Qed.
Lemma nerr_restore m p : nerr (with_ms m (restore (ms m) p)) = nerr m.
Proof. unfold nerr, restore. now destruct (_ =? _)%Z. Qed.
Lemma cnt_restore_m m p : cnt (ms (with_ms m (restore (ms m) p))) = cnt (ms m).
Proof. unfold restore. now destruct (_ =? _)%Z. Qed.
Lemma grown_restore k m m' p : grown k m m' -> grown k m (with_ms m' (restore (ms m') p)).
Proof. unfold grown. now rewrite nerr_restore, cnt_restore_m. Qed.
Lemma rgrown_keep k m p key x : rgrown k m x -> rgrown k m (keep p key x).
Proof. destruct x; cbn [keep rgrown]; auto. Qed.
Lemma rgrown_pop k m f x : rgrown k m x -> rgrown k m (mpop f x).
Proof. destruct x; cbn [mpop rgrown]; auto. Qed.
Lemma rgrown_found m f x : rgrown 0 m (found m f x).
Proof. unfold found. cbn zeta. destruct (re_b x); cbn [rgrown]; apply grown_restore, grown_refl. Qed.
Lemma rgrown_first m1 m2 x : grown 0 m1 m2 -> rgrown 0 m2 x -> rgrown 0 m1 x.
Proof. intros H. destruct x; cbn [rgrown]; auto; intros H2; apply (grown_trans 0 0 _ _ _ H H2). Qed.

Lemma mseq_grown ev start : forall es i acc f m, (forall j c f m, In c es -> rgrown 0 m (ev j c f m)) -> rgrown 0 m (mseq ev start i es acc f m).
Proof.
  induction es as [|c es IH]; intros i acc f m H; cbn [mseq]; [apply grown_refl|].
  pose proof (H i c f m (or_introl eq_refl)) as G. destruct (ev i c f m) as [v f' m'|m'|m'|]; cbn [rgrown] in *; auto; [|now apply grown_restore].
  eapply rgrown_first; [exact G|]. apply IH. intros j c' f2 m2 K. apply H. now right.
Qed.
Lemma mchoice_grown ev : forall es i f m, (forall j c f m, In c es -> rgrown 0 m (ev j c f m)) -> rgrown 0 m (mchoice ev i es f m).
Proof.
  induction es as [|c es IH]; intros i f m H; cbn [mchoice]; [apply grown_refl|].
  pose proof (H i c [] m (or_introl eq_refl)) as G. destruct (ev i c [] m) as [v f' m'|m'|m'|]; cbn [rgrown mpop] in *; auto.
  eapply rgrown_first; [exact G|]. apply IH. intros j c' f2 m2 K. apply H. now right.
Qed.
Lemma mstar_grown ev e : (forall f m, rgrown 0 m (ev e f m)) -> forall k acc f m, rgrown 0 m (mstar ev k e acc f m).
Proof.
  intros H. induction k as [|k IH]; intros acc f m; cbn [mstar]; [exact I|].
  pose proof (H [] m) as G. destruct (ev e [] m) as [v f' m'|m'|m'|]; cbn [rgrown] in *; auto. eapply rgrown_first; [exact G|]. apply IH.
Qed.
Definition srecs (recs : list recovery) : Prop := Forall (fun x => short_lits (snd (snd x)) = true) recs.
Lemma mthrow_grown ev l recs : srecs recs -> (forall r p e f m, short_lits e = true -> rgrown 0 m (ev r p e f m)) -> forall f m, rgrown 0 m (mthrow ev l recs f m).
Proof.
  intros Hs H. induction recs as [|(ls, ((r, p), e)) recs IH]; intros f m; cbn [mthrow]; [apply grown_refl|].
  inversion Hs; subst. destruct (existsb _ ls); [|now apply IH].
  pose proof (H r p e f m ltac:(assumption)) as G. destruct (ev r p e f m) as [v f' m'|m'|m'|]; cbn [rgrown] in *; auto. eapply rgrown_first; [exact G|]. now apply IH.
Qed.

Lemma errs_read s : (length (errs (read s)) <= S (length (errs s)))%nat /\ cnt (read s) = cnt s.
Proof. unfold read, read_at. cbn zeta. destruct (_ && _); cbn [set_pt add_err errs cnt length]; split; lia. Qed.
Lemma errs_lit ic w : forall s, (length (errs (snd (lit_loop ic w s))) <= length w + length (errs s))%nat /\ cnt (snd (lit_loop ic w s)) = cnt s /\
  match fst (lit_loop ic w s) with Some s' => s' = snd (lit_loop ic w s) | None => True end.
Proof.
  induction w as [|c w IH]; intros s; cbn [lit_loop]; [cbn; auto|]. cbn zeta. destruct (_ =? c).
  - destruct (errs_read s) as (R1 & R2). destruct (IH (read s)) as (H1 & H2 & H3). cbn [length]. split; [lia|]. split; [congruence|exact H3].
  - cbn [fst snd]. split; [lia|]. split; [reflexivity|exact I].
Qed.
Lemma nerr_fail m inv fl p w s : nerr (with_ms m (fail_at inv fl p w s)) = N.of_nat (length (errs s)) /\ cnt (ms (with_ms m (fail_at inv fl p w s))) = cnt s.
Proof. unfold nerr. cbn [with_ms ms]. rewrite errs_fail, cnt_fail. auto. Qed.

Lemma meval_grown O n : forall inv recs r path e f m, short_lits e = true -> srecs recs -> rgrown 0 m (meval O n inv recs r path e f m).
Proof.
  induction n as [|n IH]; intros inv recs r path e f m0 Hs Hr; [exact I|]. cbn [meval].
  destruct (get_memo m0 (KExpr r path)) as [x|]; [apply rgrown_found|]. cbn zeta. apply rgrown_keep.
  set (m := with_ms m0 (tick (ms m0))).
  assert (T : forall k m', k <= 6 -> grown k m m' -> grown 0 m0 m').
  { intros k m' Hk. unfold grown. change (nerr m) with (nerr m0). change (cnt (ms m)) with (cnt (ms m0) + 1). lia. }
  assert (T0 : forall x, rgrown 0 m x -> rgrown 0 m0 x).
  { intros x. destruct x; cbn [rgrown]; auto; apply T; lia. }
  destruct e as [a e|l|l|l e|r'|w ic want|v chars ranges ic invd| |e|e|e|e|e rc ls|l|c]; cbn [short_lits] in Hs.
  - pose proof (IH inv recs r (0%nat :: path) e f m Hs Hr) as G. destruct (meval O n inv recs r (0%nat :: path) e f m) as [v f' m'|m'|m'|]; try (now apply T0).
    cbn [rgrown] in G. destruct (run_action _ _ _ _ _); cbn [rgrown]; try (apply (T 0); [lia|exact G]).
    apply (T 1); [lia|]. revert G. unfold grown, nerr. cbn [with_ms ms add_err errs cnt length]. lia.
  - apply T0, mseq_grown. intros j c f2 m2 K. apply IH; auto. rewrite forallb_forall in Hs. now apply Hs.
  - apply T0, mchoice_grown. intros j c f2 m2 K. apply IH; auto. rewrite forallb_forall in Hs. now apply Hs.
  - apply T0. pose proof (IH inv recs r (0%nat :: path) e [] m Hs Hr) as G. destruct (meval O n inv recs r (0%nat :: path) e [] m); exact G.
  - apply T0. destruct (get_memo m (KRule r')); [apply rgrown_found|]. apply rgrown_keep, rgrown_pop, IH; auto. apply short_rules.
  - pose proof (errs_lit ic w (ms m)) as (H1 & H2 & H3). apply Nat.leb_le in Hs. destruct (lit_loop ic w (ms m)) as [[s'|] s'']; cbn [fst snd] in *.
    + subst s'. cbn [rgrown]. apply (T 6); [lia|]. unfold grown. destruct (nerr_fail m inv true (at_ (pt (ms m))) want s'') as (-> & ->). unfold nerr. lia.
    + cbn [rgrown]. apply (T 6); [lia|].
      assert (G : grown 6 m (with_ms m (fail_at inv false (at_ (pt (ms m))) want s''))) by (unfold grown; destruct (nerr_fail m inv false (at_ (pt (ms m))) want s'') as (-> & ->); unfold nerr; lia).
      apply (grown_restore _ _ _ (pt (ms m)) G).
  - destruct (errs_read (ms m)) as (R1 & R2). destruct (at_eof _); [|destruct (xorb _ _)]; cbn [rgrown]; apply (T 1); try lia; unfold grown;
      match goal with |- context [with_ms m (fail_at ?a ?c ?d ?g ?s)] => destruct (nerr_fail m a c d g s) as (-> & ->) end; unfold nerr; lia.
  - destruct (errs_read (ms m)) as (R1 & R2). destruct (at_eof _); cbn [rgrown]; apply (T 1); try lia; unfold grown;
      match goal with |- context [with_ms m (fail_at ?a ?c ?d ?g ?s)] => destruct (nerr_fail m a c d g s) as (-> & ->) end; unfold nerr; lia.
  - apply T0. pose proof (IH (negb inv) recs r (0%nat :: path) e [] m Hs Hr) as G. destruct (meval O n (negb inv) recs r (0%nat :: path) e [] m); cbn [rgrown] in *; auto; now apply grown_restore.
  - apply T0, mstar_grown. intros; now apply IH.
  - apply T0. pose proof (mstar_grown (meval O n inv recs r (0%nat :: path)) e (fun f m => IH inv recs r (0%nat :: path) e f m Hs Hr) (S (length (rest (pt (ms m))))) [] f m) as G.
    destruct (mstar _ _ _ _ _ _) as [v f' m'|m'|m'|]; auto. destruct v as [| |[|]| | | | | | |]; exact G.
  - apply T0. pose proof (IH inv recs r (0%nat :: path) e [] m Hs Hr) as G. destruct (meval O n inv recs r (0%nat :: path) e [] m); exact G.
  - apply andb_true_iff in Hs as [Hs Hc]. apply T0, IH; auto. constructor; auto.
  - apply T0, mthrow_grown; auto.
  - cbn [rgrown]. apply (T 1); [lia|]. unfold grown, nerr. cbn [with_ms ms add_err errs cnt length]. lia.
Qed.

Theorem C130_errors O q : N.of_nat (length (recorded (mparse O q))) <= 1874 * (1 + N.of_nat (length q)).
Proof.
  destruct (C130_linear O q) as (F & L). unfold mparse, mrun in *.
  set (m0 := {| ms := init_state q; memo := [] |}) in *.
  pose proof (meval_grown O (fuel_for q) false [] RStart [] (rules RStart) [] m0 (short_rules RStart) (Forall_nil _)) as G.
  assert (I0 : nerr m0 <= 1 /\ cnt (ms m0) = 0).
  { unfold m0, nerr, init_state, read_at. cbn [ms]. cbn zeta. destruct (_ && _); cbn [set_pt add_err errs cnt length]; split; lia. }
  assert (Fi : forall v s, N.of_nat (length (recorded (finish v s))) = N.of_nat (length (errs s))).
  { intros v s. unfold finish. rewrite <- (rev_length (errs s)). destruct (rev (errs s)); reflexivity. }
  destruct (meval _ _ _ _ _ _ _ _ _) as [v f m|m|m|]; cbn [plain parse_result rgrown rcnt] in *; unfold grown, nerr in *; [| | |congruence].
  - rewrite Fi. lia.
  - destruct (errs (ms m)) eqn:E; rewrite Fi; cbn [add_err errs length]; rewrite ?E; cbn [length] in *; lia.
  - rewrite Fi. cbn [add_err errs length]. lia.
Qed.
Print Assumptions C130_errors.
Example C130_errors_example : length (recorded (mparse test_oracle (opened 3))) = 1%nat /\ length (recorded (parse test_oracle (opened 3))) = 64%nat.
Proof. split; vm_compute; reflexivity. Qed.
