(** Positions recorded by the parser (for C07), and totality (C01). *)
From Verif Require Import Bytes Utf8 Utf8Proofs Oracles Ast PegSyntax Grammar Actions Engine EngineBasics.
From Coq Require Import ZifyBool ZifyN ZifyNat.

(** Number of line feeds. *)
Definition newlines (s : bytes) : Z := Z.of_nat (count_occ N.eq_dec s 10).

(** 1 if the text starts with a line feed. *)
Definition nl_at (s : bytes) : Z := match s with c :: _ => if c =? 10 then 1 else 0 | [] => 0 end.

(** [p] is the position of offset [length pre] in [pre ++ suf]. *)
Definition here (pre suf : bytes) (p : position) : Prop :=
  off p = Z.of_nat (length pre) /\
  (1 + newlines pre <= line p)%Z /\
  (line p <= 1 + newlines pre + nl_at suf)%Z.

Lemma newlines_app x y : newlines (x ++ y) = (newlines x + newlines y)%Z.
Proof. unfold newlines. rewrite count_occ_app. lia. Qed.

Lemma newlines_high s : Forall (fun c => 128 <= c) s -> newlines s = 0%Z.
Proof.
  unfold newlines. induction 1 as [|c s Hc _ IH]; [reflexivity|].
  rewrite count_occ_cons_neq by lia. exact IH.
Qed.

Lemma decode_rune_nl s : s <> [] ->
  newlines (firstn (snd (decode_rune s)) s) = (if N.eqb (fst (decode_rune s)) 10 then 1 else 0)%Z /\
  (if N.eqb (fst (decode_rune s)) 10 then 1 else 0)%Z = nl_at s.
Proof.
  intros Hs. destruct s as [|c s]; [congruence|]. clear Hs.
  destruct (N.eq_dec c 10) as [->|Hc]; [split; reflexivity|].
  unfold nl_at. replace (c =? 10) with false by lia.
  destruct (decode_rune (c :: s)) as [r w] eqn:D.
  pose proof (decode_rune_width _ _ _ D) as [(? & _)|W]; [congruence|].
  cbn [fst snd].
  destruct (N.eq_dec r rune_error) as [->|Hr].
  - (* width 1, or a real U+FFFD of width 3 *)
    destruct (Nat.eq_dec w 1) as [->|Hw].
    + cbn [firstn]. split; [|reflexivity]. unfold newlines. cbn. destruct (N.eq_dec c 10); [congruence|reflexivity].
    + pose proof (decode_rune_ok _ _ _ D) as [S [S1 S2]]; [congruence|congruence|].
      cbn in S2. subst w. cbn in S1. injection S1 as -> S1. rewrite S1. split; reflexivity.
  - pose proof (decode_rune_ok _ _ _ D) as [S [S1 S2]]; [congruence|congruence|].
    rewrite S1. rewrite S2, firstn_app, firstn_all, Nat.sub_diag. cbn [firstn]. rewrite app_nil_r.
    apply scalar_spec in S. rewrite encode_rune_scalar in * by (now apply scalar_spec).
    unfold encode_raw in *.
    destruct (r <? 128) eqn:R1.
    + cbn in S1. injection S1 as -> _. replace (r =? 10) with false by lia.
      unfold newlines. cbn. destruct (N.eq_dec r 10); [congruence|split; reflexivity].
    + replace (r =? 10) with false by lia. split; [|reflexivity].
      apply newlines_high. destruct (r <? 2048); [|destruct (r <? 65536)]; repeat constructor; lia.
Qed.

(** Every point reached has the position of its offset. *)
Definition exact_here (pre suf : bytes) (p : position) : Prop :=
  off p = Z.of_nat (length pre) /\
  (line p = 1 + newlines pre + nl_at suf)%Z.

Lemma exact_is_here pre suf p : exact_here pre suf p -> here pre suf p.
Proof. unfold exact_here, here. intros [-> ->]. split; [auto|]. unfold nl_at. destruct suf as [|c ?]; [lia|]. destruct (c =? 10); lia. Qed.

Lemma rune_nl s : (if N.eqb (fst (decode_rune s)) 10 then 1 else 0)%Z = nl_at s.
Proof.
  destruct s as [|c s]; [reflexivity|]. apply (decode_rune_nl (c :: s)). discriminate.
Qed.

Lemma next_exact pre p : rest p <> [] -> exact_here pre (rest p) (at_ p) ->
  exists t, rest p = t ++ rest (next_point p) /\ exact_here (pre ++ t) (rest (next_point p)) (at_ (next_point p)).
Proof.
  intros Hr [Ho Hl]. exists (firstn (cur_width p) (rest p)).
  pose proof (cur_width_bounds p Hr) as Hw.
  split; [now rewrite next_point_rest, firstn_skipn|].
  split; [rewrite next_point_off, app_length, firstn_length_le by lia; lia|].
  rewrite newlines_app. unfold cur_width in *. destruct (decode_rune_nl (rest p) Hr) as [N1 N2].
  rewrite N1, rune_nl. unfold next_point, cur_width.
  pose proof (rune_nl (skipn (snd (decode_rune (rest p))) (rest p))) as R.
  destruct (fst (decode_rune (skipn _ _)) =? 10); cbn [line at_ rest]; lia.
Qed.

Lemma adv_exact p p' : adv p p' -> forall pre, exact_here pre (rest p) (at_ p) ->
  exists t, rest p = t ++ rest p' /\ exact_here (pre ++ t) (rest p') (at_ p').
Proof.
  induction 1 as [p|p p' Hr Ha IH]; intros pre He.
  - exists []. rewrite app_nil_r. auto.
  - destruct (next_exact pre p Hr He) as (t & Ht & Et). destruct (IH _ Et) as (t' & Ht' & Et').
    exists (t ++ t'). rewrite app_assoc. split; auto. rewrite <- app_assoc, <- Ht'. exact Ht.
Qed.

Lemma init_exact q : exact_here [] q (at_ (first_point q)).
Proof.
  unfold first_point. rewrite pt_init. pose proof (rune_nl q) as R.
  destruct (fst (decode_rune q) =? 10); cbn [at_ line off]; split; cbn [off line length]; try reflexivity; change (newlines []) with 0%Z; lia.
Qed.

Definition pos_ok (q : bytes) (p : position) : Prop :=
  exists pre suf, q = pre ++ suf /\ here pre suf p.

Lemma adv_pos_ok q p : adv (first_point q) p -> pos_ok q (at_ p).
Proof.
  intros H. destruct (adv_exact _ _ H [] ) as (t & Ht & Et).
  - replace (rest (first_point q)) with q; [apply init_exact|]. unfold first_point. now rewrite pt_init.
  - exists t, (rest p). split; [|now apply exact_is_here].
    rewrite <- Ht. unfold first_point. now rewrite pt_init.
Qed.

Definition inv (q : bytes) (s : state) : Prop :=
  Forall (fun e => pos_ok q (pe_pos e)) (errs s) /\ pos_ok q (mf_pos s) /\ adv (first_point q) (pt s).

Lemma step_inv q s s' : step (first_point q) s s' -> inv q s -> inv q s'.
Proof.
  intros H (I1 & I2 & I3). destruct H.
  - repeat split; auto.
  - split; [|split].
    + unfold read, read_at. destruct (_ && _); cbn; auto. constructor; auto. cbn. apply adv_pos_ok.
      eapply adv_trans; eauto. now apply adv_next.
    + unfold read, read_at. destruct (_ && _); cbn; auto.
    + rewrite pt_read. eapply adv_trans; eauto. now apply adv_next.
  - repeat split; auto.
  - split; [|split].
    + now rewrite errs_fail.
    + unfold fail_at. destruct (negb _); auto. destruct (_ <? _)%Z; auto. destruct (_ <? _)%Z; cbn; auto.
      now apply adv_pos_ok.
    + now rewrite pt_fail.
  - repeat split; auto. cbn. constructor; auto. cbn. now apply adv_pos_ok.
Qed.

Lemma steps_inv q s s' : steps (first_point q) s s' -> inv q s -> inv q s'.
Proof. induction 1; auto. intros. eapply step_inv; eauto. Qed.

Lemma here_start q : here [] q {| line := 1; col := 1; off := 0 |}.
Proof.
  split; [reflexivity|]. change (newlines []) with 0%Z. cbn [line].
  unfold nl_at. destruct q as [|c ?]; [lia|]. destruct (c =? 10); lia.
Qed.

Lemma init_inv q : inv q (init_state q).
Proof.
  assert (P : pos_ok q {| line := 1; col := 1; off := 0 |}) by (exists [], q; split; [reflexivity|apply here_start]).
  split; [|split].
  - unfold init_state, read_at. destruct (_ =? 10) eqn:E; cbn.
    + unfold cur_rune. cbn [rest]. apply N.eqb_eq in E. rewrite E. cbn. constructor.
    + destruct (_ && _); cbn; constructor; auto.
  - unfold init_state, read_at. destruct (_ =? 10); destruct (_ && _); exact P.
  - apply adv_refl.
Qed.

Lemma parse_err_positions O q e es : parse O q = PErr e es -> Forall (fun x => pos_ok q (pe_pos x)) (e :: es).
Proof.
  unfold parse. pose proof (run_good O q) as G. destruct (run O q) as [v f s|s|s|]; cbn [parse_result].
  - destruct G as (_ & G & _). apply steps_inv in G; [|apply init_inv]. destruct G as (G & _).
    unfold finish. destruct (rev (errs s)) eqn:E; [discriminate|]. intros [= <- <-]. rewrite <- E. now apply Forall_rev.
  - destruct G as (_ & G). apply steps_inv in G; [|apply init_inv]. destruct G as (G & G2 & _).
    destruct (errs s) eqn:Es.
    + unfold finish, add_err. cbn. rewrite Es. cbn. intros [= <- <-]. constructor; auto.
    + unfold finish. rewrite Es. destruct (rev _) eqn:E; [discriminate|]. intros [= <- <-]. rewrite <- E. now apply Forall_rev.
  - destruct G as (_ & G). apply steps_inv in G; [|apply init_inv]. destruct G as (G & G2 & G3).
    unfold finish, add_err. cbn. destruct (rev (errs s) ++ _) eqn:E; [discriminate|]. intros [= <- <-].
    rewrite <- E. apply Forall_app. split; [now apply Forall_rev|]. constructor; [|constructor]. cbn. now apply adv_pos_ok.
  - discriminate.
Qed.

Lemma parse_no_fuel O q : parse O q <> PFuel.
Proof.
  unfold parse. pose proof (run_no_fuel O q) as H. destruct (run O q) as [v f s|s|s|]; cbn [parse_result]; unfold finish; try congruence.
  - destruct (rev _); discriminate.
  - destruct (errs s); destruct (rev _); discriminate.
  - destruct (rev _); discriminate.
Qed.

(** ** Errors lie inside the input *)
Definition err_inside (q : bytes) (e : perr) : Prop :=
  (0 <= err_len (pe_kind e) /\ off (pe_pos e) + err_len (pe_kind e) <= Z.of_nat (length q))%Z \/ pe_kind e = KUntermStr \/ pe_kind e = KUntermRegex.
Definition inv_len (q : bytes) (s : state) : Prop := Forall (err_inside q) (errs s) /\ adv (first_point q) (pt s).

Lemma first_rest q : rest (first_point q) = q /\ off (at_ (first_point q)) = 0%Z.
Proof. unfold first_point. rewrite pt_init. destruct (_ =? 10); split; reflexivity. Qed.
Lemma adv_first q p : adv (first_point q) p -> (off (at_ p) + Z.of_nat (length (rest p)) = Z.of_nat (length q))%Z.
Proof.
  intros H. apply adv_spec in H as (t & Ht & Ho). destruct (first_rest q) as (E1 & E2). rewrite E1 in Ht. rewrite E2 in Ho. rewrite Ht, app_length. lia.
Qed.
Lemma bad_rune_nonempty p : (cur_rune p =? rune_error) && Nat.eqb (cur_width p) 1 = true -> rest p <> [].
Proof. intros H E. unfold cur_width in H. rewrite E in H. cbn in H. rewrite andb_false_r in H. discriminate. Qed.

Lemma step_inv_len q s s' : step (first_point q) s s' -> inv_len q s -> inv_len q s'.
Proof.
  intros H (I1 & I3). destruct H as [s|s Hr|s p Hp Hs|s i fl p w Hp Hs|s k p Hk Hf Hp Hs].
  - split; auto.
  - assert (A : adv (first_point q) (next_point (pt s))) by (eapply adv_trans; eauto; now apply adv_next). split; [|now rewrite pt_read].
    unfold read, read_at. destruct (_ && _) eqn:B; cbn; auto. constructor; auto. left. cbn. apply bad_rune_nonempty in B. pose proof (adv_first _ _ A).
    destruct (rest (next_point (pt s))); [congruence|cbn in *; lia].
  - split; auto.
  - split; [now rewrite errs_fail|now rewrite pt_fail].
  - split; [|exact I3]. cbn. constructor; auto. unfold err_inside. cbn [pe_kind pe_pos]. destruct Hf as [Hf|Hf]; [left|right; exact Hf].
    pose proof (adv_first _ _ Hp). pose proof (adv_first _ _ I3). pose proof (adv_len _ _ Hs). lia.
Qed.
Lemma steps_inv_len q s s' : steps (first_point q) s s' -> inv_len q s -> inv_len q s'.
Proof. induction 1; auto. intros. eapply step_inv_len; eauto. Qed.
Lemma init_inv_len q : inv_len q (init_state q).
Proof.
  split; [|apply adv_refl]. unfold init_state. destruct (_ =? 10) eqn:E; unfold read_at.
  - unfold cur_rune. cbn [rest]. apply N.eqb_eq in E. rewrite E. cbn. constructor.
  - destruct (_ && _) eqn:B; cbn; constructor; auto. left. cbn. apply bad_rune_nonempty in B. cbn in B. destruct q; [congruence|cbn; lia].
Qed.
Lemma parse_err_inside O q e es : parse O q = PErr e es -> err_inside q e \/ (exists l, pe_kind e = KNoMatch l) \/ pe_kind e = KPanic.
Proof.
  unfold parse. pose proof (run_good O q) as G. destruct (run O q) as [v f s|s|s|]; cbn [parse_result].
  - destruct G as (_ & G & _). apply steps_inv_len in G; [|apply init_inv_len]. destruct G as (G & _).
    unfold finish. destruct (rev (errs s)) eqn:E; [discriminate|]. intros [= <- <-]. left. apply Forall_rev in G. rewrite E in G. now inversion G.
  - destruct G as (_ & G). apply steps_inv_len in G; [|apply init_inv_len]. destruct G as (G & _).
    destruct (errs s) eqn:Es.
    + unfold finish, add_err. cbn. rewrite Es. cbn. intros [= <- <-]. right. left. cbn. eauto.
    + unfold finish. rewrite Es. destruct (rev _) eqn:E; [discriminate|]. intros [= <- <-]. left. apply Forall_rev in G. rewrite E in G. now inversion G.
  - destruct G as (_ & G). apply steps_inv_len in G; [|apply init_inv_len]. destruct G as (G & _).
    unfold finish, add_err. cbn. apply Forall_rev in G. destruct (rev (errs s)) eqn:E; cbn; intros [= <- <-]; [right; now right|left; now inversion G].
  - discriminate.
Qed.
