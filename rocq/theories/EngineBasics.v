(** Generic facts about the PEG interpreter: progress, backtracking, termination. *)
From Verif Require Import Bytes Utf8 Utf8Proofs Oracles Ast PegSyntax Grammar Actions Engine.

(** ** Moving forward in the input *)
Inductive adv : point -> point -> Prop :=
| adv_refl p : adv p p
| adv_step p p' : rest p <> [] -> adv (next_point p) p' -> adv p p'.

Lemma adv_trans p q r : adv p q -> adv q r -> adv p r.
Proof. induction 1; intros; auto. eapply adv_step; eauto. Qed.

Lemma adv_next p : rest p <> [] -> adv p (next_point p).
Proof. intros. eapply adv_step; eauto. apply adv_refl. Qed.

Lemma next_point_rest p : rest (next_point p) = skipn (cur_width p) (rest p).
Proof. unfold next_point. destruct (_ =? 10); reflexivity. Qed.
Lemma next_point_off p : off (at_ (next_point p)) = (off (at_ p) + Z.of_nat (cur_width p))%Z.
Proof. unfold next_point. destruct (_ =? 10); reflexivity. Qed.

Lemma cur_width_bounds p : rest p <> [] -> (1 <= cur_width p <= length (rest p))%nat.
Proof.
  intros H. unfold cur_width. destruct (decode_rune (rest p)) as [r w] eqn:E.
  apply decode_rune_width in E. cbn. destruct E as [(? & _)|?]; [congruence|auto].
Qed.

Lemma adv_spec p p' : adv p p' ->
  exists t, rest p = t ++ rest p' /\ off (at_ p') = (off (at_ p) + Z.of_nat (length t))%Z.
Proof.
  induction 1 as [p|p p' H _ (t & Ht & Ho)].
  - exists []. cbn. split; [auto|lia].
  - rewrite next_point_rest in Ht. rewrite next_point_off in Ho.
    pose proof (cur_width_bounds p H) as Hw.
    exists (firstn (cur_width p) (rest p) ++ t). split.
    + rewrite <- app_assoc, <- Ht. now rewrite firstn_skipn.
    + rewrite Ho, app_length, firstn_length_le by lia. lia.
Qed.

Lemma adv_strict p p' : adv p p' -> p = p' \/ (length (rest p') < length (rest p))%nat.
Proof.
  destruct 1 as [p|p p' H Ha]; [auto|right].
  apply adv_spec in Ha as (t & Ht & _). pose proof (cur_width_bounds p H).
  assert (L : length (rest (next_point p)) = (length (rest p) - cur_width p)%nat)
    by (rewrite next_point_rest, skipn_length; reflexivity).
  rewrite Ht, app_length in L. lia.
Qed.

Lemma adv_len p p' : adv p p' -> (length (rest p') <= length (rest p))%nat.
Proof. intros H. destruct (adv_strict _ _ H) as [->|]; lia. Qed.

Lemma adv_off p p' : adv p p' -> off (at_ p) = off (at_ p') -> p = p'.
Proof.
  intros H E. destruct (adv_strict _ _ H) as [|L]; auto.
  apply adv_spec in H as (t & Ht & Ho). rewrite Ht, app_length in L. lia.
Qed.

Lemma slice_adv p p' : adv p p' -> rest p = slice p p' ++ rest p'.
Proof.
  intros H. apply adv_spec in H as (t & Ht & _). unfold slice. rewrite Ht, app_length.
  replace (length t + length (rest p') - length (rest p'))%nat with (length t + 0)%nat by lia.
  rewrite firstn_app_2. cbn. now rewrite app_nil_r.
Qed.

(** ** Elementary changes of the parser state *)
Lemma run_action_kind O a f p t v k : run_action O a f p t = AErr v k -> k <> KPanic.
Proof.
  destruct a; cbn; unfold bind_node; repeat match goal with |- context [match ?x with _ => _ end] => destruct x end; congruence.
Qed.

(** Actions that can return an error. *)
Definition may_err (a : act) : bool :=
  match a with
  | AField1 | AValueList2 | AValue8 | AQuotedValue2 | ARegexValue2 | ABoolValue1 | AFloatValue1 | AIntValue1 | AIPValue1 | ATimestamp1 => true
  | _ => false
  end.
(** An error of an action is about the text matched. *)
Definition fits (k : err_kind) (p now : point) : Prop :=
  (0 <= err_len k <= Z.of_nat (length (rest p)) - Z.of_nat (length (rest now)))%Z \/ k = KUntermStr \/ k = KUntermRegex.
Lemma decode_fuel_len n s : (length (decode_fuel n s) <= n)%nat.
Proof. revert s. induction n as [|n IH]; intros s; cbn [decode_fuel]; [destruct s; cbn; lia|]. destruct s as [|c s]; [cbn; lia|]. destruct (decode_rune (c :: s)). cbn [length]. specialize (IH (skipn n1 (c :: s))). lia. Qed.
Lemma run_action_len O a f p t v k : run_action O a f p t = AErr v k -> may_err a = true /\ (0 <= err_len k <= Z.max 1 (Z.of_nat (length t)))%Z.
Proof.
  pose proof (decode_fuel_len (length t) t : (rune_count t <= length t)%nat) as R. destruct a; cbn; unfold bind_node; repeat match goal with |- context [match ?x with _ => _ end] => destruct x end; try congruence;
    intros [= <- <-]; (split; [reflexivity|]); cbn [err_len p_len getpos]; lia.
Qed.

Inductive step (p0 : point) : state -> state -> Prop :=
| st_tick s : step p0 s (tick s)
| st_read s : rest (pt s) <> [] -> step p0 s (read s)
| st_back s p : adv p0 p -> adv p (pt s) -> step p0 s (set_pt s p)
| st_fail s inv fl p w : adv p0 p -> adv p (pt s) -> step p0 s (fail_at inv fl (at_ p) w s)
| st_err s k p : k <> KPanic -> fits k p (pt s) -> adv p0 p -> adv p (pt s) -> step p0 s (add_err s k (at_ p)).

Inductive steps (p0 : point) : state -> state -> Prop :=
| sts_refl s : steps p0 s s
| sts_snoc s s' s'' : steps p0 s s' -> step p0 s' s'' -> steps p0 s s''.

Lemma steps_trans p0 a c d : steps p0 a c -> steps p0 c d -> steps p0 a d.
Proof. intros H1 H2. induction H2 as [|x y z H2 IH H]; [exact H1|]. eapply sts_snoc; [apply IH; exact H1|exact H]. Qed.
Lemma steps_one p0 a c : step p0 a c -> steps p0 a c.
Proof. intros. eapply sts_snoc; [apply sts_refl|auto]. Qed.

Lemma pt_tick s : pt (tick s) = pt s. Proof. reflexivity. Qed.
Lemma pt_fail inv fl p w s : pt (fail_at inv fl p w s) = pt s.
Proof. unfold fail_at. destruct (negb _); auto. destruct (_ <? _)%Z; auto. destruct (_ <? _)%Z; auto. Qed.
Lemma errs_fail inv fl p w s : errs (fail_at inv fl p w s) = errs s.
Proof. unfold fail_at. destruct (negb _); auto. destruct (_ <? _)%Z; auto. destruct (_ <? _)%Z; auto. Qed.
Lemma cnt_fail inv fl p w s : cnt (fail_at inv fl p w s) = cnt s.
Proof. unfold fail_at. destruct (negb _); auto. destruct (_ <? _)%Z; auto. destruct (_ <? _)%Z; auto. Qed.
Lemma pt_read s : pt (read s) = next_point (pt s).
Proof. unfold read, read_at. destruct (_ && _); reflexivity. Qed.
Lemma cnt_read s : cnt (read s) = cnt s.
Proof. unfold read, read_at. destruct (_ && _); reflexivity. Qed.

(** restore always goes back to the saved point *)
Lemma restore_back s p : adv p (pt s) -> restore s p = set_pt s p.
Proof.
  intros H. unfold restore. destruct (Z.eqb_spec (off (at_ p)) (off (at_ (pt s)))) as [E|]; auto.
  apply (adv_off _ _ H) in E. destruct s; cbn in *. subst p. reflexivity.
Qed.

Lemma eof_rest p : at_eof p = true <-> rest p = [].
Proof.
  unfold at_eof, cur_rune, cur_width. destruct (decode_rune (rest p)) as [r w] eqn:E. cbn.
  apply decode_rune_width in E. destruct E as [(E1 & -> & ->)|E].
  - rewrite E1. cbn. tauto.
  - split.
    + intros H. apply andb_true_iff in H as [_ H]. apply Nat.eqb_eq in H. lia.
    + intros H. rewrite H in E. cbn in E. lia.
Qed.
Lemma noeof_rest p : at_eof p = false -> rest p <> [].
Proof. intros H E. apply eof_rest in E. congruence. Qed.

(** ** Static analysis of the grammar *)
Definition null_rule (r : rname) : bool :=
  match r with
  | REndingQuote | REndingSlash | R_ws | REOF | RErrUntermStr | RErrUntermRegex => true
  | _ => false
  end.

Fixpoint nullable (e : expr) : bool :=
  match e with
  | EAction _ e | ELabel _ e | EPlus e | ERecover e _ _ => nullable e
  | ESeq l => forallb nullable l
  | EChoice l => existsb nullable l
  | ERule r => null_rule r
  | ELit s _ _ => match s with [] => true | _ => false end
  | EClass _ _ _ _ _ | EAny => false
  | ENot _ | EStar _ | EOpt _ | EThrow _ | EState _ => true
  end.

(** Bound on the recursion depth without consuming input. *)
Definition seq_depth (d : expr -> nat) : list expr -> nat :=
  fix go l := match l with [] => 0%nat | e :: l' => Nat.max (d e) (if nullable e then go l' else 0%nat) end.
Definition max_depth (d : expr -> nat) : list expr -> nat :=
  fix go l := match l with [] => 0%nat | e :: l' => Nat.max (d e) (go l') end.

Definition throw_depth : nat := 5.

Fixpoint depth_with (rank : rname -> nat) (e : expr) : nat :=
  match e with
  | EAction _ e | ELabel _ e | EPlus e | EStar e | EOpt e | ENot e | ERecover e _ _ => S (depth_with rank e)
  | ESeq l => S (seq_depth (depth_with rank) l)
  | EChoice l => S (max_depth (depth_with rank) l)
  | ERule r => S (rank r)
  | EThrow _ => S throw_depth
  | ELit _ _ _ | EClass _ _ _ _ _ | EAny | EState _ => 1%nat
  end.

Fixpoint rank_n (k : nat) (r : rname) : nat :=
  match k with 0%nat => 0%nat | S k' => depth_with (rank_n k') (rules r) end.
Definition rank : rname -> nat := rank_n 40.
Definition depth : expr -> nat := depth_with rank.

Definition slack : nat := 100.

Definition act_ok (e : expr) : bool :=
  match e with EAction a e => negb (may_err a && nullable e) | _ => true end.

Fixpoint wf (e : expr) : bool :=
  (Nat.leb (depth e) slack && act_ok e) &&
  match e with
  | EAction _ e | ELabel _ e | EOpt e | ENot e => wf e
  | EPlus e | EStar e => wf e && negb (nullable e)
  | ERecover e r _ => wf e && wf r && Nat.leb (depth r) throw_depth
  | ESeq l | EChoice l => forallb wf l
  | ELit s _ _ => forallb (fun c => negb (c =? rune_error)) s
  | ERule _ | EThrow _ | EClass _ _ _ _ _ | EAny | EState _ => true
  end.

Lemma wf_rules r : wf (rules r) = true.
Proof. destruct r; vm_compute; reflexivity. Qed.
Lemma null_rules r : nullable (rules r) = true -> null_rule r = true.
Proof. destruct r; vm_compute; congruence. Qed.
Lemma rank_rules r : (depth (rules r) <= rank r)%nat.
Proof. destruct r; apply Nat.leb_le; vm_compute; reflexivity. Qed.

Definition recs_ok (recs : list (list string * expr)) : Prop :=
  Forall (fun p => wf (snd p) = true /\ (depth (snd p) <= throw_depth)%nat) recs.

(** ** Progress *)
Section WithOracles.
Context (O : oracles) (p0 : point).

Definition good (nl : bool) (s : state) (r : res) : Prop :=
  match r with
  | RVal _ _ s' => adv (pt s) (pt s') /\ steps p0 s s' /\ (nl = false -> pt s' <> pt s)
  | RFail s' => pt s' = pt s /\ steps p0 s s'
  | RPanic s' => adv (pt s) (pt s') /\ steps p0 s s'
  | RFuel => True
  end.

Lemma good_tick nl s r : good nl (tick s) r -> good nl s r.
Proof.
  assert (H1 : forall s', steps p0 (tick s) s' -> steps p0 s s')
    by (intros; eapply steps_trans; [apply steps_one, st_tick|auto]).
  destruct r; cbn; intuition.
Qed.

Lemma adv_pt_ne p q r : adv p q -> adv q r -> q <> p \/ r <> q -> r <> p.
Proof.
  intros H1 H2 Hn E. subst r. apply adv_strict in H1, H2.
  destruct H1 as [H1|H1], H2 as [H2|H2]; try lia; subst; try lia; destruct Hn; congruence.
Qed.

Lemma lit_loop_good ic want : forallb (fun c => negb (c =? rune_error)) want = true ->
  forall s, 
  match lit_loop ic want s with
  | (Some s', _) => adv (pt s) (pt s') /\ steps p0 s s' /\ (want <> [] -> pt s' <> pt s)
  | (None, s') => adv (pt s) (pt s') /\ steps p0 s s'
  end.
Proof.
  induction want as [|w want IH]; intros Hw s; cbn [lit_loop].
  - split; [apply adv_refl|split; [apply sts_refl|congruence]].
  - cbn in Hw. apply andb_true_iff in Hw as [Hc Hw].
    destruct (_ =? w) eqn:E; [|split; [apply adv_refl|apply sts_refl]].
    assert (Hr : rest (pt s) <> []).
    { intros Er. apply N.eqb_eq in E. unfold cur_rune in E. rewrite Er in E. cbn in E.
      assert (Ew : w = rune_error) by (destruct ic; exact (eq_sym E)).
      apply negb_true_iff, N.eqb_neq in Hc. auto. }
    specialize (IH Hw (read s)). rewrite pt_read in IH.
    pose proof (adv_next _ Hr) as Ha.
    assert (Hs : steps p0 s (read s)) by (apply steps_one, st_read; auto).
    assert (Hne : next_point (pt s) <> pt s).
    { intros En. pose proof (cur_width_bounds _ Hr).
      assert (L : length (rest (next_point (pt s))) = (length (rest (pt s)) - cur_width (pt s))%nat)
        by (rewrite next_point_rest, skipn_length; reflexivity).
      rewrite En in L. lia. }
    destruct (lit_loop ic want (read s)) as [[s'|] s''].
    + destruct IH as (I1 & I2 & I3). split; [eapply adv_trans; eauto|split].
      * eapply steps_trans; eauto.
      * intros _. eapply adv_pt_ne; eauto.
    + destruct IH as (I1 & I2). split; [eapply adv_trans; eauto|eapply steps_trans; eauto].
Qed.

Section Loops.
Variable ev : expr -> frame -> state -> res.
Hypothesis Hev : forall e f s, wf e = true -> adv p0 (pt s) -> good (nullable e) s (ev e f s).

Lemma good_weaken s s' nl nl' r :
  adv (pt s) (pt s') -> steps p0 s s' -> good nl s' r ->
  (nl' = false -> nl = false \/ pt s' <> pt s) ->
  match r with RFail _ => False | _ => True end ->
  good nl' s r.
Proof.
  destruct r; cbn; try tauto.
  - intros A S (H1 & H2 & H3) Hn _. split; [eapply adv_trans; eauto|split; [eapply steps_trans; eauto|]].
    intros E. eapply adv_pt_ne; eauto. destruct (Hn E); auto.
  - intros A S (H1 & H2) _ _. split; [eapply adv_trans; eauto|eapply steps_trans; eauto].
Qed.

Lemma seq_loop_good start es : forall acc f s,
  forallb wf es = true -> adv p0 start -> adv start (pt s) ->
  match seq_loop ev start es acc f s with
  | RVal _ _ s' => adv (pt s) (pt s') /\ steps p0 s s' /\ (forallb nullable es = false -> pt s' <> pt s)
  | RFail s' => pt s' = start /\ steps p0 s s'
  | RPanic s' => adv (pt s) (pt s') /\ steps p0 s s'
  | RFuel => True
  end.
Proof.
  induction es as [|e es IH]; intros acc f s Hw H0 Ha; cbn [seq_loop].
  - split; [apply adv_refl|split; [apply sts_refl|cbn; discriminate]].
  - cbn in Hw. apply andb_true_iff in Hw as [He Hes].
    assert (H0s : adv p0 (pt s)) by (eapply adv_trans; eauto).
    pose proof (Hev e f s He H0s) as G. destruct (ev e f s) as [v f' s'|s'|s'|]; cbn in G.
    + destruct G as (G1 & G2 & G3).
      specialize (IH (v :: acc) f' s' Hes H0 (adv_trans _ _ _ Ha G1)).
      destruct (seq_loop ev start es (v :: acc) f' s') as [v2 f2 s2|s2|s2|]; auto.
      * destruct IH as (I1 & I2 & I3). split; [eapply adv_trans; eauto|split; [eapply steps_trans; eauto|]].
        cbn. intros En. eapply adv_pt_ne; eauto. apply andb_false_iff in En as [En|En]; auto.
      * destruct IH as (I1 & I2). split; auto. eapply steps_trans; eauto.
      * destruct IH as (I1 & I2). split; [eapply adv_trans; eauto|eapply steps_trans; eauto].
    + destruct G as (G1 & G2). rewrite restore_back by (rewrite G1; auto). split; [reflexivity|].
      eapply sts_snoc; eauto. apply st_back; auto. rewrite G1; auto.
    + destruct G; auto.
    + auto.
Qed.

Lemma choice_loop_good es : forall f s, forallb wf es = true -> adv p0 (pt s) ->
  good (existsb nullable es) s (choice_loop ev es f s).
Proof.
  induction es as [|e es IH]; intros f s Hw H0; cbn [choice_loop].
  - cbn. split; [auto|apply sts_refl].
  - cbn in Hw. apply andb_true_iff in Hw as [He Hes].
    pose proof (Hev e [] s He H0) as G. destruct (ev e [] s) as [v f' s'|s'|s'|]; cbn in G |- *.
    + destruct G as (G1 & G2 & G3). repeat split; auto. intros En. apply orb_false_iff in En as [En _]. auto.
    + destruct G as (G1 & G2). specialize (IH f s' Hes). rewrite G1 in IH. specialize (IH H0).
      destruct (choice_loop ev es f s') as [v2 f2 s2|s2|s2|]; cbn in *; rewrite ?G1 in IH.
      * destruct IH as (I1 & I2 & I3). split; [auto|split; [eapply steps_trans; eauto|]].
        intros En. apply orb_false_iff in En as [_ En]. auto.
      * destruct IH as (I1 & I2). split; auto. eapply steps_trans; eauto.
      * destruct IH as (I1 & I2). split; auto. eapply steps_trans; eauto.
      * auto.
    + auto.
    + auto.
Qed.

(** The result of a repetition: an empty list of values means no progress. *)
Lemma star_loop_good e k : wf e = true -> forall acc f s, adv p0 (pt s) ->
  match star_loop ev k e acc f s with
  | RVal v _ s' => adv (pt s) (pt s') /\ steps p0 s s' /\
      (exists l, v = VList (rev acc ++ l) /\ (l = [] -> pt s' = pt s) /\
                 (l <> [] -> nullable e = false -> pt s' <> pt s))
  | RFail s' => False
  | RPanic s' => adv (pt s) (pt s') /\ steps p0 s s'
  | RFuel => True
  end.
Proof.
  intros Hw. induction k as [|k IH]; intros acc f s H0; cbn [star_loop]; auto.
  pose proof (Hev e [] s Hw H0) as G. destruct (ev e [] s) as [v f' s'|s'|s'|]; cbn in G.
  - destruct G as (G1 & G2 & G3). specialize (IH (v :: acc) f s' (adv_trans _ _ _ H0 G1)).
    destruct (star_loop ev k e (v :: acc) f s') as [v2 f2 s2|s2|s2|]; auto.
    + destruct IH as (I1 & I2 & l & -> & I3 & I4).
      split; [eapply adv_trans; eauto|split; [eapply steps_trans; eauto|]].
      exists (v :: l). split; [cbn; now rewrite <- app_assoc|]. split; [discriminate|].
      intros _ En. eapply adv_pt_ne; eauto.
    + destruct IH as (I1 & I2). split; [eapply adv_trans; eauto|eapply steps_trans; eauto].
  - destruct G as (G1 & G2). split; [rewrite G1; apply adv_refl|split; auto].
    exists []. rewrite app_nil_r. repeat split; auto; congruence.
  - auto.
  - auto.
Qed.

Lemma throw_loop_good l recs : Forall (fun p => wf (snd p) = true) recs -> forall f s, adv p0 (pt s) ->
  good true s (throw_loop ev l recs f s).
Proof.
  induction 1 as [|[ls e] recs He _ IH]; intros f s H0; cbn [throw_loop].
  - cbn. split; [auto|apply sts_refl].
  - destruct (existsb _ ls); auto.
    pose proof (Hev e f s He H0) as G. destruct (ev e f s) as [v f' s'|s'|s'|]; cbn in G |- *.
    + destruct G as (G1 & G2 & _). repeat split; auto. discriminate.
    + destruct G as (G1 & G2). specialize (IH f s'). rewrite G1 in IH. specialize (IH H0).
      destruct (throw_loop ev l recs f s') as [v2 f2 s2|s2|s2|]; cbn in *; rewrite ?G1 in IH; intuition;
        eapply steps_trans; eauto.
    + auto.
    + auto.
Qed.
End Loops.

Lemma wf_inv e : wf e = true -> (depth e <= slack)%nat.
Proof. destruct e; cbn [wf]; intros H; apply andb_true_iff in H as [H _]; apply andb_true_iff in H as [H _]; now apply Nat.leb_le. Qed.

Theorem eval_good n : forall inv recs e f s,
  wf e = true -> recs_ok recs -> adv p0 (pt s) -> good (nullable e) s (eval O n inv recs e f s).
Proof.
  induction n as [|n IH]; intros inv recs e f s0 Hw Hr H0; [exact I|].
  cbn [eval]. apply good_tick. set (s := tick s0).
  assert (H0' : adv p0 (pt s)) by exact H0. clearbody s. clear H0 s0.
  assert (Hev : forall inv e f s, wf e = true -> adv p0 (pt s) -> good (nullable e) s (eval O n inv recs e f s))
    by (intros; apply IH; auto).
  assert (Hrr : Forall (fun p => wf (snd p) = true) recs) by (eapply Forall_impl; [|exact Hr]; cbn; tauto).
  destruct e as [a e|l|l|l e|r|w ic want|v chars ranges ic invd| |e|e|e|e|e rc ls|l|c]; cbn zeta;
    cbn [wf] in Hw; apply andb_true_iff in Hw as [Ha Hw]; cbn [nullable].
  - (* action *)
    pose proof (Hev inv e f s Hw H0') as G. destruct (eval O n inv recs e f s) as [v f' s'|s'|s'|]; auto.
    destruct G as (G1 & G2 & G3). destruct (run_action _ _ _ _ _) as [v2|v2 k|] eqn:Ea; cbn.
    + auto.
    + split; [auto|split; [|auto]]. eapply sts_snoc; eauto. apply st_err; auto; [eapply run_action_kind; eauto|].
      destruct (run_action_len _ _ _ _ _ _ _ Ea) as (M & L). left. cbn [act_ok] in Ha. rewrite M in Ha. apply andb_true_iff in Ha as [_ Ha]. cbn in Ha.
      specialize (G3 ltac:(destruct (nullable e); [discriminate Ha|reflexivity])). pose proof (slice_adv _ _ G1) as Sl.
      pose proof (f_equal (@length N) Sl) as Ln. rewrite app_length in Ln. destruct (adv_strict _ _ G1) as [Eq|Lt]; [now symmetry in Eq|]. lia.
    + auto.
  - (* seq *)
    pose proof (seq_loop_good _ (Hev inv) (pt s) l [] f s Hw H0' (adv_refl _)) as G.
    destruct (seq_loop _ _ _ _ _ _); auto.
  - apply choice_loop_good; auto.
  - pose proof (Hev inv e [] s Hw H0') as G. destruct (eval O n inv recs e [] s) as [v f' s'|s'|s'|]; auto.
  - pose proof (Hev inv (rules r) [] s (wf_rules r) H0') as G.
    destruct (eval O n inv recs (rules r) [] s) as [v f' s'|s'|s'|]; cbn in *; auto.
    destruct G as (G1 & G2 & G3). repeat split; auto. intros En. apply G3.
    destruct (nullable (rules r)) eqn:E; auto. apply null_rules in E. congruence.
  - (* literal *)
    pose proof (lit_loop_good ic w Hw s) as G. destruct (lit_loop ic w s) as [[s'|] s'']; cbn.
    + destruct G as (G1 & G2 & G3). rewrite pt_fail. split; [auto|split].
      * eapply sts_snoc; eauto. apply st_fail; auto.
      * destruct w; [discriminate|]. intros _. apply G3. discriminate.
    + destruct G as (G1 & G2). rewrite restore_back by (rewrite pt_fail; auto). split; [reflexivity|].
      eapply sts_snoc; [eapply sts_snoc; [exact G2|apply st_fail; eauto]|]. apply st_back; auto. rewrite pt_fail. auto.
  - (* class *)
    destruct (at_eof (pt s)) eqn:Ee.
    + cbn. rewrite pt_fail. split; auto. apply steps_one, st_fail; auto. apply adv_refl.
    + destruct (xorb _ _).
      * pose proof (noeof_rest _ Ee) as Hne. cbn. rewrite pt_fail, pt_read.
        split; [apply adv_next; auto|split].
        -- eapply sts_snoc; [apply steps_one, st_read; auto|]. apply st_fail; auto. rewrite pt_read. now apply adv_next.
        -- intros _ En. pose proof (cur_width_bounds _ Hne).
           assert (L : length (rest (next_point (pt s))) = (length (rest (pt s)) - cur_width (pt s))%nat)
             by (rewrite next_point_rest, skipn_length; reflexivity).
           rewrite En in L. lia.
      * cbn. rewrite pt_fail. split; auto. apply steps_one, st_fail; auto. apply adv_refl.
  - (* any *)
    destruct (at_eof (pt s)) eqn:Ee.
    + cbn. rewrite pt_fail. split; auto. apply steps_one, st_fail; auto. apply adv_refl.
    + pose proof (noeof_rest _ Ee) as Hne. cbn. rewrite pt_fail, pt_read.
      split; [apply adv_next; auto|split].
      * eapply sts_snoc; [apply steps_one, st_read; auto|]. apply st_fail; auto. rewrite pt_read. now apply adv_next.
      * intros _ En. pose proof (cur_width_bounds _ Hne).
        assert (L : length (rest (next_point (pt s))) = (length (rest (pt s)) - cur_width (pt s))%nat)
          by (rewrite next_point_rest, skipn_length; reflexivity).
        rewrite En in L. lia.
  - (* not *)
    pose proof (Hev (negb inv) e [] s Hw H0') as G. destruct (eval O n (negb inv) recs e [] s) as [v f' s'|s'|s'|]; cbn in *; auto.
    + destruct G as (G1 & G2 & _). rewrite restore_back by auto. split; [reflexivity|].
      eapply sts_snoc; eauto. apply st_back; auto.
    + destruct G as (G1 & G2). assert (A : adv (pt s) (pt s')) by (rewrite G1; apply adv_refl).
      rewrite restore_back by auto. split; [apply adv_refl|split; [|discriminate]].
      eapply sts_snoc; eauto. apply st_back; auto.
  - (* star *)
    apply andb_true_iff in Hw as [Hw Hn]. apply negb_true_iff in Hn.
    pose proof (star_loop_good _ (Hev inv) e (S (length (rest (pt s)))) Hw [] f s H0') as G.
    destruct (star_loop _ _ _ _ _ _) as [v2 f2 s2|s2|s2|]; cbn in *; intuition.
  - (* plus *)
    apply andb_true_iff in Hw as [Hw Hn]. apply negb_true_iff in Hn.
    pose proof (star_loop_good _ (Hev inv) e (S (length (rest (pt s)))) Hw [] f s H0') as G.
    destruct (star_loop _ _ _ _ _ _) as [v2 f2 s2|s2|s2|]; [|destruct G|exact G|exact G].
    destruct G as (G1 & G2 & l & -> & G3 & G4). cbn [rev app]. destruct l; cbn.
    + split; auto.
    + repeat split; auto. intros _. apply G4; auto. discriminate.
  - (* opt *)
    pose proof (Hev inv e [] s Hw H0') as G. destruct (eval O n inv recs e [] s) as [v f' s'|s'|s'|]; cbn in *; auto.
    + destruct G as (G1 & G2 & _). repeat split; auto. discriminate.
    + destruct G as (G1 & G2). rewrite G1. split; [apply adv_refl|split; [auto|discriminate]].
  - (* recover *)
    apply andb_true_iff in Hw as [Hw Hd]. apply andb_true_iff in Hw as [Hw Hrc].
    apply IH; auto. constructor; auto. cbn. split; auto. now apply Nat.leb_le.
  - apply throw_loop_good; auto. 
  - (* state *)
    cbn. split; [apply adv_refl|split; [|discriminate]]. apply steps_one, st_err; auto; [destruct c; discriminate|destruct c; cbn; unfold fits; tauto|apply adv_refl].
Qed.

(** ** Termination *)
Lemma seq_fuel ev n start es : forall acc f s,
  (forall e f s, wf e = true -> adv p0 (pt s) -> good (nullable e) s (ev e f s)) ->
  (forall e f s, wf e = true -> adv p0 (pt s) -> (slack * length (rest (pt s)) + depth e <= n)%nat -> ev e f s <> RFuel) ->
  forallb wf es = true -> adv p0 start -> adv start (pt s) ->
  (slack * length (rest (pt s)) + seq_depth depth es <= n \/ slack * length (rest (pt s)) + slack <= n)%nat ->
  seq_loop ev start es acc f s <> RFuel.
Proof.
  induction es as [|e es IH]; intros acc f s Hg Hf Hw H0 Ha Hn; cbn [seq_loop]; [discriminate|].
  cbn in Hw. apply andb_true_iff in Hw as [He Hes].
  assert (H0s : adv p0 (pt s)) by (eapply adv_trans; eauto).
  cbn [seq_depth] in Hn. fold (seq_depth depth) in Hn.
  pose proof (wf_inv e He) as Hd.
  assert (Hne : ev e f s <> RFuel) by (apply Hf; auto; destruct Hn; lia).
  pose proof (Hg e f s He H0s) as G.
  destruct (ev e f s) as [v f' s'|s'|s'|]; try discriminate; [|congruence].
  destruct G as (G1 & G2 & G3). apply IH; auto; [eapply adv_trans; eauto|].
  destruct (adv_strict _ _ G1) as [E|L].
  - rewrite <- E in *. destruct (nullable e) eqn:En.
    + destruct Hn; [left; lia|right; lia].
    + exfalso. apply G3; auto.
  - right. unfold slack in *. destruct Hn; lia.
Qed.

Lemma choice_fuel ev n es : forall f s,
  (forall e f s, wf e = true -> adv p0 (pt s) -> good (nullable e) s (ev e f s)) ->
  (forall e f s, wf e = true -> adv p0 (pt s) -> (slack * length (rest (pt s)) + depth e <= n)%nat -> ev e f s <> RFuel) ->
  forallb wf es = true -> adv p0 (pt s) ->
  (slack * length (rest (pt s)) + max_depth depth es <= n)%nat ->
  choice_loop ev es f s <> RFuel.
Proof.
  induction es as [|e es IH]; intros f s Hg Hf Hw H0 Hn; cbn [choice_loop]; [discriminate|].
  cbn in Hw. apply andb_true_iff in Hw as [He Hes].
  cbn [max_depth] in Hn. fold (max_depth depth) in Hn.
  assert (Hne : ev e [] s <> RFuel) by (apply Hf; auto; lia).
  pose proof (Hg e [] s He H0) as G.
  destruct (ev e [] s) as [v f' s'|s'|s'|]; try discriminate; [|congruence].
  destruct G as (G1 & G2). apply IH; auto; rewrite G1; auto; lia.
Qed.

Lemma star_fuel ev n e k : forall acc f s,
  (forall e f s, wf e = true -> adv p0 (pt s) -> good (nullable e) s (ev e f s)) ->
  (forall e f s, wf e = true -> adv p0 (pt s) -> (slack * length (rest (pt s)) + depth e <= n)%nat -> ev e f s <> RFuel) ->
  wf e = true -> nullable e = false -> adv p0 (pt s) ->
  (slack * length (rest (pt s)) + depth e <= n)%nat -> (length (rest (pt s)) < k)%nat ->
  star_loop ev k e acc f s <> RFuel.
Proof.
  induction k as [|k IH]; intros acc f s Hg Hf Hw Hnl H0 Hn Hk; cbn [star_loop]; [lia|].
  assert (Hne : ev e [] s <> RFuel) by (apply Hf; auto; lia).
  pose proof (Hg e [] s Hw H0) as G.
  destruct (ev e [] s) as [v f' s'|s'|s'|]; try discriminate; [|congruence].
  destruct G as (G1 & G2 & G3). specialize (G3 Hnl).
  destruct (adv_strict _ _ G1) as [E|L]; [congruence|].
  apply IH; auto.
  - eapply adv_trans; eauto.
  - unfold slack in *; lia.
  - lia.
Qed.

Lemma throw_fuel ev n l recs : forall f s,
  (forall e f s, wf e = true -> adv p0 (pt s) -> good (nullable e) s (ev e f s)) ->
  (forall e f s, wf e = true -> adv p0 (pt s) -> (slack * length (rest (pt s)) + depth e <= n)%nat -> ev e f s <> RFuel) ->
  recs_ok recs -> adv p0 (pt s) ->
  (slack * length (rest (pt s)) + throw_depth <= n)%nat ->
  throw_loop ev l recs f s <> RFuel.
Proof.
  induction recs as [|[ls e] recs IH]; intros f s Hg Hf Hr H0 Hn; cbn [throw_loop]; [discriminate|].
  inversion Hr as [|? ? [Hw Hd] Hr']; subst. cbn in Hw, Hd.
  destruct (existsb _ ls); [|apply IH; auto].
  assert (Hne : ev e f s <> RFuel) by (apply Hf; auto; lia).
  pose proof (Hg e f s Hw H0) as G.
  destruct (ev e f s) as [v f' s'|s'|s'|]; try discriminate; [|congruence].
  destruct G as (G1 & G2). apply IH; auto; rewrite G1; auto.
Qed.

Theorem eval_fuel n : forall inv recs e f s,
  wf e = true -> recs_ok recs -> adv p0 (pt s) ->
  (slack * length (rest (pt s)) + depth e <= n)%nat -> eval O n inv recs e f s <> RFuel.
Proof.
  induction n as [|n IH]; intros inv recs e f s0 Hw Hr H0 Hn.
  { destruct e; cbn in Hn; unfold depth in Hn; cbn in Hn; lia. }
  cbn [eval]. set (s := tick s0).
  assert (H0' : adv p0 (pt s)) by exact H0.
  assert (Hn' : (slack * length (rest (pt s)) + depth e <= S n)%nat) by exact Hn. clearbody s. clear H0 s0 Hn.
  assert (Hg : forall inv e f s, wf e = true -> adv p0 (pt s) -> good (nullable e) s (eval O n inv recs e f s))
    by (intros; apply eval_good; auto).
  assert (Hf : forall inv e f s, wf e = true -> adv p0 (pt s) -> (slack * length (rest (pt s)) + depth e <= n)%nat -> eval O n inv recs e f s <> RFuel)
    by (intros; apply IH; auto).
  destruct e as [a e|l|l|l e|r|w ic want|v chars ranges ic invd| |e|e|e|e|e rc ls|l|c]; cbn zeta;
    cbn [wf] in Hw; apply andb_true_iff in Hw as [_ Hw]; unfold depth in Hn'; cbn [depth_with] in Hn';
    fold depth in Hn'.
  - specialize (Hf inv e f s Hw H0' ltac:(lia)). destruct (eval O n inv recs e f s); try discriminate; [|congruence].
    destruct (run_action _ _ _ _ _); discriminate.
  - eapply seq_fuel; eauto. apply adv_refl. left. lia.
  - eapply choice_fuel; eauto. lia.
  - specialize (Hf inv e [] s Hw H0' ltac:(lia)). destruct (eval O n inv recs e [] s); try discriminate; congruence.
  - pose proof (rank_rules r). specialize (Hf inv (rules r) [] s (wf_rules r) H0' ltac:(lia)).
    destruct (eval O n inv recs (rules r) [] s); try discriminate; congruence.
  - destruct (lit_loop ic w s) as [[?|] ?]; discriminate.
  - destruct (at_eof _); try discriminate. destruct (xorb _ _); discriminate.
  - destruct (at_eof _); try discriminate.
  - specialize (Hf (negb inv) e [] s Hw H0' ltac:(lia)). destruct (eval O n (negb inv) recs e [] s); try discriminate; congruence.
  - apply andb_true_iff in Hw as [Hw Hnl]. apply negb_true_iff in Hnl.
    eapply star_fuel; eauto; lia.
  - apply andb_true_iff in Hw as [Hw Hnl]. apply negb_true_iff in Hnl.
    assert (E : star_loop (eval O n inv recs) (S (length (rest (pt s)))) e [] f s <> RFuel)
      by (eapply star_fuel; eauto; lia).
    destruct (star_loop _ _ _ _ _ _) as [v2 ? ?|?|?|]; try discriminate; try congruence.
    destruct v2; try discriminate. destruct l; discriminate.
  - specialize (Hf inv e [] s Hw H0' ltac:(lia)). destruct (eval O n inv recs e [] s); try discriminate; congruence.
  - apply andb_true_iff in Hw as [Hw Hd]. apply andb_true_iff in Hw as [Hw Hrc].
    apply IH; auto; [|lia]. constructor; auto. cbn. split; auto. now apply Nat.leb_le.
  - eapply throw_fuel; eauto. lia.
  - discriminate.
Qed.
End WithOracles.

(** ** The whole parse *)
Definition first_point (q : bytes) : point := pt (init_state q).

Lemma pt_init q : pt (init_state q) =
  {| at_ := if fst (decode_rune q) =? 10 then {| line := 2; col := 0; off := 0 |}
            else {| line := 1; col := 1; off := 0 |}; rest := q |}.
Proof. unfold init_state, read_at. destruct (_ =? 10); cbn; destruct (_ && _); reflexivity. Qed.

Theorem run_no_fuel O q : run O q <> RFuel.
Proof.
  unfold run. apply (eval_fuel O (first_point q)).
  - reflexivity.
  - constructor.
  - apply adv_refl.
  - unfold fuel_for. rewrite pt_init. cbn [rest].
    assert (depth (rules RStart) <= 100)%nat by (apply Nat.leb_le; vm_compute; reflexivity).
    unfold slack. lia.
Qed.

Theorem run_good O q : good (first_point q) false (init_state q) (run O q).
Proof.
  unfold run. change false with (nullable (rules RStart)) at 1. apply eval_good.
  - reflexivity.
  - constructor.
  - apply adv_refl.
Qed.
