(** Counting evaluations; the order of the two counters. *)
From Verif Require Import Bytes GoTime Oracles Ast AstSpec Json JsonSpec JsonProofs Values StrMatch Matcher MatchSpec MatchProofs MatchApi MatcherTop Stats StatsSpec StatsProofs.
From Coq Require Import ZifyBool ZifyN ZifyNat.

Lemma cnt_mark_nil p w c : cnt (p ++ []) w (mark_steps p c) = match w with Checked => 1%nat | Matched => if c then 1%nat else 0%nat end.
Proof. rewrite app_nil_r. apply cnt_mark_self. Qed.
Lemma cnt_mark_ne p q w c : q <> [] -> cnt (p ++ q) w (mark_steps p c) = 0%nat.
Proof. intros N. apply cnt_mark_other. intros K. apply N. rewrite <- (app_nil_r p) in K at 2. now apply app_inv_head in K. Qed.

Section WithOracles.
Context (O : oracles).

(** One evaluation marks a node at most once. *)
Lemma trace_once m : forall p root a t q, trace O m p root = Ok (a, t) -> (cnt q Checked t <= 1)%nat.
Proof.
  assert (Dec : forall p q : list dir, (exists q', q = p ++ q') \/ forall q', q <> p ++ q').
  { intros p. induction p as [|d p IH]; intros q; [left; now exists q|]. destruct q as [|e q]; [right; discriminate|].
    assert (K : d = e \/ d <> e) by (destruct d, e; (left; reflexivity) || (right; discriminate)).
    destruct K as [->|K]; [|right; intros q' [= -> _]; now apply K]. destruct (IH q) as [(q' & ->)|N]; [left; now exists q'|]. right. intros q' [= ->]. now apply (N q'). }
  induction m as [l IHl r IHr st|l IHl r IHr st|e IHe st|path es st]; intros p root a t q0 T0; destruct (Dec p q0) as [(q & ->)|N];
    try (rewrite (trace_other O _ _ _ _ _ _ Checked T0 N); lia); revert T0; cbn [trace].
  - destruct (trace O l _ root) as [[x t1]|] eqn:E1; [|discriminate]. cbn [bind].
    assert (D1 : hd_error q <> Some DLeft -> cnt (p ++ q) Checked t1 = 0%nat) by (intros; eapply trace_dir; eassumption).
    pose proof (IHl _ _ _ _ (p ++ q) E1) as L1. destruct x.
    + destruct (trace O r _ root) as [[y t2]|] eqn:E2; [|discriminate]. cbn [bind]. intros [= <- <-].
      assert (D2 : hd_error q <> Some DRight -> cnt (p ++ q) Checked t2 = 0%nat) by (intros; eapply trace_dir; eassumption).
      pose proof (IHr _ _ _ _ (p ++ q) E2) as L2. rewrite !cnt_app. destruct q as [|[] q].
      * rewrite D1, D2, cnt_mark_nil by discriminate. lia.
      * rewrite D2, cnt_mark_ne by discriminate. lia.
      * rewrite D1, cnt_mark_ne by discriminate. lia.
      * rewrite D1, D2, cnt_mark_ne by discriminate. lia.
    + intros [= <- <-]. rewrite !cnt_app. destruct q as [|d q].
      * rewrite D1, cnt_mark_nil by discriminate. lia.
      * rewrite cnt_mark_ne by discriminate. lia.
  - destruct (trace O l _ root) as [[x t1]|] eqn:E1; [|discriminate]. cbn [bind].
    assert (D1 : hd_error q <> Some DLeft -> cnt (p ++ q) Checked t1 = 0%nat) by (intros; eapply trace_dir; eassumption).
    pose proof (IHl _ _ _ _ (p ++ q) E1) as L1. destruct x.
    + intros [= <- <-]. rewrite !cnt_app. destruct q as [|d q].
      * rewrite D1, cnt_mark_nil by discriminate. lia.
      * rewrite cnt_mark_ne by discriminate. lia.
    + destruct (trace O r _ root) as [[y t2]|] eqn:E2; [|discriminate]. cbn [bind]. intros [= <- <-].
      assert (D2 : hd_error q <> Some DRight -> cnt (p ++ q) Checked t2 = 0%nat) by (intros; eapply trace_dir; eassumption).
      pose proof (IHr _ _ _ _ (p ++ q) E2) as L2. rewrite !cnt_app. destruct q as [|[] q].
      * rewrite D1, D2, cnt_mark_nil by discriminate. lia.
      * rewrite D2, cnt_mark_ne by discriminate. lia.
      * rewrite D1, cnt_mark_ne by discriminate. lia.
      * rewrite D1, D2, cnt_mark_ne by discriminate. lia.
  - destruct (trace O e _ root) as [[x t1]|] eqn:E1; [|discriminate]. cbn [bind].
    assert (D1 : hd_error q <> Some DSub -> cnt (p ++ q) Checked t1 = 0%nat) by (intros; eapply trace_dir; eassumption).
    pose proof (IHe _ _ _ _ (p ++ q) E1) as L1. intros [= <- <-]. rewrite !cnt_app. destruct q as [|d q].
    + rewrite D1, cnt_mark_nil by discriminate. lia.
    + rewrite cnt_mark_ne by discriminate. lia.
  - destruct (expr_result O path es root) as [x|]; [|discriminate]. intros [= <- <-]. destruct q as [|d q].
    + rewrite cnt_mark_nil. lia.
    + rewrite cnt_mark_ne by discriminate. lia.
Qed.

Lemma work_once m p d : (work O m p Checked d <= 1)%nat.
Proof.
  unfold work. cbn [program]. destruct (parse_json d) as [root|]; [|cbn; lia]. destruct (trace O m [] root) as [[a t]|] eqn:E; [|cbn; lia].
  cbn. rewrite cnt_app. pose proof (trace_once _ _ _ _ _ p E). cbn. lia.
Qed.

(** What is counted for the node at [p]. *)
Definition counted (t : node) (j : json) (pre p : list dir) (n : node) (tr : list action) : Prop :=
  (evaluated O t j p /\ cnt (pre ++ p) Checked tr = 1%nat /\
     ((holds O n j /\ cnt (pre ++ p) Matched tr = 1%nat) \/ (~ holds O n j /\ cnt (pre ++ p) Matched tr = 0%nat))) \/
  (~ evaluated O t j p /\ cnt (pre ++ p) Checked tr = 0%nat /\ cnt (pre ++ p) Matched tr = 0%nat).

Lemma trace_counts t j : tree_ok t ->
  (forall o f vs p, subnode (NExpr o f vs p) t -> path_safe j f /\ no_index j f) ->
  forall m pre, build O t = Ok m -> exists a tr, trace O m pre j = Ok (a, tr) /\ (a = true <-> holds O t j) /\
    forall p n, subtree t p n -> counted t j pre p n tr.
Proof.
  assert (Here : forall t (m : mnode) pre a tr, (a = true <-> holds O t j) ->
    (forall w, cnt (pre ++ []) w tr = match w with Checked => 1%nat | Matched => if a then 1%nat else 0%nat end) -> counted t j pre [] t tr).
  { intros t0 m pre a tr Ha C. left. split; [constructor|]. split; [exact (C Checked)|]. rewrite (C Matched). destruct a; [left|right]; (split; [|reflexivity]); rewrite <- Ha; congruence. }
  induction t as [l IHl r IHr|l IHl r IHr|e IHe|o f vs pp]; intros T Sf m pre; cbn [build].
  - destruct (build O l) as [x|]; [|discriminate]. destruct (build O r) as [y|]; [|discriminate]. cbn. intros [= <-]. cbn [trace].
    destruct (IHl ltac:(intros ? ? ? ? S; eapply T, sub_and_l, S) ltac:(intros ? ? ? ? S; eapply Sf, sub_and_l, S) _ (pre ++ [DLeft]) eq_refl) as (a & t1 & E1 & Ha & C1).
    destruct (IHr ltac:(intros ? ? ? ? S; eapply T, sub_and_r, S) ltac:(intros ? ? ? ? S; eapply Sf, sub_and_r, S) _ (pre ++ [DRight]) eq_refl) as (c & t2 & E2 & Hc & C2).
    rewrite E1. cbn [bind].
    assert (D1 : forall q w, hd_error q <> Some DLeft -> cnt (pre ++ q) w t1 = 0%nat) by (intros; eapply trace_dir; eassumption).
    assert (D2 : forall q w, hd_error q <> Some DRight -> cnt (pre ++ q) w t2 = 0%nat) by (intros; eapply trace_dir; eassumption).
    destruct a.
    + rewrite E2. cbn [bind]. exists c. eexists. split; [reflexivity|]. assert (Hl : holds O l j) by now apply Ha.
      assert (Hh : c = true <-> holds O (NAnd l r) j) by (cbn; tauto). split; [exact Hh|].
      intros p n Sp. inversion Sp as [|l0 r0 p0 n0 S|l0 r0 p0 n0 S| | |]; subst.
      * apply (Here _ (MAnd x y (new_stats (b "AND"))) _ c); [exact Hh|]. intros w. now rewrite !cnt_app, D1, D2, cnt_mark_nil by discriminate.
      * specialize (C1 _ _ S). unfold counted in *. rewrite !cnt_app, !D2, !cnt_mark_ne by discriminate. cbn [Nat.add]. rewrite !Nat.add_0_r.
        rewrite <- !app_assoc in C1. cbn [app] in C1. destruct C1 as [(Ev & R)|(Ev & R)]; [left|right]; (split; [|exact R]); [now constructor|]. intros K. apply Ev. now inversion K.
      * specialize (C2 _ _ S). unfold counted in *. rewrite !cnt_app, !D1, !cnt_mark_ne by discriminate. cbn [Nat.add]. rewrite !Nat.add_0_r.
        rewrite <- !app_assoc in C2. cbn [app] in C2. destruct C2 as [(Ev & R)|(Ev & R)]; [left|right]; (split; [|exact R]); [now constructor|]. intros K. apply Ev. now inversion K.
    + exists false. eexists. split; [reflexivity|]. assert (Hl : ~ holds O l j) by (rewrite <- Ha; discriminate).
      assert (Hh : false = true <-> holds O (NAnd l r) j) by (cbn; split; [discriminate|tauto]). split; [exact Hh|].
      intros p n Sp. inversion Sp as [|l0 r0 p0 n0 S|l0 r0 p0 n0 S| | |]; subst.
      * apply (Here _ (MAnd x y (new_stats (b "AND"))) _ false); [exact Hh|]. intros w. now rewrite !cnt_app, D1, cnt_mark_nil by discriminate.
      * specialize (C1 _ _ S). unfold counted in *. rewrite !cnt_app, !cnt_mark_ne by discriminate. rewrite !Nat.add_0_r.
        rewrite <- !app_assoc in C1. cbn [app] in C1. destruct C1 as [(Ev & R)|(Ev & R)]; [left|right]; (split; [|exact R]); [now constructor|]. intros K. apply Ev. now inversion K.
      * right. rewrite !cnt_app, !D1, !cnt_mark_ne by discriminate. split; [intros K; now inversion K|auto].
  - destruct (build O l) as [x|]; [|discriminate]. destruct (build O r) as [y|]; [|discriminate]. cbn. intros [= <-]. cbn [trace].
    destruct (IHl ltac:(intros ? ? ? ? S; eapply T, sub_or_l, S) ltac:(intros ? ? ? ? S; eapply Sf, sub_or_l, S) _ (pre ++ [DLeft]) eq_refl) as (a & t1 & E1 & Ha & C1).
    destruct (IHr ltac:(intros ? ? ? ? S; eapply T, sub_or_r, S) ltac:(intros ? ? ? ? S; eapply Sf, sub_or_r, S) _ (pre ++ [DRight]) eq_refl) as (c & t2 & E2 & Hc & C2).
    rewrite E1. cbn [bind].
    assert (D1 : forall q w, hd_error q <> Some DLeft -> cnt (pre ++ q) w t1 = 0%nat) by (intros; eapply trace_dir; eassumption).
    assert (D2 : forall q w, hd_error q <> Some DRight -> cnt (pre ++ q) w t2 = 0%nat) by (intros; eapply trace_dir; eassumption).
    destruct a.
    + exists true. eexists. split; [reflexivity|]. assert (Hl : holds O l j) by now apply Ha.
      assert (Hh : true = true <-> holds O (NOr l r) j) by (cbn; tauto). split; [exact Hh|].
      intros p n Sp. inversion Sp as [| | |l0 r0 p0 n0 S|l0 r0 p0 n0 S|]; subst.
      * apply (Here _ (MOr x y (new_stats (b "OR"))) _ true); [exact Hh|]. intros w. now rewrite !cnt_app, D1, cnt_mark_nil by discriminate.
      * specialize (C1 _ _ S). unfold counted in *. rewrite !cnt_app, !cnt_mark_ne by discriminate. rewrite !Nat.add_0_r.
        rewrite <- !app_assoc in C1. cbn [app] in C1. destruct C1 as [(Ev & R)|(Ev & R)]; [left|right]; (split; [|exact R]); [now constructor|]. intros K. apply Ev. now inversion K.
      * right. rewrite !cnt_app, !D1, !cnt_mark_ne by discriminate. split; [intros K; now inversion K|auto].
    + rewrite E2. cbn [bind]. exists c. eexists. split; [reflexivity|]. assert (Hl : ~ holds O l j) by (rewrite <- Ha; discriminate).
      assert (Hh : c = true <-> holds O (NOr l r) j) by (cbn; tauto). split; [exact Hh|].
      intros p n Sp. inversion Sp as [| | |l0 r0 p0 n0 S|l0 r0 p0 n0 S|]; subst.
      * apply (Here _ (MOr x y (new_stats (b "OR"))) _ c); [exact Hh|]. intros w. now rewrite !cnt_app, D1, D2, cnt_mark_nil by discriminate.
      * specialize (C1 _ _ S). unfold counted in *. rewrite !cnt_app, !D2, !cnt_mark_ne by discriminate. cbn [Nat.add]. rewrite !Nat.add_0_r.
        rewrite <- !app_assoc in C1. cbn [app] in C1. destruct C1 as [(Ev & R)|(Ev & R)]; [left|right]; (split; [|exact R]); [now constructor|]. intros K. apply Ev. now inversion K.
      * specialize (C2 _ _ S). unfold counted in *. rewrite !cnt_app, !D1, !cnt_mark_ne by discriminate. cbn [Nat.add]. rewrite !Nat.add_0_r.
        rewrite <- !app_assoc in C2. cbn [app] in C2. destruct C2 as [(Ev & R)|(Ev & R)]; [left|right]; (split; [|exact R]); [now constructor|]. intros K. apply Ev. now inversion K.
  - destruct (build O e) as [x|]; [|discriminate]. cbn. intros [= <-]. cbn [trace].
    destruct (IHe ltac:(intros ? ? ? ? S; eapply T, sub_not, S) ltac:(intros ? ? ? ? S; eapply Sf, sub_not, S) _ (pre ++ [DSub]) eq_refl) as (a & t1 & E1 & Ha & C1).
    rewrite E1. cbn [bind].
    assert (D1 : forall q w, hd_error q <> Some DSub -> cnt (pre ++ q) w t1 = 0%nat) by (intros; eapply trace_dir; eassumption).
    exists (negb a). eexists. split; [reflexivity|].
    assert (Hh : negb a = true <-> holds O (NNot e) j) by (cbn; rewrite <- Ha; destruct a; cbn; split; congruence). split; [exact Hh|].
    intros p n Sp. inversion Sp as [| | | | |e0 p0 n0 S]; subst.
    + apply (Here _ (MNot x (new_stats (b "NOT"))) _ (negb a)); [exact Hh|]. intros w. now rewrite !cnt_app, D1, cnt_mark_nil by discriminate.
    + specialize (C1 _ _ S). unfold counted in *. rewrite !cnt_app, !cnt_mark_ne by discriminate. rewrite !Nat.add_0_r.
      rewrite <- !app_assoc in C1. cbn [app] in C1. destruct C1 as [(Ev & R)|(Ev & R)]; [left|right]; (split; [|exact R]); [now constructor|]. intros K. apply Ev. now inversion K.
  - destruct (build_exprs O o vs) as [es|] eqn:E; [|discriminate]. cbn [bind]. intros [= <-]. cbn [trace].
    destruct (Sf _ _ _ _ (sub_refl _)) as [S1 S2].
    destruct (expr_result_spec O o f vs pp es j (T _ _ _ _ (sub_refl _)) E S1 S2) as (a & -> & Ha). cbn [bind]. exists a. eexists. split; [reflexivity|]. split; [exact Ha|].
    intros p n Sp. inversion Sp; subst. apply (Here _ (MExpr f es (new_stats (b "NOT"))) _ a); [exact Ha|]. intros w. apply cnt_mark_nil.
Qed.

Lemma subtree_node t : forall m p n, build O t = Ok m -> subtree t p n -> exists st, node_at m p = Some st /\ ns_checked st = 0%Z /\ ns_matched st = 0%Z.
Proof.
  induction t as [l IHl r IHr|l IHl r IHr|e IHe|o f vs pp]; intros m p n; cbn [build].
  - destruct (build O l) as [x|]; [|discriminate]. destruct (build O r) as [y|]; [|discriminate]. cbn. intros [= <-] Sp. inversion Sp; subst; cbn; eauto.
  - destruct (build O l) as [x|]; [|discriminate]. destruct (build O r) as [y|]; [|discriminate]. cbn. intros [= <-] Sp. inversion Sp; subst; cbn; eauto.
  - destruct (build O e) as [x|]; [|discriminate]. cbn. intros [= <-] Sp. inversion Sp; subst; cbn; eauto.
  - destruct (build_exprs O o vs) as [es|]; [|discriminate]. cbn [bind]. intros [= <-] Sp. inversion Sp; subst. cbn. eauto.
Qed.

Lemma build_zero t : forall m p w, build O t = Ok m -> mem_of m p w = 0%Z.
Proof.
  induction t as [l IHl r IHr|l IHl r IHr|e IHe|o f vs pp]; intros m p w; cbn [build].
  - destruct (build O l) as [x|]; [|discriminate]. destruct (build O r) as [y|]; [|discriminate]. cbn. intros [= <-]. destruct p as [|[] p]; [now destruct w| | |]; rewrite mem_child; cbn [child]; auto.
  - destruct (build O l) as [x|]; [|discriminate]. destruct (build O r) as [y|]; [|discriminate]. cbn. intros [= <-]. destruct p as [|[] p]; [now destruct w| | |]; rewrite mem_child; cbn [child]; auto.
  - destruct (build O e) as [x|]; [|discriminate]. cbn. intros [= <-]. destruct p as [|[] p]; [now destruct w| | |]; rewrite mem_child; cbn [child]; auto.
  - destruct (build_exprs O o vs) as [es|]; [|discriminate]. cbn [bind]. intros [= <-]. destruct p as [|[] p]; [now destruct w| | |]; rewrite mem_child; reflexivity.
Qed.

Lemma node_at_shape m : forall m' p st, shape m = shape m' -> node_at m p = Some st -> exists st', node_at m' p = Some st' /\ ns_name st' = ns_name st.
Proof.
  induction m as [l IHl r IHr st0|l IHl r IHr st0|e IHe st0|path es st0]; intros [l' r' st'|l' r' st'|e' st'|path' es' st'] p st; cbn [shape]; intros E; try discriminate.
  - injection E as El Er En. destruct p as [|[] p]; cbn; try discriminate; [intros [= <-]; eauto|now apply IHl|now apply IHr].
  - injection E as El Er En. destruct p as [|[] p]; cbn; try discriminate; [intros [= <-]; eauto|now apply IHl|now apply IHr].
  - injection E as Ee En. destruct p as [|[] p]; cbn; try discriminate; [intros [= <-]; eauto|now apply IHe].
  - injection E as Ep Es En. destruct p as [|[] p]; cbn; try discriminate. intros [= <-]; eauto.
Qed.
End WithOracles.

Lemma bump_iter k z : (0 <= z)%Z -> (z + Z.of_nat k < 2 ^ 63)%Z -> Nat.iter k bump z = (z + Z.of_nat k)%Z.
Proof.
  intros Hz. induction k as [|k IH]; intros H; [cbn; lia|]. change (Nat.iter (S k) bump z) with (bump (Nat.iter k bump z)). rewrite IH by lia.
  unfold bump, wrap64. rewrite Z.mod_small by (change (2 ^ 63)%Z with 9223372036854775808%Z in H; lia). lia.
Qed.

Lemma tally_fun P ds n : tally P ds n -> forall n', tally P ds n' -> n = n'.
Proof.
  assert (F : forall d j j', document d j -> document d j' -> j = j').
  { intros d j j' A B. apply parse_json_spec in A, B. congruence. }
  induction 1 as [|d ds n N _ IH|d j ds n D Y _ IH|d j ds n D Y _ IH]; intros n' T; inversion T as [|d' ds' k N' T'|d' j' ds' k D' Y' T'|d' j' ds' k D' Y' T']; subst.
  - reflexivity.
  - auto.
  - exfalso; eauto.
  - exfalso; eauto.
  - exfalso; eauto.
  - f_equal. auto.
  - rewrite (F _ _ _ D D') in Y. contradiction.
  - exfalso; eauto.
  - rewrite (F _ _ _ D D') in Y. contradiction.
  - auto.
Qed.

(** ** The order of the two counters *)
Inductive paired : list action -> Prop :=
| pr_nil : paired []
| pr_both p t : paired t -> paired (AInc p Checked :: AInc p Matched :: t)
| pr_one p t : paired t -> paired (AInc p Checked :: t)
| pr_load p w t : paired t -> paired (ALoad p w :: t)
| pr_ret r t : paired t -> paired (ARet r :: t).

Lemma paired_app t u : paired t -> paired u -> paired (t ++ u).
Proof. induction 1; intros; cbn; auto; constructor; auto. Qed.
Lemma paired_mark p c : paired (mark_steps p c).
Proof. destruct c; cbn; repeat constructor. Qed.
Lemma paired_trace O m : forall p root a t, trace O m p root = Ok (a, t) -> paired t.
Proof.
  induction m as [l IHl r IHr st|l IHl r IHr st|e IHe st|path es st]; intros p root a t; cbn [trace].
  - destruct (trace O l _ root) as [[x t1]|] eqn:El; [|discriminate]. cbn. apply IHl in El. destruct x.
    + destruct (trace O r _ root) as [[y t2]|] eqn:Er; [|discriminate]. apply IHr in Er. intros [= <- <-]. auto using paired_app, paired_mark.
    + intros [= <- <-]. apply paired_app; [exact El|]. repeat constructor.
  - destruct (trace O l _ root) as [[x t1]|] eqn:El; [|discriminate]. cbn. apply IHl in El. destruct x.
    + intros [= <- <-]. apply paired_app; [exact El|]. repeat constructor.
    + destruct (trace O r _ root) as [[y t2]|] eqn:Er; [|discriminate]. apply IHr in Er. intros [= <- <-]. auto using paired_app, paired_mark.
  - destruct (trace O e _ root) as [[x t1]|] eqn:El; [|discriminate]. cbn. apply IHe in El. intros [= <- <-]. auto using paired_app, paired_mark.
  - destruct (expr_result O path es root) as [x|]; [|discriminate]. intros [= <- <-]. apply paired_mark.
Qed.
Lemma paired_programs O m cs acts : programs O m cs = Ok acts -> paired acts.
Proof.
  revert acts. induction cs as [|c cs IH]; intros acts; cbn [programs]; [intros [= <-]; constructor|].
  destruct (program O m c) as [t|] eqn:Ec; [|discriminate]. cbn [bind]. destruct (programs O m cs) as [u|]; [|discriminate]. cbn [bind]. intros [= <-].
  apply paired_app; [|now apply IH]. destruct c as [d|]; cbn [program] in Ec.
  - destruct (parse_json d) as [root|]; [|injection Ec as <-; repeat constructor]. destruct (trace O m [] root) as [[a v]|] eqn:E; [|discriminate].
    cbn in Ec. injection Ec as <-. apply paired_app; [eapply paired_trace, E|repeat constructor].
  - injection Ec as <-. repeat constructor.
Qed.

(** Goroutines between the two increments of mark. *)
Definition half (p : list dir) (th : thread) : nat :=
  match todo th with AInc q Matched :: _ => if way_eqb q p then 1%nat else 0%nat | _ => 0%nat end.
Definition halves (p : list dir) (ts : list thread) : nat := list_sum (map (half p) ts).
Definition th_ok (th : thread) : Prop := paired (todo th) \/ exists p t, todo th = AInc p Matched :: t /\ paired t.

Lemma paired_half p t : paired t -> half p {| todo := t; seen := [] |} = 0%nat.
Proof. now destruct 1. Qed.
Lemma half_seen p t e : half p {| todo := t; seen := e |} = half p {| todo := t; seen := [] |}.
Proof. reflexivity. Qed.
Lemma halves_app p a c : halves p (a ++ c) = (halves p a + halves p c)%nat.
Proof. unfold halves. now rewrite map_app, list_sum_app. Qed.
Lemma halves_cons p x c : halves p (x :: c) = (half p x + halves p c)%nat.
Proof. reflexivity. Qed.
Lemma total_cons p w x c : total p w (x :: c) = (cnt p w (todo x) + total p w c)%nat.
Proof. reflexivity. Qed.
Lemma cnt_cons p w a t : cnt p w (a :: t) = ((if is_inc p w a then 1 else 0) + cnt p w t)%nat.
Proof. unfold cnt. cbn. now destruct (is_inc p w a). Qed.

Definition order_inv (s : memory * list thread) : Prop :=
  Forall th_ok (snd s) /\ forall p,
    (0 <= fst s p Matched)%Z /\ (fst s p Matched + Z.of_nat (halves p (snd s)) <= fst s p Checked)%Z /\
    (fst s p Checked + Z.of_nat (total p Checked (snd s)) < 2 ^ 63)%Z.

Lemma bump_small z : (0 <= z)%Z -> (z + 1 < 2 ^ 63)%Z -> bump z = (z + 1)%Z.
Proof. intros A B. exact (bump_iter 1 z A B). Qed.

Lemma order_step s s' : order_inv s -> step s s' -> order_inv s'.
Proof.
  intros (Ok & M) St. destruct St as [mu bf a rest ev af]. cbn [fst snd] in *. apply Forall_app in Ok as (Ob & Oa). inversion Oa as [|x y Ot Oaf]; subst.
  assert (R : th_ok {| todo := rest; seen := ev ++ snd (exec mu a) |} /\
    forall p, (half p {| todo := rest; seen := ev |} + match a with AInc q Matched => if way_eqb q p then 1 else 0 | _ => 0 end =
               half p {| todo := a :: rest; seen := ev |} + match a, rest with AInc q Checked, AInc q' Matched :: _ => if way_eqb q p then 1 else 0 | _, _ => 0 end)%nat).
  { destruct Ot as [Pr|(q & t & Eq & Pr)]; cbn [todo] in *.
    - inversion Pr as [|q t Pt|q t Pt|q w t Pt|r t Pt]; subst.
      + split; [right; exists q, t; now split|]. intros p. unfold half. cbn. lia.
      + split; [now left|]. intros p. pose proof (paired_half p _ Pt) as Z. cbn in Z. unfold half at 1. cbn [todo]. unfold half in Z. cbn [todo] in Z. rewrite Z. destruct rest as [|[q' []| |] ?]; cbn; try reflexivity. inversion Pt.
      + split; [now left|]. intros p. rewrite half_seen, (paired_half p _ Pt). reflexivity.
      + split; [now left|]. intros p. rewrite half_seen, (paired_half p _ Pt). reflexivity.
    - injection Eq as -> ->. split; [now left|]. intros p. rewrite half_seen, (paired_half p _ Pr). unfold half. cbn. lia. }
  destruct R as (Ot' & Hh). split.
  - cbn [snd]. apply Forall_app. split; [exact Ob|]. constructor; assumption.
  - intros p. cbn [fst snd]. specialize (M p). specialize (Hh p). rewrite !halves_app, !halves_cons, !total_app, !total_cons in *. cbn [todo] in *. rewrite cnt_cons in M.
    rewrite (half_seen p rest (ev ++ _)). rewrite (half_seen p rest ev) in Hh. destruct a as [q []|q w|r]; cbn [exec fst is_inc] in *.
    + cbn [counter_eqb] in *. rewrite ?andb_true_r, ?andb_false_r in *. unfold half in Hh at 2; cbn [todo] in Hh. unfold half in M at 1; cbn [todo] in M. revert M Hh; destruct (way_eqb q p) eqn:Eq; intros M Hh.
      * rewrite bump_small by lia. split; [lia|]. split; [|lia]. destruct rest as [|[q' []| |] ?]; lia.
      * split; [lia|]. split; [|lia]. destruct rest as [|[q' []| |] ?]; lia.
    + cbn [counter_eqb] in *. rewrite ?andb_true_r, ?andb_false_r in *. unfold half in Hh at 2; cbn [todo] in Hh. unfold half in M at 1; cbn [todo] in M. revert M Hh; destruct (way_eqb q p) eqn:Eq; intros M Hh.
      * rewrite bump_small by lia. lia.
      * lia.
    + lia.
    + lia.
Qed.
Lemma order_steps s s' : order_inv s -> steps s s' -> order_inv s'.
Proof. induction 2; eauto using order_step. Qed.
