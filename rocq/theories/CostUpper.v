(** Upper bounds on the number of expressions the parser evaluates. *)
From Verif Require Import Bytes Utf8 Utf8Proofs GoStrconv Oracles Ast PegSyntax Grammar Actions Engine EngineBasics CostProofs.
From Coq Require Import ZifyBool ZifyN ZifyNat.

(** The opening parentheses of a text. *)
Definition parens_in (s : bytes) : nat := count_occ N.eq_dec s 40.

Lemma parens_app x y : parens_in (x ++ y) = (parens_in x + parens_in y)%nat.
Proof. apply count_occ_app. Qed.
Lemma parens_adv p p' : adv p p' -> (parens_in (rest p') <= parens_in (rest p))%nat.
Proof. intros H. apply adv_spec in H as (t & -> & _). rewrite parens_app. lia. Qed.

Section V.
Context (O : oracles).
Definition len (s : state) : N := N.of_nat (length (rest (pt s))) + 1.

Lemma good_here n inv recs e f s : wf e = true -> recs_ok recs -> good (pt s) (nullable e) s (eval O n inv recs e f s).
Proof. intros. apply eval_good; auto. apply adv_refl. Qed.

(** ** Expressions that do not reach the clauses: a polynomial, by coefficient and exponent *)
Definition throw_cost (m : nat) : N := 1 + 2 * N.of_nat m.
Fixpoint poly (fuel m : nat) (e : expr) : option (N * N) :=
  match fuel with
  | 0%nat => None
  | S fuel' =>
    let sum := fix sum (l : list expr) : option (N * N) :=
      match l with
      | [] => Some (1, 0)
      | e :: l' => match poly fuel' m e, sum l' with Some (c1, d1), Some (c2, d2) => Some (c1 + c2, N.max d1 d2) | _, _ => None end
      end in
    let up x := match x with Some (c, d) => Some (c + 1, d) | None => None end in
    match e with
    | EAction _ e | ELabel _ e | EOpt e | ENot e => up (poly fuel' m e)
    | ESeq l | EChoice l => sum l
    | ERule (ROrClause | RAndClause | RNotClause | RComparison) => None
    | ERule r => up (poly fuel' m (rules r))
    | ELit _ _ _ | EClass _ _ _ _ _ | EAny | EState _ => Some (1, 0)
    | EStar e | EPlus e => match poly fuel' m e with Some (c, d) => Some (c + 1, d + 1) | None => None end
    | ERecover e (ERule RErrUntermStr | ERule RErrUntermRegex) _ => up (poly fuel' (S m) e)
    | ERecover _ _ _ => None
    | EThrow _ => Some (throw_cost m, 0)
    end
  end.

Definition val_of (x : N * N) (n : N) : N := fst x * n ^ snd x.
Definition small_recs (m : nat) (recs : list (list string * expr)) : Prop :=
  recs_ok recs /\ (length recs <= m)%nat /\ Forall (fun p => snd p = ERule RErrUntermStr \/ snd p = ERule RErrUntermRegex) recs.

Lemma pow_ge1 n d : 1 <= n -> 1 <= n ^ d.
Proof. intros H. rewrite <- (N.pow_1_l d). now apply N.pow_le_mono_l. Qed.
Lemma pow_mono n n' d d' : 1 <= n -> n <= n' -> d <= d' -> n ^ d <= n' ^ d'.
Proof. intros H1 H2 H3. transitivity (n' ^ d); [now apply N.pow_le_mono_l|]. apply N.pow_le_mono_r; lia. Qed.
Lemma val_mono x n n' : 1 <= n -> n <= n' -> val_of x n <= val_of x n'.
Proof. intros. unfold val_of. apply N.mul_le_mono_l. apply pow_mono; lia. Qed.
Lemma len_adv s s' : adv (pt s) (pt s') -> len s' <= len s.
Proof. intros H. apply adv_len in H. unfold len. lia. Qed.
Lemma len_strict s s' : adv (pt s) (pt s') -> pt s' <> pt s -> len s' + 1 <= len s.
Proof. intros H Hn. apply adv_strict in H as [H|H]; [congruence|]. unfold len. lia. Qed.
Lemma len_ge s : 1 <= len s.
Proof. unfold len. lia. Qed.

(** Evaluating costs at most [c]. *)
Definition within (s : state) (r : res) (c : N) : Prop := rcnt r <= cnt s + c.
Lemma within_mono s r c c' : c <= c' -> within s r c -> within s r c'.
Proof. unfold within. lia. Qed.
Lemma within_tick s r c : within (tick s) r c -> within s r (c + 1).
Proof. unfold within, tick. cbn. lia. Qed.

Section Loops.
Variable ev : expr -> frame -> state -> res.
Variable b : expr -> N -> N.
Hypothesis b_mono : forall e n n', 1 <= n -> n <= n' -> b e n <= b e n'.
Hypothesis Hg : forall e f s, wf e = true -> good (pt s) (nullable e) s (ev e f s).

Definition sum_of (es : list expr) (n : N) : N := fold_right (fun e a => b e n + a) 0 es.
Lemma sum_mono es n n' : 1 <= n -> n <= n' -> sum_of es n <= sum_of es n'.
Proof. intros H1 H2. induction es as [|e es IH]; cbn [sum_of fold_right]; [lia|]. fold (sum_of es n) (sum_of es n'). pose proof (b_mono e n n' H1 H2). lia. Qed.

Lemma seq_within start es : Forall (fun e => wf e = true /\ forall f s, within s (ev e f s) (b e (len s))) es ->
  forall acc f s, within s (seq_loop ev start es acc f s) (sum_of es (len s)).
Proof.
  induction 1 as [|e es (Hw & He) _ IH]; intros acc f s; cbn [seq_loop]; [unfold within; cbn; lia|].
  cbn [sum_of fold_right]. fold (sum_of es (len s)).
  specialize (He f s). pose proof (Hg e f s Hw) as G. destruct (ev e f s) as [v f' s'|s'|s'|]; unfold within in *; cbn [rcnt] in *.
  - destruct G as (G1 & _). specialize (IH (v :: acc) f' s'). pose proof (sum_mono es (len s') (len s) (len_ge _) (len_adv _ _ G1)). lia.
  - rewrite cnt_restore. lia.
  - lia.
  - lia.
Qed.
Lemma choice_within es : Forall (fun e => wf e = true /\ forall f s, within s (ev e f s) (b e (len s))) es ->
  forall f s, within s (choice_loop ev es f s) (sum_of es (len s)).
Proof.
  induction 1 as [|e es (Hw & He) _ IH]; intros f s; cbn [choice_loop]; [unfold within; cbn; lia|].
  cbn [sum_of fold_right]. fold (sum_of es (len s)).
  specialize (He [] s). pose proof (Hg e [] s Hw) as G. destruct (ev e [] s) as [v f' s'|s'|s'|]; unfold within in *; cbn [rcnt pop] in *; try lia.
  destruct G as (G1 & _). specialize (IH f s'). replace (len s') with (len s) in IH by (unfold len; now rewrite G1). lia.
Qed.
Lemma star_within e : wf e = true -> nullable e = false -> (forall f s, within s (ev e f s) (b e (len s))) ->
  forall k acc f s, within s (star_loop ev k e acc f s) (len s * b e (len s)).
Proof.
  intros Hw Hn He. induction k as [|k IH]; intros acc f s; cbn [star_loop]; [unfold within; cbn; lia|].
  specialize (He [] s). pose proof (Hg e [] s Hw) as G. pose proof (len_ge s) as L1. destruct (ev e [] s) as [v f' s'|s'|s'|]; unfold within in *; cbn [rcnt] in *.
  - destruct G as (G1 & _ & G3). specialize (IH (v :: acc) f s'). pose proof (b_mono e (len s') (len s) (len_ge _) (len_adv _ _ G1)) as M.
    pose proof (len_strict _ _ G1 (G3 Hn)) as L. pose proof (len_ge s'). 
    assert (len s' * b e (len s') + b e (len s) <= len s * b e (len s)); [|lia].
    transitivity (len s' * b e (len s) + b e (len s)); [apply N.add_le_mono_r, N.mul_le_mono_l, M|].
    replace (len s' * b e (len s) + b e (len s)) with ((len s' + 1) * b e (len s)) by lia. now apply N.mul_le_mono_r.
  - transitivity (cnt s + 1 * b e (len s)); [lia|]. apply N.add_le_mono_l, N.mul_le_mono_r. lia.
  - transitivity (cnt s + 1 * b e (len s)); [lia|]. apply N.add_le_mono_l, N.mul_le_mono_r. lia.
  - lia.
Qed.
End Loops.

Lemma throw_within n inv recs0 l recs : Forall (fun p => snd p = ERule RErrUntermStr \/ snd p = ERule RErrUntermRegex) recs ->
  forall f s, within s (throw_loop (eval O n inv recs0) l recs f s) (2 * N.of_nat (length recs)).
Proof.
  induction 1 as [|[ls e] recs He _ IH]; intros f s; cbn [throw_loop length]; [unfold within; cbn; lia|].
  destruct (existsb _ ls); [|specialize (IH f s); unfold within in *; lia]. cbn [snd] in He.
  assert (within s (eval O n inv recs0 e f s) 2).
  { destruct n as [|[|n]]; [unfold within; cbn; lia|destruct He as [-> | ->]; unfold within; cbn; lia|].
    destruct He as [-> | ->]; unfold within; cbn; lia. }
  destruct (eval O n inv recs0 e f s) as [v f' s'|s'|s'|]; unfold within in *; cbn [rcnt] in *; try lia.
  specialize (IH f s'). lia.
Qed.

Lemma poly_max c1 d1 c2 d2 n : 1 <= n -> val_of (c1, d1) n + val_of (c2, d2) n <= val_of (c1 + c2, N.max d1 d2) n.
Proof.
  intros H. unfold val_of. cbn [fst snd]. rewrite N.mul_add_distr_r. apply N.add_le_mono; apply N.mul_le_mono_l, N.pow_le_mono_r; lia.
Qed.
Lemma val_up c d n : 1 <= n -> val_of (c, d) n + 1 <= val_of (c + 1, d) n.
Proof. intros H. unfold val_of. cbn [fst snd]. pose proof (pow_ge1 n d H). lia. Qed.

Lemma small_ok m recs : small_recs m recs -> recs_ok recs.
Proof. intros (H & _). exact H. Qed.

(** The bound of a list as computed by [poly]. *)
Definition poly_list (fuel' m : nat) := fix sum (l : list expr) : option (N * N) :=
  match l with
  | [] => Some (1, 0)
  | e :: l' => match poly fuel' m e, sum l' with Some (c1, d1), Some (c2, d2) => Some (c1 + c2, N.max d1 d2) | _, _ => None end
  end.
Definition bound_by (fuel m : nat) (e : expr) (n : N) : N := match poly fuel m e with Some x => val_of x n | None => 0 end.
Lemma bound_mono fuel m e n n' : 1 <= n -> n <= n' -> bound_by fuel m e n <= bound_by fuel m e n'.
Proof. intros H1 H2. unfold bound_by. destruct (poly fuel m e); [now apply val_mono|lia]. Qed.
Lemma poly_list_sum fuel m l : forall x, poly_list fuel m l = Some x -> forall n, 1 <= n ->
  sum_of (bound_by fuel m) l n + 1 <= val_of x n.
Proof.
  induction l as [|e l IH]; intros x E n H; cbn [poly_list] in E.
  - injection E as <-. cbn. lia.
  - destruct (poly fuel m e) as [[c1 d1]|] eqn:Ee; [|discriminate]. fold (poly_list fuel m l) in E. destruct (poly_list fuel m l) as [[c2 d2]|]; [|discriminate]. injection E as <-.
    specialize (IH _ eq_refl n H). cbn [sum_of fold_right]. fold (sum_of (bound_by fuel m) l n). unfold bound_by at 1. rewrite Ee. pose proof (poly_max c1 d1 c2 d2 n H). lia.
Qed.
Lemma poly_list_each fuel m l x : poly_list fuel m l = Some x -> Forall (fun e => exists y, poly fuel m e = Some y) l.
Proof.
  revert x. induction l as [|e l IH]; intros x E; constructor; cbn [poly_list] in E; fold (poly_list fuel m l) in E; destruct (poly fuel m e) as [[c1 d1]|]; try discriminate; eauto.
  destruct (poly_list fuel m l) as [[c2 d2]|]; [eauto|discriminate].
Qed.

Lemma poly_sound n : forall fuel m inv recs e f s x, poly fuel m e = Some x -> wf e = true -> small_recs m recs ->
  within s (eval O n inv recs e f s) (val_of x (len s)).
Proof.
  induction n as [|n IH]; intros fuel m inv recs e f s0 x E Hw Hr; [unfold within; cbn; lia|].
  destruct fuel as [|fuel]; [discriminate E|].
  assert (Hev : forall inv e f s y, poly fuel m e = Some y -> wf e = true -> within s (eval O n inv recs e f s) (val_of y (len s))) by (intros; eapply IH; eauto).
  assert (Hg : forall inv e f s, wf e = true -> good (pt s) (nullable e) s (eval O n inv recs e f s)) by (intros; apply good_here; auto; eapply small_ok; eauto).
  cbn [eval]. set (s := tick s0). change (len s0) with (len s). pose proof (len_ge s) as L1.
  assert (Up : forall c d r, within s r (val_of (c, d) (len s)) -> within s0 r (val_of (c + 1, d) (len s))).
  { intros c d r H. apply within_tick in H. eapply within_mono; [|exact H]. now apply val_up. }
  assert (One : forall r, within s r 0 -> within s0 r (val_of (1, 0) (len s))).
  { intros r H. apply within_tick in H. eapply within_mono; [|exact H]. unfold val_of. cbn. lia. }
  assert (Tk : forall r c, within s r c -> within s0 r (c + 1)) by (intros; now apply within_tick). clearbody s.
  destruct e as [a e|l|l|l e|r|w ic want|v chars ranges ic invd| |e|e|e|e|e rc ls|l|cd]; cbn [poly] in E; cbn zeta; cbn [wf] in Hw; apply andb_true_iff in Hw as [_ Hw].
  - destruct (poly fuel m e) as [[c d]|] eqn:Ee; [|discriminate]. injection E as <-. apply Up. specialize (Hev inv e f s _ Ee Hw).
    destruct (eval O n inv recs e f s) as [v f' s'|s'|s'|]; auto. destruct (run_action _ _ _ _ _); exact Hev.
  - change (poly_list fuel m l = Some x) in E. eapply within_mono; [apply (poly_list_sum _ _ _ _ E (len s) L1)|]. apply Tk. 
    apply (seq_within _ (bound_by fuel m)); try exact (Hg inv); try (intros; now apply bound_mono).
    rewrite forallb_forall in Hw. rewrite Forall_forall. intros e He. split; [auto|]. intros f1 s1. pose proof (poly_list_each _ _ _ _ E) as F. rewrite Forall_forall in F. destruct (F e He) as (y & Ey).
    unfold bound_by. rewrite Ey. apply Hev; auto.
  - change (poly_list fuel m l = Some x) in E. eapply within_mono; [apply (poly_list_sum _ _ _ _ E (len s) L1)|]. apply Tk. 
    apply (choice_within _ (bound_by fuel m)); try exact (Hg inv); try (intros; now apply bound_mono).
    rewrite forallb_forall in Hw. rewrite Forall_forall. intros e He. split; [auto|]. intros f1 s1. pose proof (poly_list_each _ _ _ _ E) as F. rewrite Forall_forall in F. destruct (F e He) as (y & Ey).
    unfold bound_by. rewrite Ey. apply Hev; auto.
  - destruct (poly fuel m e) as [[c d]|] eqn:Ee; [|discriminate]. injection E as <-. apply Up. specialize (Hev inv e [] s _ Ee Hw).
    destruct (eval O n inv recs e [] s) as [v f' s'|s'|s'|]; auto.
  - assert (E' : exists c d, poly fuel m (rules r) = Some (c, d) /\ x = (c + 1, d)).
    { destruct r; try discriminate E; match goal with |- context [poly fuel m ?R] => destruct (poly fuel m R) as [[c d]|] end; try discriminate E; injection E as <-; eauto. }
    destruct E' as (c & d & Ee & ->). apply Up. specialize (Hev inv (rules r) [] s _ Ee (wf_rules r)).
    destruct (eval O n inv recs (rules r) [] s) as [v f' s'|s'|s'|]; exact Hev.
  - injection E as <-. apply One. destruct (lit_loop_cnt ic w s) as [H1 H2]. destruct (lit_loop ic w s) as [[s'|] s2]; cbn in *; unfold within; cbn [rcnt].
    + rewrite cnt_fail, (H2 s') by auto. lia.
    + rewrite cnt_restore, cnt_fail. lia.
  - injection E as <-. apply One. unfold within. destruct (at_eof _); [cbn [rcnt]; rewrite cnt_fail; lia|]. destruct (xorb _ _); cbn [rcnt]; rewrite cnt_fail, ?cnt_read; lia.
  - injection E as <-. apply One. unfold within. destruct (at_eof _); cbn [rcnt]; rewrite cnt_fail, ?cnt_read; lia.
  - destruct (poly fuel m e) as [[c d]|] eqn:Ee; [|discriminate]. injection E as <-. apply Up. specialize (Hev (negb inv) e [] s _ Ee Hw).
    destruct (eval O n (negb inv) recs e [] s) as [v f' s'|s'|s'|]; unfold within in *; cbn [rcnt] in *; rewrite ?cnt_restore; auto.
  - destruct (poly fuel m e) as [[c d]|] eqn:Ee; [|discriminate]. injection E as <-. apply andb_true_iff in Hw as [Hw Hn]. apply negb_true_iff in Hn.
    apply Up. replace (val_of (c, d + 1) (len s)) with (len s * bound_by fuel m e (len s)).
    2:{ unfold bound_by. rewrite Ee. unfold val_of. cbn [fst snd]. rewrite N.pow_add_r, N.pow_1_r. lia. }
    apply (star_within _ (bound_by fuel m)); auto; [intros; now apply bound_mono|]. intros f1 s1. unfold bound_by. rewrite Ee. apply Hev; auto.
  - destruct (poly fuel m e) as [[c d]|] eqn:Ee; [|discriminate]. injection E as <-. apply andb_true_iff in Hw as [Hw Hn]. apply negb_true_iff in Hn.
    apply Up. assert (G : within s (star_loop (eval O n inv recs) (S (length (rest (pt s)))) e [] f s) (val_of (c, d + 1) (len s))).
    { replace (val_of (c, d + 1) (len s)) with (len s * bound_by fuel m e (len s)).
      2:{ unfold bound_by. rewrite Ee. unfold val_of. cbn [fst snd]. rewrite N.pow_add_r, N.pow_1_r. lia. }
      apply (star_within _ (bound_by fuel m)); auto; [intros; now apply bound_mono|]. intros f1 s1. unfold bound_by. rewrite Ee. apply Hev; auto. }
    destruct (star_loop _ _ _ _ _ _) as [v2 ? ?|?|?|]; auto. destruct v2 as [| |[|]| | | | | | |]; exact G.
  - destruct (poly fuel m e) as [[c d]|] eqn:Ee; [|discriminate]. injection E as <-. apply Up. specialize (Hev inv e [] s _ Ee Hw).
    destruct (eval O n inv recs e [] s) as [v f' s'|s'|s'|]; auto.
  - apply andb_true_iff in Hw as [Hw Hd]. apply andb_true_iff in Hw as [Hw Hrc].
    assert (E' : exists c d, poly fuel (S m) e = Some (c, d) /\ x = (c + 1, d) /\ (rc = ERule RErrUntermStr \/ rc = ERule RErrUntermRegex)).
    { destruct rc as [ | | | |r| | | | | | | | | | ]; try discriminate E. destruct r; try discriminate E; destruct (poly fuel (S m) e) as [[c d]|]; try discriminate E; injection E as <-; exists c, d; auto. }
    destruct E' as (c & d & Ee & -> & Erc). apply Up. eapply IH; eauto. destruct Hr as (R1 & R2 & R3). split; [|split].
    + constructor; auto. split; auto. now apply Nat.leb_le.
    + cbn. lia.
    + constructor; auto.
  - injection E as <-. destruct Hr as (R1 & R2 & R3). pose proof (throw_within n inv recs l recs R3 f s) as T. apply Tk in T. eapply within_mono; [|exact T]. unfold val_of. cbn [fst snd]. rewrite N.pow_0_r. unfold throw_cost. lia.
  - injection E as <-. apply One. unfold within. cbn. lia.
Qed.

(** ** Clauses: [n] bounds the length (plus one), [k] the number of opening parentheses *)
Definition bd (N0 : nat) (e : expr) (n : N) (k : nat) (c : N) : Prop :=
  forall m inv f s, (m <= N0)%nat -> len s <= n -> (parens_in (rest (pt s)) <= k)%nat -> within s (eval O m inv [] e f s) c.

Lemma bd_fuel N0 N1 e n k c : (N1 <= N0)%nat -> bd N0 e n k c -> bd N1 e n k c.
Proof. intros H B m inv f s Hm. apply B. lia. Qed.
Lemma bd_mono N0 e n k c c' : c <= c' -> bd N0 e n k c -> bd N0 e n k c'.
Proof. intros H B m inv f s Hm Hn Hk. eapply within_mono; [exact H|]. now apply B. Qed.
Lemma no_recs : small_recs 0 [].
Proof. split; [constructor|split; [cbn; lia|constructor]]. Qed.
Lemma bd_poly N0 fuel e x n k : poly fuel 0 e = Some x -> wf e = true -> bd N0 e n k (val_of x n).
Proof.
  intros E W m inv f s _ Hn _. eapply within_mono; [apply (val_mono x (len s) n (len_ge _) Hn)|]. eapply poly_sound; eauto. apply no_recs.
Qed.
Lemma bd_action N0 a e n k c : bd N0 e n k c -> bd (S N0) (EAction a e) n k (c + 1).
Proof.
  intros B m inv f s Hm Hn Hk. destruct m as [|m]; [unfold within; cbn; lia|]. cbn [eval]. apply within_tick. cbn zeta.
  assert (H : within (tick s) (eval O m inv [] e f (tick s)) c) by (apply B; auto; lia).
  destruct (eval O m inv [] e f (tick s)); auto. destruct (run_action _ _ _ _ _); exact H.
Qed.
Lemma bd_label N0 l e n k c : bd N0 e n k c -> bd (S N0) (ELabel l e) n k (c + 1).
Proof.
  intros B m inv f s Hm Hn Hk. destruct m as [|m]; [unfold within; cbn; lia|]. cbn [eval]. apply within_tick. cbn zeta.
  assert (H : within (tick s) (eval O m inv [] e [] (tick s)) c) by (apply B; auto; lia).
  destruct (eval O m inv [] e [] (tick s)); auto.
Qed.
Lemma bd_rule N0 r n k c : bd N0 (rules r) n k c -> bd (S N0) (ERule r) n k (c + 1).
Proof.
  intros B m inv f s Hm Hn Hk. destruct m as [|m]; [unfold within; cbn; lia|]. cbn [eval]. apply within_tick. cbn zeta.
  assert (H : within (tick s) (eval O m inv [] (rules r) [] (tick s)) c) by (apply B; auto; lia).
  destruct (eval O m inv [] (rules r) [] (tick s)); auto.
Qed.
Lemma bd_choice N0 es n k c : Forall2 (fun e ci => wf e = true /\ bd N0 e n k ci) es c ->
  bd (S N0) (EChoice es) n k (fold_right N.add 0 c + 1).
Proof.
  intros F m inv f s Hm Hn Hk. destruct m as [|m]; [unfold within; cbn; lia|]. cbn [eval]. apply within_tick. cbn zeta.
  assert (Hn' : len (tick s) <= n) by exact Hn. assert (Hk' : (parens_in (rest (pt (tick s))) <= k)%nat) by exact Hk. revert Hn' Hk'. generalize (tick s). clear s Hn Hk. 
  induction F as [|e ci es c (W & B) _ IH]; intros s Hn Hk; cbn [choice_loop fold_right]; [unfold within; cbn; lia|].
  assert (H : within s (eval O m inv [] e [] s) ci) by (apply B; auto; lia). pose proof (good_here m inv [] e [] s W ltac:(constructor)) as G.
  destruct (eval O m inv [] e [] s) as [v f' s'|s'|s'|]; unfold within in *; cbn [rcnt pop] in *; try lia.
  destruct G as (G1 & _). assert (len s' <= n) by (unfold len in *; now rewrite G1). rewrite <- G1 in Hk. specialize (IH s' H0 Hk). lia.
Qed.

(** The elements of a sequence: after one that consumes, less input is left. *)
Inductive bds (N0 : nat) : list expr -> N -> nat -> N -> Prop :=
| bds_nil n k : bds N0 [] n k 0
| bds_stay e es n k c d : wf e = true -> bd N0 e n k c -> bds N0 es n k d -> bds N0 (e :: es) n k (c + d)
| bds_less e es n k c d : wf e = true -> nullable e = false -> bd N0 e n k c -> (2 <= n -> bds N0 es (n - 1) k d) -> bds N0 (e :: es) n k (c + d)
| bds_paren es n k d w : ((1 <= k)%nat -> 2 <= n -> bds N0 es (n - 1) (k - 1) d) -> bds N0 (ELit [40] false w :: es) n k (1 + d).

Lemma decode_ascii s c : c < 128 -> fst (decode_rune s) = c -> exists s', s = c :: s'.
Proof.
  intros H E. destruct s as [|x s]; [cbn in E; unfold rune_error in E; lia|].
  destruct (decode_rune (x :: s)) as [r w] eqn:Ed. cbn [fst] in E. subst r.
  destruct (decode_rune_ok _ _ _ Ed) as (_ & H2 & _); [unfold rune_error; intros [= E _]; lia|discriminate|].
  rewrite encode_rune_ascii in H2 by exact H. rewrite H2. cbn [app]. eauto.
Qed.

Lemma paren_eval m inv w f s :
  match eval O (S m) inv [] (ELit [40] false w) f s with
  | RVal _ _ s' => exists r, rest (pt s) = 40 :: r /\ rest (pt s') = r /\ cnt s' = cnt s + 1
  | RFail s' => cnt s' = cnt s + 1
  | _ => False
  end.
Proof.
  cbn [eval lit_loop]. cbn zeta. destruct (cur_rune (pt (tick s)) =? 40) eqn:E.
  - apply N.eqb_eq in E. destruct (decode_ascii (rest (pt s)) 40 ltac:(lia) E) as (r & Er). exists r. split; [exact Er|].
    rewrite pt_fail, pt_read, next_point_rest, cnt_fail, cnt_read. cbn [pt tick]. unfold cur_width. rewrite Er. split; reflexivity.
  - rewrite cnt_restore, cnt_fail. reflexivity.
Qed.

Lemma bds_seq N0 start es n k c : bds N0 es n k c -> forall m inv acc f s, (m <= N0)%nat -> len s <= n -> (parens_in (rest (pt s)) <= k)%nat ->
  within s (seq_loop (eval O m inv []) start es acc f s) c.
Proof.
  induction 1 as [n k|e es n k c d W B _ IH|e es n k c d W Nl B _ IH|es n k d w _ IH]; intros m inv acc f s Hm Hn Hk; cbn [seq_loop].
  - unfold within. cbn. lia.
  - specialize (B m inv f s Hm Hn Hk). pose proof (good_here m inv [] e f s W ltac:(constructor)) as G.
    destruct (eval O m inv [] e f s) as [v f' s'|s'|s'|]; unfold within in *; cbn [rcnt] in *; try lia.
    + destruct G as (G1 & _). pose proof (len_adv _ _ G1). pose proof (parens_adv _ _ G1).
      specialize (IH m inv (v :: acc) f' s' Hm ltac:(lia) ltac:(lia)). lia.
    + rewrite cnt_restore. lia.
  - specialize (B m inv f s Hm Hn Hk). pose proof (good_here m inv [] e f s W ltac:(constructor)) as G.
    destruct (eval O m inv [] e f s) as [v f' s'|s'|s'|]; unfold within in *; cbn [rcnt] in *; try lia.
    + destruct G as (G1 & _ & G3). pose proof (len_strict _ _ G1 (G3 Nl)). pose proof (parens_adv _ _ G1). pose proof (len_ge s').
      specialize (IH ltac:(lia) m inv (v :: acc) f' s' Hm ltac:(lia) ltac:(lia)). lia.
    + rewrite cnt_restore. lia.
  - destruct m as [|m]; [unfold within; cbn; lia|]. pose proof (paren_eval m inv w f s) as P.
    destruct (eval O (S m) inv [] (ELit [40] false w) f s) as [v f' s'|s'|s'|]; try contradiction.
    + destruct P as (r & Er & Hp & Hc). unfold len in Hn. rewrite Er in Hn, Hk. unfold parens_in in Hk. rewrite count_occ_cons_eq in Hk by reflexivity. fold (parens_in r) in Hk. cbn [length] in Hn.
      specialize (IH ltac:(lia) ltac:(lia) (S m) inv (v :: acc) f' s' Hm). unfold len in IH. rewrite Hp in IH. specialize (IH ltac:(lia) ltac:(lia)). unfold within in *. lia.
    + unfold within. cbn [rcnt]. rewrite cnt_restore. lia.
Qed.
Lemma bd_seq N0 es n k c : bds N0 es n k c -> bd (S N0) (ESeq es) n k (c + 1).
Proof.
  intros B m inv f s Hm Hn Hk. destruct m as [|m]; [unfold within; cbn; lia|]. cbn [eval]. apply within_tick. cbn zeta.
  apply (bds_seq _ _ _ _ _ _ B); auto. lia.
Qed.

(** ** The bounds *)
Definition base (n : N) : N := 2000 * n ^ 2.
Fixpoint or_bound (k : nat) (n : N) : N :=
  let cmp := base n + match k with 0%nat => 0 | S k' => or_bound k' n end in
  n * (2 * (n * (2 * (2 * cmp + base n) + base n)) + base n).
Definition cmp_bound (k : nat) (n : N) : N := base n + match k with 0%nat => 0 | S k' => or_bound k' n end.
Definition not_bound k n := 2 * cmp_bound k n + base n.
Definition and_bound k n := n * (2 * not_bound k n + base n).
Lemma or_bound_eq k n : or_bound k n = n * (2 * and_bound k n + base n).
Proof. destruct k; reflexivity. Qed.
Lemma base_mono n n' : n <= n' -> base n <= base n'.
Proof. intros H. unfold base. apply N.mul_le_mono_l, N.pow_le_mono_l, H. Qed.
Lemma chain_mono x y n n' : n <= n' -> x <= y -> n * x <= n' * y.
Proof. intros. now apply N.mul_le_mono. Qed.
Lemma or_mono k : forall n n', n <= n' -> or_bound k n <= or_bound k n'.
Proof.
  induction k as [|k IH]; intros n n' H; cbn [or_bound]; pose proof (base_mono n n' H); [|specialize (IH n n' H)];
  (apply chain_mono; [exact H|]; apply N.add_le_mono; [|assumption]; apply N.mul_le_mono_l; apply chain_mono; [exact H|]; lia).
Qed.
Lemma cmp_mono k n n' : n <= n' -> cmp_bound k n <= cmp_bound k n'.
Proof. intros H. unfold cmp_bound. pose proof (base_mono n n' H). destruct k; [lia|]. pose proof (or_mono k n n' H). lia. Qed.
Lemma not_mono k n n' : n <= n' -> not_bound k n <= not_bound k n'.
Proof. intros H. unfold not_bound. pose proof (base_mono n n' H). pose proof (cmp_mono k n n' H). lia. Qed.
Lemma and_mono k n n' : n <= n' -> and_bound k n <= and_bound k n'.
Proof. intros H. unfold and_bound. pose proof (base_mono n n' H). pose proof (not_mono k n n' H). apply chain_mono; lia. Qed.

Lemma bd_down N0 e n k c : bd (S N0) e n k c -> bd N0 e n k c.
Proof. apply bd_fuel. lia. Qed.
(** A rule that does not reach the clauses. *)
Lemma bd_token N0 r x n k : poly 60 0 (ERule r) = Some x -> bd N0 (ERule r) n k (val_of x n).
Proof. intros E. eapply bd_poly; eauto. destruct r; vm_compute; reflexivity. Qed.
Lemma ws_token N0 n k : bd N0 (ERule R_ws) n k (3 * n).
Proof. replace (3 * n) with (val_of (3, 1) n) by (unfold val_of; cbn [fst snd]; now rewrite N.pow_1_r). apply bd_token. vm_compute. reflexivity. Qed.
Lemma space_token N0 n k : bd N0 (ERule Rspace) n k (3 * n).
Proof. replace (3 * n) with (val_of (3, 1) n) by (unfold val_of; cbn [fst snd]; now rewrite N.pow_1_r). apply bd_token. vm_compute. reflexivity. Qed.
Lemma sq n : 1 <= n -> n <= n ^ 2 /\ 1 <= n ^ 2.
Proof. intros H. rewrite N.pow_2_r. nia. Qed.

Ltac seq_stay := eapply bds_stay; [vm_compute; reflexivity| |].
Ltac seq_less := eapply bds_less; [vm_compute; reflexivity|vm_compute; reflexivity| |intros ?].


Lemma keep_action N0 a e n k c : bd N0 e n k c -> bd N0 (EAction a e) n k (c + 1).
Proof. intros B. apply bd_down, bd_action, B. Qed.
Lemma keep_label N0 l e n k c : bd N0 e n k c -> bd N0 (ELabel l e) n k (c + 1).
Proof. intros B. apply bd_down, bd_label, B. Qed.
Lemma keep_rule N0 r n k c : bd N0 (rules r) n k c -> bd N0 (ERule r) n k (c + 1).
Proof. intros B. apply bd_down, bd_rule, B. Qed.
Lemma keep_seq N0 es n k c : bds N0 es n k c -> bd N0 (ESeq es) n k (c + 1).
Proof. intros B. apply bd_down, bd_seq, B. Qed.
Lemma lit_token N0 w ic want n k : forallb (fun c => negb (c =? rune_error)) w = true -> bd N0 (ELit w ic want) n k 1.
Proof. intros W m inv f s Hm Hn Hk. destruct m as [|m]; [unfold within; cbn; lia|]. cbn [eval]. destruct (lit_loop_cnt ic w (tick s)) as [H1 H2].
  unfold within. destruct (lit_loop ic w (tick s)) as [[s'|] s2]; cbn [rcnt fst snd] in *.
  - rewrite cnt_fail, (H2 s') by auto. cbn [tick cnt]. lia.
  - rewrite cnt_restore, cnt_fail, H1. cbn [tick cnt]. lia.
Qed.

Lemma or_step N0 n k : 1 <= n -> bd N0 (rules RAndClause) n k (and_bound k n) ->
  (2 <= n -> bd N0 (rules ROrClause) (n - 1) k (or_bound k (n - 1))) -> bd (S N0) (rules ROrClause) n k (or_bound k n).
Proof.
  intros Hn A R. cbn [rules].
  assert (Sq : bds N0 [ELabel "lhs" (ERule RAndClause); ERule Rspace; ERule RlogicalOR; ERule Rspace; ELabel "rhs" (ERule ROrClause)] n k
    ((and_bound k n + 1 + 1) + (3 * n + (3 * n + (3 * n + (((n - 1) * (2 * and_bound k n + base n) + 1 + 1) + 0)))))).
  { apply bds_less; [vm_compute; reflexivity|vm_compute; reflexivity|apply keep_label, keep_rule, A|]. intros H2.
    assert (M : forall c, c <= n -> forall e, bd N0 e (n - 1) k c -> bd N0 e (n - 1) k c) by auto.
    apply bds_stay; [vm_compute; reflexivity|eapply bd_mono; [|apply space_token]; lia|].
    apply bds_stay; [vm_compute; reflexivity|eapply bd_mono; [|apply keep_rule; apply lit_token; reflexivity]; lia|].
    apply bds_stay; [vm_compute; reflexivity|eapply bd_mono; [|apply space_token]; lia|].
    apply bds_stay; [vm_compute; reflexivity| |apply bds_nil].
    apply keep_label, keep_rule. eapply bd_mono; [|apply R, H2]. rewrite or_bound_eq. apply N.mul_le_mono_l.
    pose proof (and_mono k (n - 1) n ltac:(lia)). pose proof (base_mono (n - 1) n ltac:(lia)). lia. }
  eapply bd_mono; [|eapply bd_choice; eapply Forall2_cons; [split; [vm_compute; reflexivity|apply keep_action, keep_seq, Sq]|
    eapply Forall2_cons; [split; [vm_compute; reflexivity|apply keep_rule, A]|apply Forall2_nil]]].
  cbn [fold_right]. rewrite or_bound_eq. destruct (sq n Hn) as (S1 & S2).
  assert (Eq : n * (2 * and_bound k n + base n) = (n - 1) * (2 * and_bound k n + base n) + (2 * and_bound k n + base n)).
  { replace n with ((n - 1) + 1) at 1 by lia. rewrite N.mul_add_distr_r. lia. }
  rewrite Eq. clear -S1 S2 Hn. generalize ((n - 1) * (2 * and_bound k n + base n)). generalize (and_bound k n). unfold base. intros. lia.
Qed.
Lemma and_step N0 n k : 1 <= n -> bd N0 (rules RNotClause) n k (not_bound k n) ->
  (2 <= n -> bd N0 (rules RAndClause) (n - 1) k (and_bound k (n - 1))) -> bd (S N0) (rules RAndClause) n k (and_bound k n).
Proof.
  intros Hn A R. cbn [rules].
  assert (Sq : bds N0 [ELabel "lhs" (ERule RNotClause); ERule Rspace; ERule RlogicalAND; ERule Rspace; ELabel "rhs" (ERule RAndClause)] n k
    ((not_bound k n + 1 + 1) + (3 * n + (3 * n + (3 * n + (((n - 1) * (2 * not_bound k n + base n) + 1 + 1) + 0)))))).
  { apply bds_less; [vm_compute; reflexivity|vm_compute; reflexivity|apply keep_label, keep_rule, A|]. intros H2.
    apply bds_stay; [vm_compute; reflexivity|eapply bd_mono; [|apply space_token]; lia|].
    apply bds_stay; [vm_compute; reflexivity|eapply bd_mono; [|apply keep_rule; apply lit_token; reflexivity]; lia|].
    apply bds_stay; [vm_compute; reflexivity|eapply bd_mono; [|apply space_token]; lia|].
    apply bds_stay; [vm_compute; reflexivity| |apply bds_nil].
    apply keep_label, keep_rule. eapply bd_mono; [|apply R, H2]. unfold and_bound. apply N.mul_le_mono_l.
    pose proof (not_mono k (n - 1) n ltac:(lia)). pose proof (base_mono (n - 1) n ltac:(lia)). lia. }
  eapply bd_mono; [|eapply bd_choice; eapply Forall2_cons; [split; [vm_compute; reflexivity|apply keep_action, keep_seq, Sq]|
    eapply Forall2_cons; [split; [vm_compute; reflexivity|apply keep_rule, A]|apply Forall2_nil]]].
  cbn [fold_right]. unfold and_bound. destruct (sq n Hn) as (S1 & S2).
  assert (Eq : n * (2 * not_bound k n + base n) = (n - 1) * (2 * not_bound k n + base n) + (2 * not_bound k n + base n)).
  { replace n with ((n - 1) + 1) at 1 by lia. rewrite N.mul_add_distr_r. lia. }
  rewrite Eq. clear -S1 S2 Hn. generalize ((n - 1) * (2 * not_bound k n + base n)). generalize (not_bound k n). unfold base. intros. lia.
Qed.
Lemma not_step N0 n k : 1 <= n -> bd N0 (rules RComparison) n k (cmp_bound k n) -> bd (S N0) (rules RNotClause) n k (not_bound k n).
Proof.
  intros Hn A. cbn [rules].
  assert (T : bd N0 (ERule RlogicalNOT) n k (13 * n)).
  { replace (13 * n) with (val_of (13, 1) n) by (unfold val_of; cbn [fst snd]; now rewrite N.pow_1_r). apply bd_token. vm_compute. reflexivity. }
  assert (Sq : bds N0 [ERule RlogicalNOT; ELabel "cmp" (ERule RComparison)] n k (13 * n + ((cmp_bound k n + 1 + 1) + 0))).
  { apply bds_stay; [vm_compute; reflexivity|exact T|]. apply bds_stay; [vm_compute; reflexivity|apply keep_label, keep_rule, A|apply bds_nil]. }
  eapply bd_mono; [|eapply bd_choice; eapply Forall2_cons; [split; [vm_compute; reflexivity|apply keep_action, keep_seq, Sq]|
    eapply Forall2_cons; [split; [vm_compute; reflexivity|apply keep_rule, A]|apply Forall2_nil]]].
  cbn [fold_right]. unfold not_bound. destruct (sq n Hn) as (S1 & S2). unfold base. lia.
Qed.
Lemma cmp_step N0 n k : 1 <= n -> (forall k', k = S k' -> 2 <= n -> bd N0 (rules ROrClause) (n - 1) k' (or_bound k' (n - 1))) ->
  bd (S N0) (rules RComparison) n k (cmp_bound k n).
Proof.
  intros Hn A. cbn [rules].
  assert (Sq : bds N0 [ELit [40] false """("""; ERule R_ws; ELabel "query" (ERule ROrClause); ERule R_ws; ELit [41] false """)"""] n k
    (1 + (3 * n + ((match k with 0%nat => 0 | S k' => or_bound k' n end + 1 + 1) + (3 * n + (1 + 0)))))).
  { apply bds_paren. intros Hk H2. destruct k as [|k]; [lia|]. replace (S k - 1)%nat with k by lia.
    apply bds_stay; [vm_compute; reflexivity|eapply bd_mono; [|apply ws_token]; lia|].
    apply bds_stay; [vm_compute; reflexivity| |].
    - apply keep_label, keep_rule. eapply bd_mono; [|apply (A k eq_refl H2)]. apply or_mono. lia.
    - apply bds_stay; [vm_compute; reflexivity|eapply bd_mono; [|apply ws_token]; lia|].
      apply bds_stay; [vm_compute; reflexivity|apply lit_token; reflexivity|apply bds_nil]. }
  eapply bd_mono; [|eapply bd_choice; eapply Forall2_cons; [split; [vm_compute; reflexivity|apply keep_action, keep_seq, Sq]|
    eapply Forall2_cons; [split; [vm_compute; reflexivity|eapply bd_poly with (fuel := 60%nat); vm_compute; reflexivity]|
    eapply Forall2_cons; [split; [vm_compute; reflexivity|eapply bd_poly with (fuel := 60%nat); vm_compute; reflexivity]|apply Forall2_nil]]]].
  cbn [fold_right]. unfold cmp_bound, val_of. cbn [fst snd]. destruct (sq n Hn) as (S1 & S2). unfold base. generalize (match k with 0%nat => 0 | S k' => or_bound k' n end). intros. lia.
Qed.

Lemma clause_bounds N0 : forall n k, 1 <= n ->
  bd N0 (rules ROrClause) n k (or_bound k n) /\ bd N0 (rules RAndClause) n k (and_bound k n) /\
  bd N0 (rules RNotClause) n k (not_bound k n) /\ bd N0 (rules RComparison) n k (cmp_bound k n).
Proof.
  induction N0 as [|N0 IH]; intros n k Hn.
  - assert (Z0 : forall e c, bd 0 e n k c) by (intros e c m inv f s Hm; replace m with 0%nat by lia; unfold within; cbn; lia). auto.
  - destruct (IH n k Hn) as (I1 & I2 & I3 & I4). split; [|split; [|split]].
    + apply or_step; auto. intros H2. apply IH. lia.
    + apply and_step; auto. intros H2. apply IH. lia.
    + apply not_step; auto.
    + apply cmp_step; auto. intros k' -> H2. apply IH. lia.
Qed.

(** In closed form. *)
Lemma or_closed k n : 1 <= n -> or_bound k n <= base n * (23 * n ^ 2) ^ (N.of_nat k + 1).
Proof.
  intros Hn. destruct (sq n Hn) as (S1 & S2). induction k as [|k IH].
  - change (N.of_nat 0 + 1) with 1. rewrite N.pow_1_r. cbn [or_bound]. rewrite N.pow_2_r. unfold base. rewrite N.pow_2_r. nia.
  - replace (N.of_nat (S k) + 1) with (N.succ (N.of_nat k + 1)) by lia. rewrite N.pow_succ_r'.
    assert (P : 1 <= (23 * n ^ 2) ^ (N.of_nat k + 1)) by (apply pow_ge1; lia).
    revert IH P. generalize ((23 * n ^ 2) ^ (N.of_nat k + 1)). intros y IH P. cbn [or_bound]. 
    assert (B : base n <= base n * y) by nia.
    assert (Hm : n * (2 * (n * (2 * (2 * (base n + or_bound k n) + base n) + base n)) + base n) <= n * (2 * (n * (2 * (2 * (base n * y + base n * y) + base n * y) + base n * y)) + base n * y)).
    { apply N.mul_le_mono_l, N.add_le_mono; [|exact B]. apply N.mul_le_mono_l, N.mul_le_mono_l. lia. }
    eapply N.le_trans; [exact Hm|]. replace (base n * (23 * n ^ 2 * y)) with (23 * n ^ 2 * (base n * y)) by lia. generalize (base n * y). intros z.
    rewrite N.pow_2_r. assert (n * z <= n * n * z) by nia. lia.
Qed.

Lemma run_bound q : let n := 1 + N.of_nat (length q) in
  rcnt (run O q) <= or_bound (parens_in q) n + 12 * n + 20.
Proof.
  intros n. assert (Hn : 1 <= n) by (unfold n; lia). set (k := parens_in q).
  assert (B : forall N0, bd N0 (rules RStart) n k (or_bound k n + 12 * n + 20)).
  { intros N0. destruct (clause_bounds N0 n k Hn) as (Or & _).
    assert (Q : bd N0 (rules RQuery) n k ((3 * n + ((or_bound k n + 1 + 1) + (3 * n + 0))) + 1 + 1)).
    { cbn [rules]. apply keep_action, keep_seq. apply bds_stay; [vm_compute; reflexivity|apply ws_token|].
      apply bds_stay; [vm_compute; reflexivity|apply keep_label, keep_rule, Or|]. apply bds_stay; [vm_compute; reflexivity|apply ws_token|apply bds_nil]. }
    assert (E : bd N0 (ERule REOF) n k 3) by (apply (bd_token N0 REOF (3, 0)); vm_compute; reflexivity).
    eapply bd_mono; [|cbn [rules]; apply keep_action, keep_seq; apply bds_stay; [vm_compute; reflexivity|apply keep_label, keep_rule, Q|];
      apply bds_stay; [vm_compute; reflexivity|exact E|apply bds_nil]]. lia. }
  specialize (B (fuel_for q) (fuel_for q) false [] (init_state q) (le_n _)).
  assert (Pt : rest (pt (init_state q)) = q) by (rewrite pt_init; reflexivity).
  unfold len in B. rewrite Pt in B. specialize (B ltac:(unfold n; lia) (le_n _)). unfold within in B. fold (run O q) in B.
  replace (cnt (init_state q)) with 0 in B; [exact B|]. unfold init_state, read_at. destruct (_ =? 10); cbn; destruct (_ && _); reflexivity.
Qed.

Lemma run_closed q : let n := 1 + N.of_nat (length q) in
  rcnt (run O q) <= 2100 * n ^ 2 * (23 * n ^ 2) ^ (N.of_nat (parens_in q) + 1).
Proof.
  intros n. assert (Hn : 1 <= n) by (unfold n; lia). pose proof (run_bound q) as B. cbn zeta in B. fold n in B. pose proof (or_closed (parens_in q) n Hn) as C. destruct (sq n Hn) as (S1 & S2).
  assert (P : 1 <= (23 * n ^ 2) ^ (N.of_nat (parens_in q) + 1)) by (apply pow_ge1; lia). revert P C. generalize ((23 * n ^ 2) ^ (N.of_nat (parens_in q) + 1)). intros y P C. unfold base in C.
  assert (n ^ 2 <= n ^ 2 * y) by nia. lia.
Qed.
End V.
