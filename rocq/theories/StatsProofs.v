(** Proofs about statistics. *)
From Verif Require Import Bytes GoTime Oracles Ast AstSpec Json JsonSpec JsonProofs Values StrMatch Matcher MatchSpec MatchProofs MatchApi MatcherTop Stats StatsSpec.
From Coq Require Import ZifyBool ZifyN ZifyNat Permutation.

Lemma way_eqb_eq x y : way_eqb x y = true <-> x = y.
Proof.
  revert y. induction x as [|a x IH]; intros [|c y]; cbn; split; try discriminate; try reflexivity.
  - intros H. apply andb_prop in H as [H1 H2]. apply IH in H2 as ->. destruct a, c; try discriminate; reflexivity.
  - intros [= -> ->]. rewrite (proj2 (IH y) eq_refl). now destruct c.
Qed.
Lemma counter_eqb_eq x y : counter_eqb x y = true <-> x = y.
Proof. destruct x, y; cbn; split; congruence. Qed.

(** Number of increments of one counter. *)
Definition is_inc (p : list dir) (w : counter) (a : action) : bool :=
  match a with AInc q v => way_eqb q p && counter_eqb v w | _ => false end.
Definition cnt (p : list dir) (w : counter) (t : list action) : nat := length (filter (is_inc p w) t).

Lemma cnt_app p w t u : cnt p w (t ++ u) = (cnt p w t + cnt p w u)%nat.
Proof. unfold cnt. now rewrite filter_app, app_length. Qed.
Lemma cnt_mark_self p w c : cnt p w (mark_steps p c) = match w with Checked => 1%nat | Matched => if c then 1%nat else 0%nat end.
Proof.
  unfold cnt, mark_steps. assert (E : way_eqb p p = true) by now apply way_eqb_eq.
  destruct c, w; cbn; rewrite ?E; cbn; rewrite ?E; reflexivity.
Qed.
Lemma cnt_mark_other p q w c : q <> p -> cnt q w (mark_steps p c) = 0%nat.
Proof.
  intros N. unfold cnt, mark_steps. assert (E : way_eqb p q = false) by (destruct (way_eqb p q) eqn:E; [apply way_eqb_eq in E; congruence|reflexivity]).
  destruct c; cbn; rewrite ?E; cbn; rewrite ?E; reflexivity.
Qed.

Section WithOracles.
Context (O : oracles).

Lemma trace_other m : forall p root a t q w, trace O m p root = Ok (a, t) -> (forall p', q <> p ++ p') -> cnt q w t = 0%nat.
Proof.
  induction m as [l IHl r IHr st|l IHl r IHr st|e IHe st|path es st]; intros p root a t q w; cbn [trace]; intros E N.
  - assert (Np : q <> p) by (intros ->; apply (N []); now rewrite app_nil_r).
    assert (Nd : forall d p', q <> (p ++ [d]) ++ p') by (intros d p'; rewrite <- app_assoc; apply N).
    destruct (trace O l _ root) as [[x t1]|] eqn:El; [|discriminate]. cbn in E. destruct x.
    + destruct (trace O r _ root) as [[y t2]|] eqn:Er; [|discriminate]. injection E as <- <-.
      rewrite !cnt_app, cnt_mark_other, (IHl _ _ _ _ q w El (Nd _)), (IHr _ _ _ _ q w Er (Nd _)) by assumption. reflexivity.
    + injection E as <- <-. rewrite cnt_app, cnt_mark_other, (IHl _ _ _ _ q w El (Nd _)) by assumption. reflexivity.
  - assert (Np : q <> p) by (intros ->; apply (N []); now rewrite app_nil_r).
    assert (Nd : forall d p', q <> (p ++ [d]) ++ p') by (intros d p'; rewrite <- app_assoc; apply N).
    destruct (trace O l _ root) as [[x t1]|] eqn:El; [|discriminate]. cbn in E. destruct x.
    + injection E as <- <-. rewrite cnt_app, cnt_mark_other, (IHl _ _ _ _ q w El (Nd _)) by assumption. reflexivity.
    + destruct (trace O r _ root) as [[y t2]|] eqn:Er; [|discriminate]. injection E as <- <-.
      rewrite !cnt_app, cnt_mark_other, (IHl _ _ _ _ q w El (Nd _)), (IHr _ _ _ _ q w Er (Nd _)) by assumption. reflexivity.
  - assert (Np : q <> p) by (intros ->; apply (N []); now rewrite app_nil_r).
    assert (Nd : forall d p', q <> (p ++ [d]) ++ p') by (intros d p'; rewrite <- app_assoc; apply N).
    destruct (trace O e _ root) as [[x t1]|] eqn:El; [|discriminate]. injection E as <- <-.
    rewrite cnt_app, cnt_mark_other, (IHe _ _ _ _ q w El (Nd _)) by assumption. reflexivity.
  - assert (Np : q <> p) by (intros ->; apply (N []); now rewrite app_nil_r).
    destruct (expr_result O path es root) as [x|]; [|discriminate]. injection E as <- <-. now apply cnt_mark_other.
Qed.

Lemma trace_dir m d p root a t q w : trace O m (p ++ [d]) root = Ok (a, t) -> hd_error q <> Some d -> cnt (p ++ q) w t = 0%nat.
Proof.
  intros E N. apply (trace_other _ _ _ _ _ (p ++ q) w E). intros p' K. rewrite <- app_assoc in K. apply app_inv_head in K. subst q. now apply N.
Qed.
Lemma trace_same m d p root a t q w : trace O m (p ++ [d]) root = Ok (a, t) -> cnt (p ++ d :: q) w t = cnt ((p ++ [d]) ++ q) w t.
Proof. intros _. now rewrite <- app_assoc. Qed.

Lemma mem_child m d p w : mem_of m (d :: p) w = match child m d with Some c => mem_of c p w | None => 0%Z end.
Proof. unfold mem_of. cbn. now destruct (child m d). Qed.

(** The steps of an evaluation have the effect of the evaluation. *)
Lemma trace_result m : forall p root,
  match result O m root with
  | Ok (a, m') => exists t, trace O m p root = Ok (a, t) /\ forall q w, mem_of m' q w = Nat.iter (cnt (p ++ q) w t) bump (mem_of m q w)
  | Panic => trace O m p root = Panic
  end.
Proof.
  assert (Self : forall p q c w, q <> [] -> cnt (p ++ q) w (mark_steps p c) = 0%nat).
  { intros p q c w N. apply cnt_mark_other. intros K. apply N. rewrite <- (app_nil_r p) in K at 2. now apply app_inv_head in K. }
  assert (Mk : forall p c w, cnt (p ++ []) w (mark_steps p c) = match w with Checked => 1%nat | Matched => if c then 1%nat else 0%nat end).
  { intros. rewrite app_nil_r. apply cnt_mark_self. }
  induction m as [l IHl r IHr st|l IHl r IHr st|e IHe st|path es st]; intros p root; cbn [result trace].
  - specialize (IHl (p ++ [DLeft]) root). destruct (result O l root) as [[a l']|]; [|now rewrite IHl]. destruct IHl as (t1 & E1 & H1). rewrite E1. cbn [bind].
    assert (D1 : forall q w, hd_error q <> Some DLeft -> cnt (p ++ q) w t1 = 0%nat) by (intros; eapply trace_dir; eassumption).
    destruct a.
    + specialize (IHr (p ++ [DRight]) root). destruct (result O r root) as [[c r']|]; [|now rewrite IHr]. destruct IHr as (t2 & E2 & H2). rewrite E2. cbn [bind].
      assert (D2 : forall q w, hd_error q <> Some DRight -> cnt (p ++ q) w t2 = 0%nat) by (intros; eapply trace_dir; eassumption).
      eexists. split; [reflexivity|]. intros [|d q] w; rewrite !cnt_app.
      * rewrite D1, D2, Mk by discriminate. unfold mem_of. cbn. now destruct w, c.
      * rewrite Self by discriminate. rewrite !mem_child. destruct d; cbn [child].
        -- rewrite D2 by discriminate. rewrite (trace_same _ _ _ _ _ _ q w E1), H1. do 2 f_equal; lia.
        -- rewrite D1 by discriminate. rewrite (trace_same _ _ _ _ _ _ q w E2), H2. do 2 f_equal; lia.
        -- now rewrite D1, D2 by discriminate.
    + eexists. split; [reflexivity|]. intros [|d q] w; rewrite !cnt_app.
      * rewrite D1, Mk by discriminate. unfold mem_of. cbn. now destruct w.
      * rewrite Self by discriminate. rewrite !mem_child. destruct d; cbn [child].
        -- rewrite (trace_same _ _ _ _ _ _ q w E1), H1. do 2 f_equal; lia.
        -- now rewrite D1 by discriminate.
        -- now rewrite D1 by discriminate.
  - specialize (IHl (p ++ [DLeft]) root). destruct (result O l root) as [[a l']|]; [|now rewrite IHl]. destruct IHl as (t1 & E1 & H1). rewrite E1. cbn [bind].
    assert (D1 : forall q w, hd_error q <> Some DLeft -> cnt (p ++ q) w t1 = 0%nat) by (intros; eapply trace_dir; eassumption).
    destruct a.
    + eexists. split; [reflexivity|]. intros [|d q] w; rewrite !cnt_app.
      * rewrite D1, Mk by discriminate. unfold mem_of. cbn. now destruct w.
      * rewrite Self by discriminate. rewrite !mem_child. destruct d; cbn [child].
        -- rewrite (trace_same _ _ _ _ _ _ q w E1), H1. do 2 f_equal; lia.
        -- now rewrite D1 by discriminate.
        -- now rewrite D1 by discriminate.
    + specialize (IHr (p ++ [DRight]) root). destruct (result O r root) as [[c r']|]; [|now rewrite IHr]. destruct IHr as (t2 & E2 & H2). rewrite E2. cbn [bind].
      assert (D2 : forall q w, hd_error q <> Some DRight -> cnt (p ++ q) w t2 = 0%nat) by (intros; eapply trace_dir; eassumption).
      eexists. split; [reflexivity|]. intros [|d q] w; rewrite !cnt_app.
      * rewrite D1, D2, Mk by discriminate. unfold mem_of. cbn. now destruct w, c.
      * rewrite Self by discriminate. rewrite !mem_child. destruct d; cbn [child].
        -- rewrite D2 by discriminate. rewrite (trace_same _ _ _ _ _ _ q w E1), H1. do 2 f_equal; lia.
        -- rewrite D1 by discriminate. rewrite (trace_same _ _ _ _ _ _ q w E2), H2. do 2 f_equal; lia.
        -- now rewrite D1, D2 by discriminate.
  - specialize (IHe (p ++ [DSub]) root). destruct (result O e root) as [[a e']|]; [|now rewrite IHe]. destruct IHe as (t1 & E1 & H1). rewrite E1. cbn [bind].
    assert (D1 : forall q w, hd_error q <> Some DSub -> cnt (p ++ q) w t1 = 0%nat) by (intros; eapply trace_dir; eassumption).
    eexists. split; [reflexivity|]. intros [|d q] w; rewrite !cnt_app.
    + rewrite D1, Mk by discriminate. unfold mem_of. cbn. now destruct w, (negb a).
    + rewrite Self by discriminate. rewrite !mem_child. destruct d; cbn [child].
      * now rewrite D1 by discriminate.
      * now rewrite D1 by discriminate.
      * rewrite (trace_same _ _ _ _ _ _ q w E1), H1. do 2 f_equal; lia.
  - destruct (expr_result O path es root) as [a|]; [|reflexivity]. cbn [bind]. eexists. split; [reflexivity|]. intros [|d q] w.
    + rewrite Mk. unfold mem_of. cbn. now destruct w, a.
    + rewrite Self by discriminate. rewrite !mem_child. now destruct d.
Qed.

(** The steps do not depend on the counters. *)
Lemma trace_shape m : forall m' p root, shape m = shape m' -> trace O m p root = trace O m' p root.
Proof.
  induction m as [l IHl r IHr st|l IHl r IHr st|e IHe st|path es st]; intros [l' r' st'|l' r' st'|e' st'|path' es' st'] p root; cbn [shape]; intros E; try discriminate; cbn [trace].
  - injection E as El Er _. rewrite (IHl l' _ root El). destruct (trace O l' _ root) as [[[] t]|]; [|reflexivity|reflexivity]. cbn [bind]. now rewrite (IHr r' _ root Er).
  - injection E as El Er _. rewrite (IHl l' _ root El). destruct (trace O l' _ root) as [[[] t]|]; [reflexivity| |reflexivity]. cbn [bind]. now rewrite (IHr r' _ root Er).
  - injection E as Ee _. now rewrite (IHe e' _ root Ee).
  - injection E as -> -> _. reflexivity.
Qed.
Lemma program_shape m m' c : shape m = shape m' -> program O m c = program O m' c.
Proof. intros E. destruct c as [d|]; [|reflexivity]. cbn. destruct (parse_json d); [|reflexivity]. now rewrite (trace_shape m m' [] _ E). Qed.

(** One call. *)
Lemma match_program m d :
  match match_doc O m d with
  | Ok (r, m') => exists t, program O m (CMatch d) = Ok (t ++ [ARet r]) /\ (forall q w, mem_of m' q w = Nat.iter (cnt q w t) bump (mem_of m q w)) /\ shape m' = shape m
  | Panic => program O m (CMatch d) = Panic
  end.
Proof.
  unfold match_doc. cbn [program]. destruct (parse_json d) as [root|].
  - pose proof (trace_result m [] root) as T. pose proof (result_ev O m root) as S. destruct (result O m root) as [[a m']|]; cbn [bind].
    + destruct T as (t & -> & H). cbn [bind]. exists t. split; [reflexivity|]. split; [exact H|apply S].
    + now rewrite T.
  - exists []. split; [reflexivity|]. split; [reflexivity|reflexivity].
Qed.

(** Increments made by the calls of Match on the given texts. *)
Definition work (m : mnode) (p : list dir) (w : counter) (d : bytes) : nat :=
  match program O m (CMatch d) with Ok t => cnt p w t | Panic => 0%nat end.

Lemma work_shape m m' p w d : shape m = shape m' -> work m p w d = work m' p w d.
Proof. intros E. unfold work. now rewrite (program_shape m m' _ E). Qed.

Lemma iter_add {A} (f : A -> A) i j x : Nat.iter (i + j) f x = Nat.iter i f (Nat.iter j f x).
Proof. induction i as [|i IH]; [reflexivity|]. exact (f_equal f IH). Qed.

Lemma session_work m ds m' : session O m ds m' -> shape m' = shape m /\
  forall p w, mem_of m' p w = Nat.iter (list_sum (map (work m p w) ds)) bump (mem_of m p w).
Proof.
  induction 1 as [m|m1 m2 m3 d r ds E _ (Sh & IH)]; [now split|]. pose proof (match_program m1 d) as H. rewrite E in H. destruct H as (t & P & H & Sh2).
  split; [congruence|]. intros p w. rewrite IH, H. cbn [map list_sum fold_right]. rewrite (Nat.add_comm (work m1 p w d)). change (fold_right Nat.add 0%nat (map (work m1 p w) ds)) with (list_sum (map (work m1 p w) ds)).
  rewrite iter_add. replace (map (work m1 p w) ds) with (map (work m2 p w) ds) by (apply map_ext; intros; now apply work_shape).
  f_equal. unfold work. rewrite P. rewrite cnt_app. cbn. now rewrite Nat.add_0_r.
Qed.

Lemma session_exists ds : forall m, (forall d, In d ds -> program O m (CMatch d) <> Panic) -> exists m', session O m ds m'.
Proof.
  induction ds as [|d ds IH]; intros m H; [exists m; constructor|]. pose proof (match_program m d) as P. destruct (match_doc O m d) as [[r m2]|] eqn:E.
  - destruct P as (_ & _ & _ & Sh). destruct (IH m2) as (m3 & S3).
    { intros d' I. rewrite (program_shape m2 m _ Sh). apply H. now right. }
    exists m3. econstructor; eassumption.
  - exfalso. apply (H d); [now left|exact P].
Qed.

Lemma programs_split m cs acts : programs O m cs = Ok acts ->
  (forall d, In d (texts cs) -> program O m (CMatch d) <> Panic) /\
  (forall p w, cnt p w acts = list_sum (map (work m p w) (texts cs))).
Proof.
  revert acts. induction cs as [|c cs IH]; intros acts; cbn [programs].
  - intros [= <-]. split; [intros d []|reflexivity].
  - destruct (program O m c) as [t|] eqn:Ec; [|discriminate]. cbn [bind]. destruct (programs O m cs) as [u|] eqn:Ecs; [|discriminate]. cbn [bind]. intros [= <-].
    destruct (IH u eq_refl) as (H1 & H2). unfold texts in *. cbn [flat_map]. destruct c as [d|].
    + split.
      * intros d' [<-|I]; [congruence|now apply H1].
      * intros p w. rewrite cnt_app, H2. cbn [app map list_sum fold_right]. f_equal. unfold work. now rewrite Ec.
    + split; [exact H1|]. intros p w. rewrite cnt_app, H2. injection Ec as <-. reflexivity.
Qed.
End WithOracles.

(** ** Executions *)
Definition total (p : list dir) (w : counter) (ts : list thread) : nat := list_sum (map (fun th => cnt p w (todo th)) ts).

Lemma total_app p w a c : total p w (a ++ c) = (total p w a + total p w c)%nat.
Proof. unfold total. now rewrite map_app, list_sum_app. Qed.

Lemma iter_succ {A} (f : A -> A) k x : f (Nat.iter k f x) = Nat.iter (S k) f x.
Proof. reflexivity. Qed.

Lemma steps_memory s s' : steps s s' -> forall p w, exists k,
  fst s' p w = Nat.iter k bump (fst s p w) /\ (k + total p w (snd s') = total p w (snd s))%nat.
Proof.
  induction 1 as [s|s1 s2 s3 _ IH St]; intros p w; [exists 0%nat; split; [reflexivity|lia]|]. destruct (IH p w) as (k & E & T).
  destruct St as [mu bf a rest ev af]. cbn [fst snd] in *. rewrite total_app in *. unfold total in T at 2. unfold total at 2. cbn [map list_sum fold_right todo] in *.
  change (fold_right Nat.add 0%nat (map (fun th => cnt p w (todo th)) af)) with (total p w af) in *.
  assert (C : cnt p w (a :: rest) = ((if is_inc p w a then 1 else 0) + cnt p w rest)%nat) by (unfold cnt; cbn; destruct (is_inc p w a); reflexivity).
  rewrite C in T. destruct a as [q v|q v|r]; cbn [exec fst is_inc] in *.
  - destruct (way_eqb q p && counter_eqb v w) eqn:Eq.
    + exists (S k). split; [rewrite E; apply iter_succ|lia].
    + exists k. split; [exact E|lia].
  - exists k. split; [exact E|lia].
  - exists k. split; [exact E|lia].
Qed.

Definition returns (t : list action) : list (option bool) := flat_map (fun a => match a with ARet r => [r] | _ => [] end) t.

Lemma steps_results s s' : steps s s' ->
  Forall2 (fun t0 t => results (seen t) ++ returns (todo t) = results (seen t0) ++ returns (todo t0)) (snd s) (snd s').
Proof.
  induction 1 as [s|s1 s2 s3 _ IH St].
  - induction (snd s); constructor; auto.
  - destruct St as [mu bf a rest ev af]. cbn [fst snd] in *. apply Forall2_app_inv_r in IH as (l1 & l2 & H1 & H2 & E). rewrite E.
    apply Forall2_app; [exact H1|]. inversion H2 as [|x y l l' R RR E1 E2]; subst. constructor; [|exact RR]. cbn [seen todo] in *. rewrite <- R.
    unfold results, returns. rewrite flat_map_app. cbn [flat_map]. rewrite <- !app_assoc. f_equal. destruct a; reflexivity.
Qed.

Lemma finished_total ts p w : finished ts -> total p w ts = 0%nat.
Proof. induction 1 as [|th ts E _ IH]; [reflexivity|]. unfold total in *. cbn [map list_sum fold_right]. rewrite E. exact IH. Qed.

Lemma returns_app t u : returns (t ++ u) = returns t ++ returns u.
Proof. apply flat_map_app. Qed.

Lemma trace_returns O m : forall p root a t, trace O m p root = Ok (a, t) -> returns t = [].
Proof.
  assert (Mk : forall p c, returns (mark_steps p c) = []) by (intros p []; reflexivity).
  induction m as [l IHl r IHr st|l IHl r IHr st|e IHe st|path es st]; intros p root a t; cbn [trace].
  - destruct (trace O l _ root) as [[x t1]|] eqn:El; [|discriminate]. cbn. apply IHl in El. destruct x.
    + destruct (trace O r _ root) as [[y t2]|] eqn:Er; [|discriminate]. apply IHr in Er. intros [= <- <-]. rewrite !returns_app, El, Er. apply Mk.
    + intros [= <- <-]. rewrite !returns_app, El. reflexivity.
  - destruct (trace O l _ root) as [[x t1]|] eqn:El; [|discriminate]. cbn. apply IHl in El. destruct x.
    + intros [= <- <-]. rewrite !returns_app, El. reflexivity.
    + destruct (trace O r _ root) as [[y t2]|] eqn:Er; [|discriminate]. apply IHr in Er. intros [= <- <-]. rewrite !returns_app, El, Er. apply Mk.
  - destruct (trace O e _ root) as [[x t1]|] eqn:El; [|discriminate]. cbn. apply IHe in El. intros [= <- <-]. rewrite !returns_app, El. apply Mk.
  - destruct (expr_result O path es root) as [x|]; [|discriminate]. intros [= <- <-]. apply Mk.
Qed.

Lemma program_returns O m d t : program O m (CMatch d) = Ok t -> exists r m', match_doc O m d = Ok (r, m') /\ returns t = [r].
Proof.
  intros E. pose proof (match_program O m d) as H. destruct (match_doc O m d) as [[r m']|]; [|congruence]. destruct H as (u & P & _). exists r, m'. split; [reflexivity|].
  rewrite E in P. injection P as ->. rewrite returns_app. cbn [program] in E. destruct (parse_json d) as [root|].
  - destruct (trace O m [] root) as [[a v]|] eqn:T; [|discriminate]. cbn in E. injection E as E. apply app_inj_tail in E as (<- & [= <-]). now rewrite (trace_returns _ _ _ _ _ _ T).
  - injection E as E. change [ARet None] with ([] ++ [ARet None]) in E. apply app_inj_tail in E as (<- & [= <-]). reflexivity.
Qed.
Lemma programs_returns O m cs acts : programs O m cs = Ok acts ->
  Forall2 (fun d r => exists m', match_doc O m d = Ok (r, m')) (texts cs) (returns acts).
Proof.
  revert acts. induction cs as [|c cs IH]; intros acts; cbn [programs].
  - intros [= <-]. constructor.
  - destruct (program O m c) as [t|] eqn:Ec; [|discriminate]. cbn [bind]. destruct (programs O m cs) as [u|] eqn:Ecs; [|discriminate]. cbn [bind]. intros [= <-].
    rewrite returns_app. specialize (IH u eq_refl). unfold texts in *. cbn [flat_map]. destruct c as [d|].
    + destruct (program_returns _ _ _ _ Ec) as (r & m' & E & ->). cbn [app]. constructor; [eauto|exact IH].
    + injection Ec as <-. exact IH.
Qed.

(** ** Running a given schedule *)
Fixpoint advance (i : nat) (mu : memory) (ts : list thread) : option (memory * list thread) :=
  match ts, i with
  | [], _ => None
  | th :: ts', 0%nat =>
    match todo th with
    | [] => None
    | a :: rest => Some (fst (exec mu a), {| todo := rest; seen := seen th ++ snd (exec mu a) |} :: ts')
    end
  | th :: ts', S i' => match advance i' mu ts' with Some (mu', ts'') => Some (mu', th :: ts'') | None => None end
  end.
Fixpoint schedule (is : list nat) (s : memory * list thread) : option (memory * list thread) :=
  match is with
  | [] => Some s
  | i :: is' => match advance i (fst s) (snd s) with Some s' => schedule is' s' | None => None end
  end.
Lemma advance_step i mu ts : forall s', advance i mu ts = Some s' -> step (mu, ts) s'.
Proof.
  revert ts. induction i as [|i IH]; intros [|th ts] s'; cbn; try discriminate.
  - destruct th as [[|a rest] ev]; cbn; [discriminate|]. intros [= <-]. exact (step_one mu [] a rest ev ts).
  - destruct (advance i mu ts) as [[mu' ts']|] eqn:E; [|discriminate]. intros [= <-]. apply IH in E. inversion E as [mu0 bf a rest ev af E1 E2]; subst.
    exact (step_one mu (th :: bf) a rest ev af).
Qed.
Lemma steps_trans s1 s2 s3 : steps s1 s2 -> steps s2 s3 -> steps s1 s3.
Proof. intros A B. induction B as [|u v w _ IH St]; [exact A|]. exact (steps_more _ _ _ (IH A) St). Qed.
Lemma schedule_steps is : forall s s', schedule is s = Some s' -> steps s s'.
Proof.
  induction is as [|i is IH]; intros s s'; cbn; [intros [= <-]; constructor|]. destruct (advance i (fst s) (snd s)) as [s2|] eqn:E; [|discriminate].
  intros H. apply IH in H. eapply steps_trans; [|exact H]. econstructor; [constructor|]. destruct s. eapply advance_step, E.
Qed.

Definition run_to (is : list nat) (s : memory * list thread) : memory * list thread :=
  match schedule is s with Some s' => s' | None => s end.
Lemma run_to_steps is s : steps s (fst (run_to is s), snd (run_to is s)).
Proof. rewrite <- surjective_pairing. unfold run_to. destruct (schedule is s) as [s'|] eqn:E; [now apply (schedule_steps is)|constructor]. Qed.
