(** C25 (concurrent part), C47-C50, C81: statistics, also with several goroutines. *)
From Verif Require Import Bytes GoTime Oracles Ast AstSpec Json JsonSpec JsonProofs Values StrMatch Matcher QueryMessages MatchSpec MatchProofs MatchApi MatcherTop
  Visitors ParseQuery Stats StatsSpec StatsProofs CountProofs TestOracle.
From Coq Require Import ZifyBool ZifyN ZifyNat Permutation.

(** ** C47 *)
Theorem C47_counts O q t m ds m' : new_matcher O q = NewOk m -> parse_plain O q = QOk t -> session O (mt_root m) ds m' ->
  (forall d j o f vs p, In d ds -> document d j -> subnode (NExpr o f vs p) t -> path_safe j f /\ no_index j f) ->
  (Z.of_nat (length ds) < 2 ^ 63)%Z ->
  forall p n, subtree t p n -> exists st c k,
    node_at m' p = Some st /\ ns_checked st = Z.of_nat c /\ ns_matched st = Z.of_nat k /\ (k <= c)%nat /\
    tally (fun j => evaluated O t j p) ds c /\ tally (fun j => evaluated O t j p /\ holds O n j) ds k.
Proof.
  intros Nm P S Sf Len p n Sp. destruct (new_matcher_accepted O q t P) as (r & B & E). rewrite E in Nm. injection Nm as <-. cbn [mt_root] in S.
  destruct (session_work O _ _ _ S) as (Sh & W). destruct (subtree_node O t r p n B Sp) as (st0 & N0 & Z0 & Z1).
  destruct (node_at_shape r m' p st0 (eq_sym Sh) N0) as (st & N & _).
  assert (T : exists c k, tally (fun j => evaluated O t j p) ds c /\ tally (fun j => evaluated O t j p /\ holds O n j) ds k /\
     c = list_sum (map (work O r p Checked) ds) /\ k = list_sum (map (work O r p Matched) ds) /\ (k <= c)%nat /\ (c <= length ds)%nat).
  { clear S W Sh N m' Len. induction ds as [|d ds IH].
    - exists 0%nat, 0%nat. repeat split; constructor.
    - destruct IH as (c & k & Tc & Tk & -> & -> & L1 & L2); [intros ? ? ? ? ? ? I; apply Sf; now right|].
      cbn [map list_sum fold_right length]. fold (list_sum (map (work O r p Checked) ds)). fold (list_sum (map (work O r p Matched) ds)).
      unfold work at 1 3. cbn [program]. destruct (parse_json d) as [j|] eqn:J.
      + apply parse_json_spec in J. destruct (trace_counts O t j (accepted_tree_ok O q t P) ltac:(intros; eapply Sf; [now left|eassumption|eassumption]) r [] B) as (a & tr & Et & _ & C).
        rewrite Et. cbn [bind]. rewrite !cnt_app. cbn [cnt filter is_inc length]. specialize (C p n Sp). unfold counted in C. cbn [app] in C.
        destruct C as [(Ev & C1 & [(H & C2)|(H & C2)])|(Ev & C1 & C2)].
        * exists (S (list_sum (map (work O r p Checked) ds))), (S (list_sum (map (work O r p Matched) ds))).
          split; [eapply tl_yes; eauto|]. split; [eapply tl_yes; eauto|]. rewrite C1, C2. unfold cnt. cbn. repeat split; lia.
        * exists (S (list_sum (map (work O r p Checked) ds))), (list_sum (map (work O r p Matched) ds)).
          split; [eapply tl_yes; eauto|]. split; [eapply tl_no; [eassumption|tauto|assumption]|]. rewrite C1, C2. unfold cnt. cbn. repeat split; lia.
        * exists (list_sum (map (work O r p Checked) ds)), (list_sum (map (work O r p Matched) ds)).
          split; [eapply tl_no; eauto|]. split; [eapply tl_no; [eassumption|tauto|assumption]|]. rewrite C1, C2. unfold cnt. cbn. repeat split; lia.
      + assert (Inv : ~ exists j, document d j) by (intros (j & D); apply parse_json_spec in D; congruence).
        exists (list_sum (map (work O r p Checked) ds)), (list_sum (map (work O r p Matched) ds)).
        split; [now apply tl_invalid|]. split; [now apply tl_invalid|]. unfold cnt. cbn. repeat split; lia. }
  destruct T as (c & k & Tc & Tk & Ec & Ek & L1 & L2). exists st, c, k. split; [exact N|].
  pose proof (W p Checked) as W1. pose proof (W p Matched) as W2. rewrite (build_zero O t r p _ B) in W1. rewrite (build_zero O t r p _ B) in W2.
  rewrite bump_iter in W1 by lia. rewrite bump_iter in W2 by lia. unfold mem_of in W1, W2. rewrite N in W1, W2. split; [lia|]. split; [lia|]. auto.
Qed.
Print Assumptions C47_counts.

(** The numbers are determined. *)
Theorem C47_tally_unique P ds n n' : tally P ds n -> tally P ds n' -> n = n'.
Proof. intros A B. exact (tally_fun P ds n A n' B). Qed.
Print Assumptions C47_tally_unique.

(** What Stats reports: valid documents and documents satisfying the query. *)
Theorem C47_root O q t m ds m' : new_matcher O q = NewOk m -> parse_plain O q = QOk t -> session O (mt_root m) ds m' ->
  (forall d j o f vs p, In d ds -> document d j -> subnode (NExpr o f vs p) t -> path_safe j f /\ no_index j f) ->
  (Z.of_nat (length ds) < 2 ^ 63)%Z ->
  exists name c k, stats m' = MatchStats name (Z.of_nat c) (Z.of_nat k) [] /\ (k <= c)%nat /\
    tally (fun _ => True) ds c /\ tally (fun j => holds O t j) ds k.
Proof.
  intros Nm P S Sf Len. destruct (C47_counts O q t m ds m' Nm P S Sf Len [] t (st_here t)) as (st & c & k & N & E1 & E2 & L & Tc & Tk).
  exists (ns_name st), c, k. split; [|split; [exact L|split]].
  - cbn in N. injection N as <-. rewrite <- E1, <- E2. destruct m'; reflexivity.
  - clear -Tc. induction Tc as [|d ds n N _ IH|d j ds n D Y _ IH|d j ds n D Y _ IH].
    + apply tl_nil.
    + now apply tl_invalid.
    + exact (tl_yes _ d j ds n D I IH).
    + exfalso. apply Y. constructor.
  - clear -Tk. induction Tk as [|d ds n N _ IH|d j ds n D Y _ IH|d j ds n D Y _ IH].
    + apply tl_nil.
    + now apply tl_invalid.
    + exact (tl_yes _ d j ds n D (proj2 Y) IH).
    + apply (tl_no _ d j ds n D); [|exact IH]. intros H. apply Y. split; [constructor|exact H].
Qed.
Print Assumptions C47_root.
Example C47_hypotheses : exists m t m', new_matcher test_oracle (b "a:1 OR !b:exists") = NewOk m /\
  parse_plain test_oracle (b "a:1 OR !b:exists") = QOk t /\
  session test_oracle (mt_root m) [b "{""a"":1}"; b "{"; b "{""b"":2}"] m' /\
  (forall d j o f vs p, In d [b "{""a"":1}"; b "{"; b "{""b"":2}"] -> document d j -> subnode (NExpr o f vs p) t -> path_safe j f /\ no_index j f) /\
  stats m' = MatchStats (b "OR") 2 1 [].
Proof.
  do 3 eexists. split; [vm_compute; reflexivity|]. split; [vm_compute; reflexivity|]. split.
  { repeat (eapply ss_match; [vm_compute; reflexivity|]). apply ss_nil. }
  split; [|vm_compute; reflexivity]. intros d j o f vs p Hin D Sub.
  destruct Hin as [<-|[<-|[<-|[]]]]; apply parse_json_spec in D; vm_compute in D; try discriminate; injection D as <-;
    repeat match goal with H : subnode _ _ |- _ => inversion H; clear H; subst end; split; exact I.
Qed.

Example C47_example : exists m m' st1 st2, new_matcher test_oracle (b "a:1 OR !b:exists") = NewOk m /\
  session test_oracle (mt_root m) [b "{""a"":1}"; b "{""b"":1}"; b "{"; b "{""a"":1,""b"":2}"; b "{}"] m' /\
  stats m' = MatchStats (b "OR") 4 3 [] /\
  node_at m' [DLeft] = Some st1 /\ ns_checked st1 = 4%Z /\ ns_matched st1 = 2%Z /\
  node_at m' [DRight; DSub] = Some st2 /\ ns_checked st2 = 2%Z /\ ns_matched st2 = 1%Z.
Proof.
  do 4 eexists. split; [vm_compute; reflexivity|]. split.
  { repeat (eapply ss_match; [vm_compute; reflexivity|]). apply ss_nil. }
  repeat split; vm_compute; reflexivity.
Qed.

(** ** C48 *)
(** Any number of goroutines, each calling Match and Stats any number of times, in any
    interleaving: at the end the counters are those of any sequential order of the calls. *)
Theorem C48_no_loss O m gs ts mu fin ds :
  ready O m gs ts -> steps (mem_of m, ts) (mu, fin) -> finished fin -> Permutation ds (concat (map texts gs)) ->
  exists m', session O m ds m' /\ forall p w, mu p w = mem_of m' p w.
Proof.
  intros R St F Pm.
  assert (H : (forall d, In d (concat (map texts gs)) -> program O m (CMatch d) <> Panic) /\
              forall p w, total p w ts = list_sum (map (work O m p w) (concat (map texts gs)))).
  { clear -R. induction R as [|cs th gs ts (acts & E & ->) _ (IH1 & IH2)]; [split; [intros d []|reflexivity]|].
    destruct (programs_split O m cs acts E) as (H1 & H2). cbn [map concat]. split.
    - intros d I. apply in_app_or in I as [I|I]; auto.
    - intros p w. rewrite total_cons, IH2, map_app, list_sum_app. cbn [todo start]. now rewrite H2. }
  destruct H as (NP & T). destruct (session_exists O ds m) as (m' & S).
  { intros d I. apply NP. eapply Permutation_in; eassumption. }
  exists m'. split; [exact S|]. intros p w. destruct (session_work O _ _ _ S) as (_ & W). rewrite W.
  destruct (steps_memory _ _ St p w) as (k & Ek & Tk). cbn [fst snd] in *. rewrite Ek. f_equal. rewrite (finished_total fin p w F) in Tk.
  rewrite T in Tk. rewrite Nat.add_0_r in Tk. rewrite Tk. clear -Pm.
  induction Pm; cbn [map list_sum fold_right]; unfold list_sum in *; lia.
Qed.
Print Assumptions C48_no_loss.

(** Every call returns what it returns alone. *)
Theorem C48_results O m gs ts mu fin : ready O m gs ts -> steps (mem_of m, ts) (mu, fin) -> finished fin ->
  Forall2 (fun cs th => Forall2 (fun d r => exists m', match_doc O m d = Ok (r, m')) (texts cs) (results (seen th))) gs fin.
Proof.
  intros R St F. pose proof (steps_results _ _ St) as H. cbn [snd] in H. clear St. revert gs ts R H. induction F as [|th fin E _ IH]; intros gs ts R H.
  - inversion H; subst. inversion R; subst. constructor.
  - inversion H as [|t0 x ts0 y E0 H0]; subst. inversion R as [|cs x gs0 y (acts & Ep & ->) R0]; subst. constructor; [|eapply IH; eassumption].
    rewrite E in E0. cbn in E0. rewrite app_nil_r in E0. rewrite E0. now apply programs_returns.
Qed.
Print Assumptions C48_results.

(** Executions never get stuck, whatever the scheduler has done so far. *)
Theorem C48_progress mu ts : finished ts \/ exists s, step (mu, ts) s.
Proof.
  induction ts as [|[acts ev] ts IH]; [left; constructor|]. destruct acts as [|a rest].
  - destruct IH as [F|(s & St)]; [left; now constructor|]. right. inversion St as [mu' bf a rest ev' af E1 E2]; subst.
    eexists. exact (step_one mu ({| todo := []; seen := ev |} :: bf) a rest ev' af).
  - right. eexists. exact (step_one mu [] a rest ev ts).
Qed.
Print Assumptions C48_progress.

Example C48_example : exists m ts mu fin, new_matcher test_oracle (b "a:1 OR b:2") = NewOk m /\
  ready test_oracle (mt_root m) [[CMatch (b "{""a"":1}")]; [CStats; CMatch (b "{""b"":2}")]] ts /\
  steps (mem_of (mt_root m), ts) (mu, fin) /\ finished fin /\ map seen fin = [[Returned (Some true)]; [Loaded Checked 0; Loaded Matched 1; Returned (Some true)]] /\
  mu [] Checked = 2%Z /\ mu [] Matched = 2%Z /\ mu [DLeft] Checked = 2%Z /\ mu [DLeft] Matched = 1%Z /\ mu [DRight] Checked = 1%Z.
Proof.
  pose (mt := new_matcher test_oracle (b "a:1 OR b:2")). vm_compute in mt.
  match eval unfold mt in mt with NewOk ?m => exists m end.
  do 3 eexists. split; [vm_compute; reflexivity|]. split; [|split].
  - apply Forall2_cons; [eexists; split; [vm_compute; reflexivity|reflexivity]|]. apply Forall2_cons; [eexists; split; [vm_compute; reflexivity|reflexivity]|]. apply Forall2_nil.
  - apply (run_to_steps [1; 0; 0; 0; 0; 1; 1; 1; 1; 1; 1; 0; 1]%nat).
  - split; [vm_compute; repeat constructor|]. repeat split; vm_compute; reflexivity.
Qed.

(** ** C49 *)
(** A goroutine calling Stats can see more matches than checks. *)
Theorem C49_snapshot_refuted : exists q data, forall O, exists m0 ts mu fin c k rest, new_matcher O q = NewOk m0 /\
  ready O (mt_root m0) [[CStats]; [CMatch data]] ts /\ steps (mem_of (mt_root m0), ts) (mu, fin) /\ finished fin /\
  (exists ev, fin = {| todo := []; seen := ev |} :: rest /\ In (Loaded Checked c) ev /\ In (Loaded Matched k) ev) /\ (c < k)%Z.
Proof.
  exists (b "a:exists"), (b "{""a"":1}"). intros O.
  do 7 eexists. split; [vm_compute; reflexivity|]. split.
  { apply Forall2_cons; [eexists; split; [vm_compute; reflexivity|reflexivity]|]. apply Forall2_cons; [eexists; split; [vm_compute; reflexivity|reflexivity]|]. apply Forall2_nil. }
  split; [apply (run_to_steps [0; 1; 1; 0; 1]%nat)|]. split; [vm_compute; repeat constructor|]. split; [eexists; split; [vm_compute; reflexivity|split; [left; reflexivity|right; left; reflexivity]]|vm_compute; reflexivity].
Qed.
Print Assumptions C49_snapshot_refuted.

(** ** C81: the counters themselves are always in order *)
Theorem C81_in_order O q m gs ts mu ts' : new_matcher O q = NewOk m -> ready O (mt_root m) gs ts ->
  (Z.of_nat (length (concat (map texts gs))) < 2 ^ 63)%Z -> steps (mem_of (mt_root m), ts) (mu, ts') ->
  forall p, (0 <= mu p Matched <= mu p Checked)%Z.
Proof.
  intros Nm R Len St p. destruct (new_matcher_cases O q) as [(t & r & P & B & E)|(e & e' & _ & E)]; [|congruence]. rewrite E in Nm. injection Nm as <-. cbn [mt_root] in *.
  assert (I : order_inv (mem_of r, ts)).
  { split.
    - cbn [snd]. clear -R. induction R as [|cs th gs ts (acts & Ep & ->) _ IH]; constructor; [|exact IH]. left. exact (paired_programs _ _ _ _ Ep).
    - intros p0. cbn [fst snd]. rewrite !(build_zero O t r p0 _ B).
      assert (H : halves p0 ts = 0%nat /\ (total p0 Checked ts <= length (concat (map texts gs)))%nat).
      { clear -R. induction R as [|cs th gs ts (acts & Ep & ->) _ (IH1 & IH2)]; [split; [reflexivity|cbn; lia]|].
        rewrite halves_cons, total_cons. cbn [map concat]. rewrite app_length. split.
        - rewrite IH1. unfold start. now rewrite (paired_half p0 acts (paired_programs _ _ _ _ Ep)).
        - cbn [todo start]. rewrite (proj2 (programs_split _ _ _ _ Ep)). apply Nat.add_le_mono; [|exact IH2]. clear. induction (texts cs) as [|d l IH]; [cbn; lia|].
          cbn [map list_sum fold_right length]. pose proof (work_once O r p0 d). unfold list_sum in IH. lia. }
      lia. }
  pose proof (order_steps _ _ I St) as (_ & H). cbn [fst snd] in H. specialize (H p). lia.
Qed.
Print Assumptions C81_in_order.

Example C81_example : exists m ts mu ts', new_matcher test_oracle (b "a:exists") = NewOk m /\
  ready test_oracle (mt_root m) [[CMatch (b "{""a"":1}")]; [CMatch (b "{""a"":2}")]] ts /\
  steps (mem_of (mt_root m), ts) (mu, ts') /\ mu [] Checked = 2%Z /\ mu [] Matched = 1%Z.
Proof.
  pose (mt := new_matcher test_oracle (b "a:exists")). vm_compute in mt. match eval unfold mt in mt with NewOk ?m => exists m end.
  do 3 eexists. split; [vm_compute; reflexivity|]. split; [|split].
  - apply Forall2_cons; [eexists; split; [vm_compute; reflexivity|reflexivity]|]. apply Forall2_cons; [eexists; split; [vm_compute; reflexivity|reflexivity]|]. apply Forall2_nil.
  - apply (run_to_steps [0; 1; 1]%nat).
  - split; vm_compute; reflexivity.
Qed.

(** ** C50 *)
Theorem C50_children_refuted : exists q l r pl pr, forall O, exists m name,
  parse_plain O q = QOk (NAnd (NExpr EXS l [] pl) (NExpr EXS r [] pr)) /\
  new_matcher O q = NewOk m /\ stats (mt_root m) = MatchStats name 0 0 [].
Proof.
  exists (b "a:exists AND b:exists"), [b "a"], [b "b"]. do 2 eexists. intros O. do 2 eexists. split; [vm_compute; reflexivity|]. split; vm_compute; reflexivity.
Qed.
Print Assumptions C50_children_refuted.

(** In fact no query ever has children in its statistics. *)
Theorem C50_never m : exists name c k, stats m = MatchStats name c k [].
Proof. destruct m; cbn; unfold to_stats_node; eauto. Qed.
Print Assumptions C50_never.
