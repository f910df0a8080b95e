(** C146: a matcher whose panics are recovered goes on as if nothing had happened, and its statistics count the parts of
    the query that were finished. *)
From Verif Require Import Bytes Utf8 GoStrconv GoFloat GoTime GoNet Oracles Ast AstSpec Json JsonSpec JsonProofs Values StrMatch Matcher
  QueryMessages MatchApi MatchSpec MatchProofs MatcherTop Visitors ParseQuery TestOracle Stats StatsSpec StatsProofs CountProofs Prop_Match Prop_Docs Prop_Reading MatchRecover.

(** [finishes O t j p a]: the reader of C145, who goes through the query [t] from the left, comes to the part at [p] and
    finishes it with the answer [a] (whether or not a later part breaks the call). *)
Inductive finishes (O : oracles) : node -> json -> list dir -> bool -> Prop :=
| fn_here t j a : reads O t j (Some a) -> finishes O t j [] a
| fn_and_l l r j p a : finishes O l j p a -> finishes O (NAnd l r) j (DLeft :: p) a
| fn_and_r l r j p a : reads O l j (Some true) -> finishes O r j p a -> finishes O (NAnd l r) j (DRight :: p) a
| fn_or_l l r j p a : finishes O l j p a -> finishes O (NOr l r) j (DLeft :: p) a
| fn_or_r l r j p a : reads O l j (Some false) -> finishes O r j p a -> finishes O (NOr l r) j (DRight :: p) a
| fn_not e j p a : finishes O e j p a -> finishes O (NNot e) j (DSub :: p) a.

Section P.
Context (O : oracles).

(** The model agrees with the one of the calls that return. *)
Lemma left_result m root : match result O m root with
  | Ok (a, m') => result_left O m root = (Ok a, m')
  | Panic => fst (result_left O m root) = Panic
  end.
Proof.
  induction m as [l IHl r IHr st|l IHl r IHr st|e IHe st|path es st]; cbn [result result_left].
  - destruct (result O l root) as [[[|] l']|]; cbn [bind].
    + rewrite IHl. destruct (result O r root) as [[c r']|]; cbn [bind]; [now rewrite IHr|]. destruct (result_left O r root) as [x r']. cbn in IHr. now subst x.
    + now rewrite IHl.
    + destruct (result_left O l root) as [x l']. cbn in IHl. now subst x.
  - destruct (result O l root) as [[[|] l']|]; cbn [bind].
    + now rewrite IHl.
    + rewrite IHl. destruct (result O r root) as [[c r']|]; cbn [bind]; [now rewrite IHr|]. destruct (result_left O r root) as [x r']. cbn in IHr. now subst x.
    + destruct (result_left O l root) as [x l']. cbn in IHl. now subst x.
  - destruct (result O e root) as [[a e']|]; cbn [bind]; [now rewrite IHe|]. destruct (result_left O e root) as [x e']. cbn in IHe. now subst x.
  - now destruct (expr_result O path es root).
Qed.
Lemma left_shape m root : shape (snd (result_left O m root)) = shape m.
Proof.
  induction m as [l IHl r IHr st|l IHl r IHr st|e IHe st|path es st]; cbn [result_left].
  - destruct (result_left O l root) as [[[|]|] l']; [destruct (result_left O r root) as [[c|] r']|..]; cbn in *; congruence.
  - destruct (result_left O l root) as [[[|]|] l']; [|destruct (result_left O r root) as [[c|] r']|]; cbn in *; congruence.
  - destruct (result_left O e root) as [[a|] e']; cbn in *; congruence.
  - destruct (expr_result O path es root); reflexivity.
Qed.

(** The counters of one part of the query. *)
Definition counted_as (y : option bool) (m m' : mnode) (p : list dir) : Prop :=
  mem_of m' p Checked = match y with Some _ => bump (mem_of m p Checked) | None => mem_of m p Checked end /\
  mem_of m' p Matched = match y with Some true => bump (mem_of m p Matched) | _ => mem_of m p Matched end.
Definition tells (t : node) (j : json) (m m' : mnode) : Prop :=
  forall p n, subtree t p n -> exists y, (forall a, finishes O t j p a <-> y = Some a) /\ counted_as y m m' p.

Lemma tells_same t j m : (forall p a, ~ finishes O t j p a) -> tells t j m m.
Proof. intros N p n _. exists None. split; [|now split]. intros a. split; [intros F; now apply N in F|discriminate]. Qed.

Lemma left_reads t j r m : tree_ok t -> build O t = Ok r -> shape m = shape r ->
  exists x, (forall y, reads O t j y <-> y = x) /\ fst (result_left O m j) = as_res x.
Proof.
  intros T B Sh. destruct (ev_reads O t j T r B) as (x & Ev & U). exists x. split; [exact U|].
  rewrite <- Ev, <- (ev_shape O r), <- Sh, ev_shape. pose proof (left_result m j) as L. pose proof (result_ev O m j) as V.
  destruct (result O m j) as [[a m']|]; [rewrite L; cbn; symmetry; apply V|rewrite L; symmetry; exact V].
Qed.
Lemma here_only t j x : (forall y, reads O t j y <-> y = x) -> forall a, finishes O t j [] a <-> x = Some a.
Proof. intros U a. split; [intros F; inversion F; subst; match goal with R : reads O _ _ _ |- _ => now apply U in R end|intros ->; apply fn_here; now apply U]. Qed.

Lemma left_tells t j : tree_ok t -> forall r m, build O t = Ok r -> shape m = shape r -> tells t j m (snd (result_left O m j)).
Proof.
  induction t as [l IHl r0 IHr|l IHl r0 IHr|e IHe|o f vs p0]; intros T r m B Sh p n Sp;
    destruct (left_reads _ j r m T B Sh) as (x & U & Fx).
  - cbn [build] in B. destruct (build O l) as [bl|] eqn:Bl; [|discriminate]. destruct (build O r0) as [br|] eqn:Br; [|discriminate]. cbn in B. injection B as <-.
    destruct m as [ml mr st| | |]; try discriminate. cbn [shape] in Sh. injection Sh as Sl Sr _.
    assert (Tl : tree_ok l) by (intros ? ? ? ? S; eapply T, sub_and_l, S). assert (Tr : tree_ok r0) by (intros ? ? ? ? S; eapply T, sub_and_r, S).
    destruct (left_reads l j bl ml Tl Bl Sl) as (xl & Ul & Fl). destruct (left_reads r0 j br mr Tr Br Sr) as (xr & Ur & Fr).
    specialize (IHl Tl bl ml eq_refl Sl). specialize (IHr Tr br mr eq_refl Sr). revert Fx. cbn [result_left].
    destruct (result_left O ml j) as [al l'], (result_left O mr j) as [ar r']. cbn [fst snd] in Fl, Fr, IHl, IHr. subst al ar. intros Fx.
    inversion Sp; subst.
    + exists x. split; [now apply here_only|]. destruct xl as [[|]|], xr as [[|]|], x as [[|]|]; try discriminate; split; reflexivity.
    + match goal with S0 : subtree l ?q n |- _ => destruct (IHl _ _ S0) as (y & Fy & C); exists y; split; [intros a; rewrite <- Fy; split; [intros F; inversion F; subst; assumption|now apply fn_and_l]|] end.
      destruct xl as [[|]|], xr as [[|]|]; exact C.
    + destruct xl as [[|]|].
      * match goal with S0 : subtree r0 ?q n |- _ => destruct (IHr _ _ S0) as (y & Fy & C); exists y; split; [intros a; rewrite <- Fy; split; [intros F; inversion F; subst; assumption|intros F; apply fn_and_r; [now apply Ul|exact F]]|] end.
        destruct xr as [[|]|]; exact C.
      * exists None. split; [|split; reflexivity]. intros a. split; [|discriminate]. intros F. inversion F; subst. match goal with R : reads O l j _ |- _ => now apply Ul in R end.
      * exists None. split; [|split; reflexivity]. intros a. split; [|discriminate]. intros F. inversion F; subst. match goal with R : reads O l j _ |- _ => now apply Ul in R end.
  - cbn [build] in B. destruct (build O l) as [bl|] eqn:Bl; [|discriminate]. destruct (build O r0) as [br|] eqn:Br; [|discriminate]. cbn in B. injection B as <-.
    destruct m as [|ml mr st| |]; try discriminate. cbn [shape] in Sh. injection Sh as Sl Sr _.
    assert (Tl : tree_ok l) by (intros ? ? ? ? S; eapply T, sub_or_l, S). assert (Tr : tree_ok r0) by (intros ? ? ? ? S; eapply T, sub_or_r, S).
    destruct (left_reads l j bl ml Tl Bl Sl) as (xl & Ul & Fl). destruct (left_reads r0 j br mr Tr Br Sr) as (xr & Ur & Fr).
    specialize (IHl Tl bl ml eq_refl Sl). specialize (IHr Tr br mr eq_refl Sr). revert Fx. cbn [result_left].
    destruct (result_left O ml j) as [al l'], (result_left O mr j) as [ar r']. cbn [fst snd] in Fl, Fr, IHl, IHr. subst al ar. intros Fx.
    inversion Sp; subst.
    + exists x. split; [now apply here_only|]. destruct xl as [[|]|], xr as [[|]|], x as [[|]|]; try discriminate; split; reflexivity.
    + match goal with S0 : subtree l ?q n |- _ => destruct (IHl _ _ S0) as (y & Fy & C); exists y; split; [intros a; rewrite <- Fy; split; [intros F; inversion F; subst; assumption|now apply fn_or_l]|] end.
      destruct xl as [[|]|], xr as [[|]|]; exact C.
    + destruct xl as [[|]|].
      * exists None. split; [|split; reflexivity]. intros a. split; [|discriminate]. intros F. inversion F; subst. match goal with R : reads O l j _ |- _ => now apply Ul in R end.
      * match goal with S0 : subtree r0 ?q n |- _ => destruct (IHr _ _ S0) as (y & Fy & C); exists y; split; [intros a; rewrite <- Fy; split; [intros F; inversion F; subst; assumption|intros F; apply fn_or_r; [now apply Ul|exact F]]|] end.
        destruct xr as [[|]|]; exact C.
      * exists None. split; [|split; reflexivity]. intros a. split; [|discriminate]. intros F. inversion F; subst. match goal with R : reads O l j _ |- _ => now apply Ul in R end.
  - cbn [build] in B. destruct (build O e) as [be|] eqn:Be; [|discriminate]. cbn in B. injection B as <-.
    destruct m as [| |me st|]; try discriminate. cbn [shape] in Sh. injection Sh as Se _.
    assert (Te : tree_ok e) by (intros ? ? ? ? S; eapply T, sub_not, S).
    destruct (left_reads e j be me Te Be Se) as (xe & Ue & Fe). specialize (IHe Te be me eq_refl Se). revert Fx. cbn [result_left].
    destruct (result_left O me j) as [ae e']. cbn [fst snd] in Fe, IHe. subst ae. intros Fx. inversion Sp; subst.
    + exists x. split; [now apply here_only|]. destruct xe as [[|]|], x as [[|]|]; try discriminate; split; reflexivity.
    + match goal with S0 : subtree e ?q n |- _ => destruct (IHe _ _ S0) as (y & Fy & C); exists y; split; [intros a; rewrite <- Fy; split; [intros F; inversion F; subst; assumption|now apply fn_not]|] end.
      destruct xe as [[|]|]; exact C.
  - inversion Sp; subst. exists x. split; [now apply here_only|]. cbn [build] in B. destruct (build_exprs O o vs) as [es|]; [|discriminate]. cbn in B. injection B as <-.
    destruct m as [| | |pt ms st]; try discriminate. revert Fx. cbn [result_left]. destruct (expr_result O pt ms j) as [[|]|], x as [[|]|]; try discriminate; split; reflexivity.
Qed.

(** One call. *)
Lemma recover_shape m d : shape (snd (match_recover O m d)) = shape m.
Proof.
  unfold match_recover. destruct (parse_json d) as [j|]; [|reflexivity]. pose proof (left_shape m j) as H. destruct (result_left O m j) as [[a|] m']; exact H.
Qed.
Lemma all_shape ds : forall m, shape (snd (recover_all O m ds)) = shape m.
Proof.
  induction ds as [|d ds IH]; intros m; [reflexivity|]. cbn [recover_all]. pose proof (recover_shape m d) as H. destruct (match_recover O m d) as [x m1]. cbn in H.
  specialize (IH m1). destruct (recover_all O m1 ds) as [xs m2]. cbn in *. congruence.
Qed.

Lemma all_counts t r p n : tree_ok t -> build O t = Ok r -> subtree t p n -> forall ds m, shape m = shape r -> exists c k,
  (k <= c)%nat /\ (c <= length ds)%nat /\ tally (fun j => exists a, finishes O t j p a) ds c /\ tally (fun j => finishes O t j p true) ds k /\
  mem_of (snd (recover_all O m ds)) p Checked = Nat.iter c bump (mem_of m p Checked) /\
  mem_of (snd (recover_all O m ds)) p Matched = Nat.iter k bump (mem_of m p Matched).
Proof.
  intros T B Sp. induction ds as [|d ds IH]; intros m Sh.
  - exists 0%nat, 0%nat. repeat (split; [first [lia|constructor]|]). split; reflexivity.
  - cbn [recover_all]. pose proof (recover_shape m d) as S1. unfold match_recover in *. destruct (parse_json d) as [j|] eqn:J.
    + apply parse_json_spec in J. pose proof (left_tells t j T r m B Sh p n Sp) as (y & Fy & C1 & C2).
      destruct (result_left O m j) as [x m1]. cbn [snd] in C1, C2.
      assert (S2 : shape m1 = shape r) by (destruct x; cbn in S1; congruence).
      destruct (IH m1 S2) as (c & k & L1 & L2 & Tc & Tk & E1 & E2).
      assert (G : forall xs, mem_of (snd (let '(o, m2) := match x with Ok a => (Answer a, m1) | Panic => (Recovered, m1) end in let '(xs, m3) := recover_all O m2 ds in (o :: xs, m3))) p xs = mem_of (snd (recover_all O m1 ds)) p xs)
        by (intros xs; destruct x; destruct (recover_all O m1 ds); reflexivity).
      rewrite !G, E1, E2, C1, C2. destruct y as [[|]|].
      * exists (S c), (S k). split; [lia|]. split; [cbn; lia|]. split; [eapply tl_yes; [exact J|exists true; now apply Fy|exact Tc]|]. split; [eapply tl_yes; [exact J|now apply Fy|exact Tk]|].
        split; rewrite <- (Nat.add_1_r), iter_add; reflexivity.
      * exists (S c), k. split; [lia|]. split; [cbn; lia|]. split; [eapply tl_yes; [exact J|exists false; now apply Fy|exact Tc]|]. split; [eapply tl_no; [exact J|intros F; now apply Fy in F|exact Tk]|].
        split; [rewrite <- (Nat.add_1_r), iter_add|]; reflexivity.
      * exists c, k. split; [lia|]. split; [cbn; lia|]. split; [eapply tl_no; [exact J|intros (a & F); now apply Fy in F|exact Tc]|]. split; [eapply tl_no; [exact J|intros F; now apply Fy in F|exact Tk]|].
        split; reflexivity.
    + assert (Inv : ~ exists j, document d j) by (intros (j & D); apply parse_json_spec in D; congruence).
      destruct (IH m Sh) as (c & k & L1 & L2 & Tc & Tk & E1 & E2). exists c, k. split; [lia|]. split; [cbn; lia|]. split; [now apply tl_invalid|]. split; [now apply tl_invalid|].
      destruct (recover_all O m ds) as [xs m2]. cbn [snd] in *. now split.
Qed.
End P.

(** The calls that return are those of the model of Match. *)
Theorem C146_returns O m d : match match_doc O m d with
  | Ok (Some a, m') => match_recover O m d = (Answer a, m')
  | Ok (None, m') => match_recover O m d = (NoJson, m')
  | Panic => fst (match_recover O m d) = Recovered
  end.
Proof.
  unfold match_doc, match_recover. destruct (parse_json d) as [j|]; [|reflexivity]. pose proof (left_result O m j) as L.
  destruct (result O m j) as [[a m']|]; cbn [bind]; [now rewrite L|]. destruct (result_left O m j) as [x m']. cbn in L. now subst x.
Qed.
Print Assumptions C146_returns.

(** Whatever was matched before, panics or not: each call has the outcome of the reading of its own text. *)
Theorem C146_no_memory O q t m ds : parse_plain O q = QOk t -> new_matcher O q = NewOk m ->
  Forall2 (fun d x => match x with
    | Answer a => exists j, document d j /\ reads O t j (Some a)
    | Recovered => exists j, document d j /\ reads O t j None
    | NoJson => forall j, ~ document d j
    end) ds (fst (recover_all O (mt_root m) ds)).
Proof.
  intros P Nm. destruct (new_matcher_accepted O q t P) as (r & B & E). rewrite E in Nm. injection Nm as <-. cbn [mt_root].
  assert (G : forall m0, shape m0 = shape r -> Forall2 (fun d x => match x with
    | Answer a => exists j, document d j /\ reads O t j (Some a)
    | Recovered => exists j, document d j /\ reads O t j None
    | NoJson => forall j, ~ document d j
    end) ds (fst (recover_all O m0 ds))); [|now apply G].
  induction ds as [|d ds IH]; intros m0 Sh; [constructor|]. cbn [recover_all]. pose proof (recover_shape O m0 d) as S1. unfold match_recover in *. destruct (parse_json d) as [j|] eqn:J.
  - apply parse_json_spec in J. destruct (left_reads O t j r m0 (accepted_tree_ok O q t P) B Sh) as (x & U & Fx).
    destruct (result_left O m0 j) as [y m1]. cbn in Fx. subst y. assert (S2 : shape m1 = shape r) by (destruct x; cbn in S1; congruence). specialize (IH m1 S2).
    destruct x as [a|]; cbn [as_res]; destruct (recover_all O m1 ds) as [xs m2]; cbn [fst] in *; constructor; try exact IH; exists j; (split; [exact J|]); now apply U.
  - specialize (IH m0 Sh). destruct (recover_all O m0 ds) as [xs m2]. cbn [fst] in *. constructor; [|exact IH]. intros j D. apply parse_json_spec in D. congruence.
Qed.
Print Assumptions C146_no_memory.

(** The statistics of every part of the query, for every list of texts. *)
Theorem C146_counts O q t m ds m' : new_matcher O q = NewOk m -> parse_plain O q = QOk t -> m' = snd (recover_all O (mt_root m) ds) ->
  (Z.of_nat (length ds) < 2 ^ 63)%Z ->
  forall p n, subtree t p n -> exists st c k,
    node_at m' p = Some st /\ ns_checked st = Z.of_nat c /\ ns_matched st = Z.of_nat k /\ (k <= c)%nat /\
    tally (fun j => exists a, finishes O t j p a) ds c /\ tally (fun j => finishes O t j p true) ds k.
Proof.
  intros Nm P -> Len p n Sp. destruct (new_matcher_accepted O q t P) as (r & B & E). rewrite E in Nm. injection Nm as <-. cbn [mt_root].
  destruct (subtree_node O t r p n B Sp) as (st0 & N0 & _). destruct (node_at_shape r _ p st0 (eq_sym (all_shape O ds r)) N0) as (st & N & _).
  destruct (all_counts O t r p n (accepted_tree_ok O q t P) B Sp ds r eq_refl) as (c & k & L1 & L2 & Tc & Tk & E1 & E2).
  exists st, c, k. split; [exact N|]. rewrite (build_zero O t r p _ B) in E1. rewrite (build_zero O t r p _ B) in E2. rewrite bump_iter in E1 by lia. rewrite bump_iter in E2 by lia.
  unfold mem_of in E1, E2. rewrite N in E1, E2. split; [lia|]. split; [lia|]. auto.
Qed.
Print Assumptions C146_counts.

(** What Stats reports: the documents whose reading did not break, not the documents Match was called with. *)
Theorem C146_root O q t m ds : new_matcher O q = NewOk m -> parse_plain O q = QOk t -> (Z.of_nat (length ds) < 2 ^ 63)%Z ->
  exists name c k, stats (snd (recover_all O (mt_root m) ds)) = MatchStats name (Z.of_nat c) (Z.of_nat k) [] /\ (k <= c)%nat /\
    tally (fun j => exists a, reads O t j (Some a)) ds c /\ tally (fun j => reads O t j (Some true)) ds k.
Proof.
  intros Nm P Len. destruct (C146_counts O q t m ds _ Nm P eq_refl Len [] t (st_here t)) as (st & c & k & N & E1 & E2 & L & Tc & Tk).
  exists (ns_name st), c, k. split; [|split; [exact L|split]].
  - rewrite <- E1, <- E2. destruct (snd (recover_all O (mt_root m) ds)); cbn in N; injection N as <-; reflexivity.
  - clear -Tc. induction Tc as [|d ds n N _ IH|d j ds n D (a & Y) _ IH|d j ds n D Y _ IH]; [constructor|now apply tl_invalid| |].
    + eapply tl_yes; [exact D| |exact IH]. exists a. now inversion Y.
    + eapply tl_no; [exact D| |exact IH]. intros (a & F). apply Y. exists a. now apply fn_here.
  - clear -Tk. induction Tk as [|d ds n N _ IH|d j ds n D Y _ IH|d j ds n D Y _ IH]; [constructor|now apply tl_invalid| |].
    + eapply tl_yes; [exact D| |exact IH]. now inversion Y.
    + eapply tl_no; [exact D| |exact IH]. intros F. apply Y. now apply fn_here.
Qed.
Print Assumptions C146_root.

(** A part of a query can be checked more often than the query: the left comparison of [a:1 OR *:exists] three times, the
    query once. *)
Example C146_example : exists t m m', let q := b "a:1 OR *:exists" in let ds := [b "{""a"":1}"; b "{""a"":2}"; b "{"; b "{}"] in
  parse_plain test_oracle q = QOk t /\ new_matcher test_oracle q = NewOk m /\
  recover_all test_oracle (mt_root m) ds = ([Answer true; Recovered; NoJson; Recovered], m') /\
  option_map (fun st => (ns_checked st, ns_matched st)) (node_at m' []) = Some (1, 1)%Z /\
  option_map (fun st => (ns_checked st, ns_matched st)) (node_at m' [DLeft]) = Some (3, 1)%Z /\
  option_map (fun st => (ns_checked st, ns_matched st)) (node_at m' [DRight]) = Some (0, 0)%Z.
Proof.
  do 3 eexists. cbn zeta. split; [vm_compute; reflexivity|]. split; [vm_compute; reflexivity|]. split; [vm_compute; reflexivity|].
  split; [vm_compute; reflexivity|]. split; vm_compute; reflexivity.
Qed.
