(** C153: matchers built without statistics. *)
From Verif Require Import Bytes Utf8 Oracles Ast AstSpec Json JsonSpec JsonProofs Values Matcher QueryMessages MatchApi MatchSpec MatchProofs MatcherTop Visitors ParseQuery
  NoStats StatsSpec Prop_Match Prop_Reading TestOracle.

(** [used O m m']: the matcher [m] after some calls of Match is [m']. *)
Inductive used (O : oracles) : onode -> onode -> Prop :=
| us_none m : used O m m
| us_match m1 m2 m3 data r : used O m1 m2 -> omatch O m2 data = Ok (r, m3) -> used O m1 m3.

(** The same nodes, whatever their counters *)
Inductive twin : onode -> mnode -> Prop :=
| tw_and l l' r r' s s' : twin l l' -> twin r r' -> twin (OAnd l r s) (MAnd l' r' s')
| tw_or l l' r r' s s' : twin l l' -> twin r r' -> twin (OOr l r s) (MOr l' r' s')
| tw_not e e' s s' : twin e e' -> twin (ONot e s) (MNot e' s')
| tw_expr p es s s' : twin (OExpr p es s) (MExpr p es s').

Lemma build_twin O w n : match build_with O w n, build O n with Ok x, Ok y => twin x y | Panic, Panic => True | _, _ => False end.
Proof.
  induction n as [l IHl r IHr|l IHl r IHr|e IH|o f vs p]; cbn [build_with build].
  - destruct (build_with O w l), (build O l); try contradiction; cbn [bind]; [|trivial]. destruct (build_with O w r), (build O r); try contradiction; cbn [bind]; [now constructor|trivial].
  - destruct (build_with O w l), (build O l); try contradiction; cbn [bind]; [|trivial]. destruct (build_with O w r), (build O r); try contradiction; cbn [bind]; [now constructor|trivial].
  - destruct (build_with O w e), (build O e); try contradiction; cbn [bind]; [now constructor|trivial].
  - destruct (build_exprs O o vs); cbn [bind]; [constructor|trivial].
Qed.
Lemma result_twin O j x y : twin x y -> match oresult O x j, result O y j with Ok (a, x'), Ok (c, y') => a = c /\ twin x' y' | Panic, Panic => True | _, _ => False end.
Proof.
  induction 1 as [l l' r r' s s' Hl IHl Hr IHr|l l' r r' s s' Hl IHl Hr IHr|e e' s s' H IH|p es s s']; cbn [oresult result].
  - destruct (oresult O l j) as [[a x1]|], (result O l' j) as [[c y1]|]; try contradiction; cbn [bind]; [|trivial]. destruct IHl as (<- & Tl).
    destruct a; [|split; [reflexivity|now constructor]].
    destruct (oresult O r j) as [[a x2]|], (result O r' j) as [[c y2]|]; try contradiction; cbn [bind]; [|trivial]. destruct IHr as (<- & Tr). split; [reflexivity|now constructor].
  - destruct (oresult O l j) as [[a x1]|], (result O l' j) as [[c y1]|]; try contradiction; cbn [bind]; [|trivial]. destruct IHl as (<- & Tl).
    destruct a; [split; [reflexivity|now constructor]|].
    destruct (oresult O r j) as [[a x2]|], (result O r' j) as [[c y2]|]; try contradiction; cbn [bind]; [|trivial]. destruct IHr as (<- & Tr). split; [reflexivity|now constructor].
  - destruct (oresult O e j) as [[a x1]|], (result O e' j) as [[c y1]|]; try contradiction; cbn [bind]; [|trivial]. destruct IH as (<- & T). split; [reflexivity|now constructor].
  - destruct (expr_result O p es j); cbn [bind]; [split; [reflexivity|constructor]|trivial].
Qed.
Lemma match_twin O data x y : twin x y -> match omatch O x data, match_doc O y data with Ok (a, x'), Ok (c, y') => a = c /\ twin x' y' | Panic, Panic => True | _, _ => False end.
Proof.
  intros T. unfold omatch, match_doc. destruct (parse_json data) as [j|]; [|auto]. pose proof (result_twin O j x y T) as R.
  destruct (oresult O x j) as [[a x1]|], (result O y j) as [[c y1]|]; try contradiction; cbn [bind]; [|trivial]. destruct R as (<- & R). auto.
Qed.
Lemma used_twin O x x1 : used O x x1 -> forall y, twin x y -> exists y1, after O y y1 /\ twin x1 y1.
Proof.
  induction 1 as [m|m1 m2 m3 data r U IH M]; intros y T; [exists y; split; [apply af_none|exact T]|].
  destruct (IH y T) as (y1 & A & T1). pose proof (match_twin O data m2 y1 T1) as X. rewrite M in X.
  destruct (match_doc O y1 data) as [[c y2]|] eqn:E; [|contradiction]. destruct X as (-> & T2). exists y2. split; [|exact T2]. eapply af_match; eassumption.
Qed.
Lemma built O w q t : parse_plain O q = QOk t -> exists x mt, build_with O w t = Ok x /\ new_matcher O q = NewOk mt /\ twin x (mt_root mt).
Proof.
  intros P. destruct (new_matcher_accepted O q t P) as (r & B & E). pose proof (build_twin O w t) as T. rewrite B in T.
  destruct (build_with O w t) as [x|]; [|contradiction]. exists x. eexists. split; [reflexivity|]. split; [exact E|]. exact T.
Qed.

(** With or without statistics, a matcher is made of every accepted query, *)
Theorem C153_built O w q t : parse_plain O q = QOk t -> exists m, build_with O w t = Ok m.
Proof. intros P. destruct (built O w q t P) as (x & _ & H & _). eauto. Qed.
Print Assumptions C153_built.

(** and a call of Match has the outcome of reading the query (C145), whatever was matched before. *)
Theorem C153_reading O w q t m m1 data : parse_plain O q = QOk t -> build_with O w t = Ok m -> used O m m1 ->
  (forall j, document data j -> exists x, (forall y, reads O t j y <-> y = x) /\
    match x with Some a => exists m2, omatch O m1 data = Ok (Some a, m2) | None => omatch O m1 data = Panic end) /\
  ((forall j, ~ document data j) -> omatch O m1 data = Ok (None, m1)).
Proof.
  intros P B U. destruct (built O w q t P) as (x & mt & B' & Nm & T). rewrite B in B'. injection B' as <-.
  destruct (used_twin O m m1 U _ T) as (y1 & A & T1). split.
  - intros j D. destruct (C145_reading O q t mt y1 data j P Nm A D) as (r & Un & H). exists r. split; [exact Un|].
    pose proof (match_twin O data m1 y1 T1) as X. destruct r as [a|].
    + destruct H as (m2 & H). rewrite H in X. destruct (omatch O m1 data) as [[c x2]|]; [|contradiction]. destruct X as (-> & _). eauto.
    + rewrite H in X. destruct (omatch O m1 data) as [[c x2]|]; [contradiction|reflexivity].
  - intros N. unfold omatch. destruct (parse_json data) as [j|] eqn:J; [|reflexivity]. apply parse_json_spec in J. now apply N in J.
Qed.
Print Assumptions C153_reading.

(** The kind of a node does not change, nor whether it has counters. *)
Definition bare (m : onode) : Prop := match m with OAnd _ _ s | OOr _ _ s | ONot _ s | OExpr _ _ s => s = None end.
Definition compares_only (m : onode) : Prop := match m with OExpr _ _ _ => True | _ => False end.
Lemma match_kind O m data r m' : omatch O m data = Ok (r, m') -> (bare m <-> bare m') /\ (compares_only m <-> compares_only m').
Proof.
  unfold omatch. destruct (parse_json data) as [j|]; [|intros [= _ <-]; tauto].
  destruct (oresult O m j) as [[a x]|] eqn:E; cbn [bind]; [|discriminate]. intros [= _ <-].
  assert (K : forall s c, s = None <-> mark_if s c = None) by (intros [s|] c; cbn; split; congruence).
  destruct m as [l r0 s|l r0 s|e s|p es s]; cbn [oresult] in E.
  - destruct (oresult O l j) as [[[|] l']|]; cbn [bind] in E; try discriminate; [destruct (oresult O r0 j) as [[c r']|]; cbn [bind] in E; try discriminate|]; injection E as _ <-; cbn; split; try tauto; apply K.
  - destruct (oresult O l j) as [[[|] l']|]; cbn [bind] in E; try discriminate; [|destruct (oresult O r0 j) as [[c r']|]; cbn [bind] in E; try discriminate]; injection E as _ <-; cbn; split; try tauto; apply K.
  - destruct (oresult O e j) as [[c e']|]; cbn [bind] in E; try discriminate. injection E as _ <-. cbn. split; [apply K|tauto].
  - destruct (expr_result O p es j) as [c|]; cbn [bind] in E; try discriminate. injection E as _ <-. cbn. split; [apply K|tauto].
Qed.
Lemma used_kind O m m1 : used O m m1 -> (bare m <-> bare m1) /\ (compares_only m <-> compares_only m1).
Proof.
  induction 1 as [m|m1 m2 m3 data r U (I1 & I2) M]; [tauto|]. destruct (match_kind O m2 data r m3 M) as (K1 & K2). tauto.
Qed.

(** Without statistics, Stats returns nil for a query of one comparison and panics for every other one. *)
Theorem C153_no_stats O q t m m1 : parse_plain O q = QOk t -> build_with O false t = Ok m -> used O m m1 ->
  (ostats m1 = Ok None <-> exists o f vs p, t = NExpr o f vs p) /\ (ostats m1 = Panic <-> ~ exists o f vs p, t = NExpr o f vs p).
Proof.
  intros P B U. destruct (used_kind O m m1 U) as (K1 & K2).
  assert (X : bare m /\ (compares_only m <-> exists o f vs p, t = NExpr o f vs p)).
  { destruct t as [l r|l r|e|o f vs p]; cbn [build_with] in B.
    - destruct (build_with O false l); cbn [bind] in B; [|discriminate]. destruct (build_with O false r); cbn [bind] in B; [|discriminate]. injection B as <-. cbn. split; [reflexivity|]. split; [tauto|intros (o & f & vs & p & E); discriminate].
    - destruct (build_with O false l); cbn [bind] in B; [|discriminate]. destruct (build_with O false r); cbn [bind] in B; [|discriminate]. injection B as <-. cbn. split; [reflexivity|]. split; [tauto|intros (o & f & vs & p & E); discriminate].
    - destruct (build_with O false e); cbn [bind] in B; [|discriminate]. injection B as <-. cbn. split; [reflexivity|]. split; [tauto|intros (o & f & vs & p & E); discriminate].
    - destruct (build_exprs O o vs); cbn [bind] in B; [|discriminate]. injection B as <-. cbn. split; [reflexivity|]. split; [eauto 6|trivial]. }
  destruct X as (X1 & X2). rewrite <- X2, K2. apply K1 in X1. clear - X1.
  destruct m1 as [l r s|l r s|e s|p es s]; cbn in X1; subst s; cbn; (split; split; try tauto; try discriminate).
Qed.
Print Assumptions C153_no_stats.

(** So the flag does not give a matcher whose Stats can be called. *)
Theorem C153_stats_refuted : exists O q t m, parse_plain O q = QOk t /\ build_with O false t = Ok m /\ ostats m = Panic.
Proof.
  exists test_oracle, (b "a:1 AND b:2"). do 2 eexists. split; [vm_compute; reflexivity|]. split; [vm_compute; reflexivity|]. reflexivity.
Qed.
Print Assumptions C153_stats_refuted.

(** [osession O m ds m']: after Match has been called with the texts [ds], none of which panics, the matcher [m] is [m']. *)
Inductive osession (O : oracles) : onode -> list bytes -> onode -> Prop :=
| os_nil m : osession O m [] m
| os_cons m d r m' ds m'' : omatch O m d = Ok (r, m') -> osession O m' ds m'' -> osession O m (d :: ds) m''.

(** With statistics the matcher is the one of NewMatcher, in its counters too. *)
Fixpoint counting (m : mnode) : onode :=
  match m with
  | MAnd l r s => OAnd (counting l) (counting r) (Some s)
  | MOr l r s => OOr (counting l) (counting r) (Some s)
  | MNot e s => ONot (counting e) (Some s)
  | MExpr p es s => OExpr p es (Some s)
  end.
Lemma build_counting O n : build_with O true n = bind (build O n) (fun m => Ok (counting m)).
Proof.
  induction n as [l IHl r IHr|l IHl r IHr|e IH|o f vs p]; cbn [build_with build].
  - rewrite IHl. destruct (build O l); cbn [bind]; [|reflexivity]. rewrite IHr. destruct (build O r); reflexivity.
  - rewrite IHl. destruct (build O l); cbn [bind]; [|reflexivity]. rewrite IHr. destruct (build O r); reflexivity.
  - rewrite IH. destruct (build O e); reflexivity.
  - destruct (build_exprs O o vs); reflexivity.
Qed.
Lemma result_counting O m j : oresult O (counting m) j = bind (result O m j) (fun x => Ok (fst x, counting (snd x))).
Proof.
  induction m as [l IHl r IHr s|l IHl r IHr s|e IH s|p es s]; cbn [counting oresult result].
  - rewrite IHl. destruct (result O l j) as [[[|] l']|]; cbn [bind fst snd]; [|reflexivity|reflexivity]. rewrite IHr. destruct (result O r j) as [[c r']|]; reflexivity.
  - rewrite IHl. destruct (result O l j) as [[[|] l']|]; cbn [bind fst snd]; [reflexivity| |reflexivity]. rewrite IHr. destruct (result O r j) as [[c r']|]; reflexivity.
  - rewrite IH. destruct (result O e j) as [[c e']|]; reflexivity.
  - destruct (expr_result O p es j); reflexivity.
Qed.
Theorem C153_with_stats O q t mt m ds m1 x : parse_plain O q = QOk t -> new_matcher O q = NewOk mt -> build_with O true t = Ok m ->
  session O (mt_root mt) ds m1 -> osession O m ds x -> ostats x = Ok (Some (stats m1)).
Proof.
  intros P Nm Bm Se Os. destruct (new_matcher_accepted O q t P) as (r & B & E). rewrite E in Nm. injection Nm as <-. cbn [mt_root] in Se.
  rewrite build_counting, B in Bm. cbn [bind] in Bm. injection Bm as <-.
  assert (X : x = counting m1).
  { clear - Se Os. revert x Os. induction Se as [m|m m' m'' d r ds M Se IH]; intros x Os; inversion Os as [|? ? ? ? ? ? Mo Os']; subst; [reflexivity|]. apply IH.
    unfold match_doc in M. unfold omatch in Mo. destruct (parse_json d) as [j|]; [|now injection M as <- <-; injection Mo as <- <-].
    rewrite result_counting in Mo. destruct (result O m j) as [[a y]|]; cbn [bind fst snd] in *; [|discriminate]. injection M as <- <-. now injection Mo as <- <-. }
  subst x. destruct m1; reflexivity.
Qed.
Print Assumptions C153_with_stats.

(** An example: without statistics the same answers, and Stats fails for AND but not for the comparison. *)
Example C153_example : exists t m m1 u n, parse_plain test_oracle (b "a:1 AND b:2") = QOk t /\ build_with test_oracle false t = Ok m /\
  omatch test_oracle m (b "{""a"":1,""b"":2}") = Ok (Some true, m1) /\ ostats m1 = Panic /\ osession test_oracle m [b "{""a"":1,""b"":2}"] m1 /\
  parse_plain test_oracle (b "a:1") = QOk u /\ build_with test_oracle false u = Ok n /\ ostats n = Ok None.
Proof.
  do 5 eexists. split; [vm_compute; reflexivity|]. split; [vm_compute; reflexivity|]. split; [vm_compute; reflexivity|]. split; [reflexivity|]. split; [eapply os_cons; [vm_compute; reflexivity|apply os_nil]|].
  split; [vm_compute; reflexivity|]. split; [vm_compute; reflexivity|]. reflexivity.
Qed.
