(** C111: queries that mean the same get the same answer. *)
From Verif Require Import Bytes GoFloat GoTime GoNet Oracles Ast AstSpec Json JsonProofs Values StrMatch Matcher QueryMessages Visitors ParseQuery Layout
  MatchApi MatchSpec MatchProofs MatcherTop AlikeSpec AlikeProofs TestOracle.

Theorem C111_same_answer O q q' t u : parse_plain O q = QOk t -> parse_plain O q' = QOk u -> alike O t u ->
  forall data r, answers O q data r <-> answers O q' data r.
Proof.
  intros P P' A data r. destruct (alike_same O t u A) as [B D].
  assert (G : forall m m', build O t = Ok m -> build O u = Ok m' -> answer O m data = answer O m' data).
  { intros m m' E E'. unfold answer. destruct (parse_json data) as [root|]; [|reflexivity].
    specialize (D (ex_intro _ m E) root). unfold den in D. rewrite E, E' in D. cbn in D. now rewrite D. }
  rewrite !answers_iff. split; intros (t0 & m & Pt & Bm & Am).
  - rewrite P in Pt. injection Pt as <-. destruct (proj1 B (ex_intro _ m Bm)) as (m' & B'). exists u, m'. rewrite <- (G m m' Bm B'). auto.
  - rewrite P' in Pt. injection Pt as <-. destruct (proj2 B (ex_intro _ m Bm)) as (m' & B'). exists t, m'. rewrite (G m' m B' Bm). auto.
Qed.
Print Assumptions C111_same_answer.

(** In particular the places of things in the text do not count. *)
Lemma set_pos_alike O v w : set_pos no_position v = set_pos no_position w -> alike_val O v w.
Proof.
  destruct v, w; cbn; try discriminate; intros E; injection E; intros; subst; try (now constructor).
  - eapply av_number; [constructor|constructor|constructor].
  - eapply av_number; [constructor|constructor|constructor].
Qed.
Theorem C111_places O t : forall u, strip t = strip u -> alike O t u.
Proof.
  induction t as [l IHl r IHr|l IHl r IHr|e IHe|o f vs p]; intros [l' r'|l' r'|e'|o' f' vs' p'] E; cbn in E; try discriminate; injection E; intros; subst.
  - apply al_and; auto.
  - apply al_or; auto.
  - apply al_not; auto.
  - apply al_expr. clear E. revert vs' H. induction vs as [|v vs IH]; intros [|w ws] E; cbn in E; try discriminate; constructor.
    + apply set_pos_alike. now injection E.
    + apply IH. now injection E.
Qed.
Print Assumptions C111_places.

(** One query written in two ways: a list as two comparisons, an integer as a float, the case
    of letters, the old operator, a day as a range, NOT moved inwards, operands exchanged. *)
Definition way1 : bytes := b "a:(1,""Bob"") AND NOT (b:exists AND c:2020-01-01)".
Definition way2 : bytes := b "(NOT b:exists OR !c:><(2020-01-01T00:00:00Z,2020-01-01T23:59:59.999999999Z)) AND (a:~""bob"" OR a:1.0)".
Example C111_example : exists t u, parse_plain test_oracle way1 = QOk t /\ parse_plain test_oracle way2 = QOk u /\ alike test_oracle t u /\
  answers test_oracle way1 (b "{""a"":""bob"",""c"":""2020-01-01""}") (Some true) /\ answers test_oracle way2 (b "{""a"":""bob"",""c"":""2020-01-01""}") (Some true).
Proof.
  do 2 eexists. split; [vm_compute; reflexivity|]. split; [vm_compute; reflexivity|]. split.
  - eapply al_trans; [apply al_and_comm; repeat constructor|]. apply al_and.
    + eapply al_trans; [apply al_not_and|]. apply al_or; apply al_not; [apply al_expr; constructor|].
      eapply al_trans; [apply al_day with (u := {| i_sec := 1577923199; i_nsec := 999999999 |}) (s1 := []) (s2 := []) (p1 := no_position) (p2 := no_position) (d1 := false) (d2 := false); reflexivity|].
      apply al_expr. repeat constructor.
    + eapply al_trans; [apply (al_split _ _ [_] [_] _ no_position no_position); discriminate|]. eapply al_trans; [apply al_or_comm; repeat constructor|]. apply al_or.
      * apply al_sym; eapply al_trans; [apply al_sim|]. apply al_expr. constructor; [|constructor]. apply av_case; [repeat constructor|].
        apply Forall2_cons; [right; right; split; [split; discriminate|reflexivity]|]. repeat (apply Forall2_cons; [now left|]). constructor.
      * apply al_expr. constructor; [|constructor]. eapply av_number; [constructor|constructor|]. vm_compute. constructor.
  - split; (do 3 eexists; (split; [vm_compute; reflexivity|]); (split; [apply af_none|]); vm_compute; reflexivity).
Qed.
