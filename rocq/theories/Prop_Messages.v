(** C21: the messages of a matcher. *)
From Verif Require Import Bytes Oracles Ast AstSpec Visitors ParseQuery QueryMessages Matcher MessageSpec MessageProofs MatcherTop Prop_Match TestOracle.

(** One block per value, from left to right in the query; in each block the messages the
    value calls for, each once, in a fixed order, at the position of the value. *)
Theorem C21_messages O q t m : parse_plain O q = QOk t -> new_matcher O q = NewOk m ->
  exists blocks, mt_messages m = concat blocks /\ Forall2 (messages_for O) (tree_values t) blocks.
Proof.
  intros P N. destruct (new_matcher_accepted O q t P) as (r & _ & E). rewrite E in N. injection N as <-. cbn [mt_messages].
  exact (messages_blocks O q t P).
Qed.
Print Assumptions C21_messages.

(** Messages stand in the order of their places in the text. *)
Theorem C21_text_order O q m : new_matcher O q = NewOk m ->
  StronglySorted (fun x y => (p_off (m_pos x) <= p_off (m_pos y))%Z) (mt_messages m).
Proof.
  intros N. destruct (proj1 (C21_accepts O q) (ex_intro _ m N)) as (t & P).
  destruct (C21_messages O q t m P N) as (bl & -> & F). exact (messages_sorted O _ _ F (tree_values_offsets O q t P)).
Qed.
Print Assumptions C21_text_order.

Example C21_messages_example : exists m, new_matcher test_oracle (b "a:~(/.*x/, ""y"") AND !b:2020-01-01T00:00:00Z") = NewOk m /\
  map (fun x => (m_type x, p_off (m_pos x), m_text x)) (mt_messages m) =
    [(MWarning, 4%Z, HSimRegex); (MHint, 4%Z, HDotStar (b "/.*x/")); (MWarning, 11%Z, HSimString); (MWarning, 23%Z, HExactTime)].
Proof. eexists. split; [vm_compute; reflexivity|vm_compute; reflexivity]. Qed.
