(** C16, C17, C18: the built-in checks of ParseQuery. *)
From Verif Require Import Bytes Oracles GoFloat GoTime Ast AstSpec PegSyntax Engine Validators Visitors ParseQuery
  ValidatorProofs VisitorProofs TestOracle.

(** ** C16 *)
Theorem C16_accepted_arguments O q t o f vs p :
  parse_plain O q = QOk t -> subnode (NExpr o f vs p) t -> args_ok o vs.
Proof.
  intros H Hs. apply parse_plain_ok in H as [_ H]. apply walk_validator_ok in H.
  eapply (proj1 (all_ok_subnodes O t) H); eauto.
Qed.
Print Assumptions C16_accepted_arguments.

(** Conversely the checks reject nothing else. *)
Theorem C16_checks_complete O q t :
  parse O q = PVal (VNode t) ->
  (forall o f vs p, subnode (NExpr o f vs p) t ->
     args_ok o vs /\ distinct_ok O o vs /\ (o = BET -> exists v w, vs = [v; w] /\ range_ok v w)) ->
  parse_plain O q = QOk t.
Proof.
  intros H Hs. apply parse_plain_ok. split; auto. apply walk_validator_ok.
  apply all_ok_subnodes. exact Hs.
Qed.
Print Assumptions C16_checks_complete.

Definition pp l c o n := {| p_line := l; p_col := c; p_off := o; p_len := n |}.

Example C16_example :
  let v := AInt 1 (b "1") (pp 1 4 3 1) in
  let x := NExpr LT [b "a"] [v] (pp 1 1 0 4) in
  let y := NNot (NExpr EXS [b "b"] [] (pp 1 11 10 8)) in
  parse_plain test_oracle (b "a:<1 AND !b:exists") = QOk (NAnd x y) /\
  args_ok LT [v] /\ args_ok EXS [].
Proof. split; [vm_compute; reflexivity|split; [eexists; split; [reflexivity|constructor]|reflexivity]]. Qed.

Example C16_rejected :
  parse_plain test_oracle (b "a:<""x""") = QErr (QInvalid (VeNeedsNumeric LT) (pp 1 4 3 3)) /\
  parse_plain test_oracle (b "a:<(1,2)") = QErr (QInvalid (VeExactly LT 1) (pp 1 1 0 8)).
Proof. split; vm_compute; reflexivity. Qed.

(** ** C17 *)
(** What the check guarantees: no two values print alike, and no equality list holds both booleans. *)
Theorem C17_distinct_printed O q t o f vs p :
  parse_plain O q = QOk t -> subnode (NExpr o f vs p) t -> distinct_ok O o vs.
Proof.
  intros H Hs. apply parse_plain_ok in H as [_ H]. apply walk_validator_ok in H.
  eapply (proj1 (all_ok_subnodes O t) H); eauto.
Qed.
Print Assumptions C17_distinct_printed.

(** By value: C17_values in Prop_Distinct.v. *)
Theorem C17_no_conflicting_booleans O q t f vs p p1 p2 :
  parse_plain O q = QOk t -> subnode (NExpr EQ f vs p) t ->
  In (ABool true p1) vs -> In (ABool false p2) vs -> False.
Proof.
  intros H Hs Ht Hf. destruct (C17_distinct_printed _ _ _ _ _ _ _ H Hs) as [_ D].
  eapply D; eauto; eexists; split; eauto.
Qed.
Print Assumptions C17_no_conflicting_booleans.

(** Duplicates are not detected by value: the integer 1 is accepted twice. *)
Theorem C17_duplicate_value_refuted :
  exists q, forall O, exists f p s1 p1 s2 p2,
    parse_plain O q = QOk (NExpr EQ f [AInt 1 s1 p1; AInt 1 s2 p2] p).
Proof. exists (b "a:(1,01)"). intros O. do 6 eexists. vm_compute. reflexivity. Qed.
Print Assumptions C17_duplicate_value_refuted.

Example C17_example :
  (exists t, parse_plain test_oracle (b "a:(""x"",""y"",true)") = QOk t) /\
  parse_plain test_oracle (b "a:(""x"",""x"")") = QErr (QInvalid (VeDuplicate (b """x""") 2 2) (pp 1 8 7 3)) /\
  parse_plain test_oracle (b "a:(true,false)") = QErr (QInvalid (VeConflictBool (b "false") 2 2) (pp 1 9 8 5)).
Proof. split; [eexists|split]; vm_compute; reflexivity. Qed.

(** ** C18 *)
(** Missing for the full property: nothing but the mixed case admitted by [range_ok]. *)
Theorem C18_range_partial O q t f vs p :
  parse_plain O q = QOk t -> subnode (NExpr BET f vs p) t ->
  exists v w, vs = [v; w] /\ range_ok v w.
Proof.
  intros H Hs. apply parse_plain_ok in H as [_ H]. apply walk_validator_ok in H.
  destruct (proj1 (all_ok_subnodes O t) H _ _ _ _ Hs) as (_ & _ & Hr). auto.
Qed.
Print Assumptions C18_range_partial.

(** A number and a timestamp are accepted together if the number is negative. *)
Theorem C18_mixed_range_refuted :
  exists q, forall O, exists f p z s1 p1 i d s2 p2,
    parse_plain O q = QOk (NExpr BET f [AInt z s1 p1; ATime i d s2 p2] p).
Proof. exists (b "a:><(-1,1970-01-01)"). intros O. do 9 eexists. vm_compute. reflexivity. Qed.
Print Assumptions C18_mixed_range_refuted.

Example C18_example :
  (exists t, parse_plain test_oracle (b "a:><(1,2)") = QOk t) /\
  (exists t, parse_plain test_oracle (b "a:><(2020-01-01,2020-01-02)") = QOk t) /\
  parse_plain test_oracle (b "a:><(2,1)") = QErr (QInvalid VeSecondGreater (pp 1 8 7 1)) /\
  parse_plain test_oracle (b "a:><(2020-01-01,1)") = QErr (QInvalid VeSecondDatetime (pp 1 17 16 1)).
Proof. split; [eexists|split; [eexists|split]]; vm_compute; reflexivity. Qed.
