(** C109, C110: what the first syntax error is about, and what it marks. *)
From Verif Require Import Bytes Utf8 Utf8Proofs Oracles Ast PegSyntax Grammar Actions Engine EngineBasics CleanEval GrammarSpec ShapeSpec FaultSpec
  TokenProofs Bridge Faults ParseQuery ParserTop TestOracle.
From Coq Require Import ZifyBool ZifyN ZifyNat.

Lemma fault_shorter O before own rest x k p : fault O before own (rest ++ x) k p -> fault O before own rest k p.
Proof.
  intros F. inversion F; subst; try (econstructor; eauto; fail).
  - eapply ft_unknown; eauto.
    + destruct rest; auto.
    + intros t u E. apply (H3 t (u ++ x)). now rewrite app_assoc, E, <- app_assoc.
  - eapply ft_untermstr; eauto.
    + intros t z E. apply (H1 t (z ++ x)). now rewrite app_assoc, E, <- app_assoc.
    + intros more z E. apply (H2 more (z ++ x)). now rewrite E, <- app_assoc.
  - eapply ft_untermregex; eauto.
    + intros t z E. apply (H1 t (z ++ x)). now rewrite app_assoc, E, <- app_assoc.
    + intros more z E. apply (H2 more (z ++ x)). now rewrite E, <- app_assoc.
Qed.
Lemma broken_tail tl : tl <> [] -> tl = [] \/ decode_rune tl = (rune_error, 1%nat) -> broken tl.
Proof.
  intros N [E|D]; [congruence|]. split; auto. intros c r Sc ->. rewrite decode_encode_rune in D by exact Sc. injection D as -> D. discriminate D.
Qed.

Section F.
Context (O : oracles).

Theorem C109_error q e : parse_plain O q = QErr (QSyntax e) ->
  (exists l, pe_kind e = KNoMatch l) \/
  (exists before after, q = encode before ++ after /\ scalars before /\ broken after /\
     pe_kind e = KInvalidEncoding /\ p_off (qerr_pos (QSyntax (E := unit) (T := unit) e)) = Z.of_nat (length (encode before))) \/
  (exists before own rest after, q = encode (before ++ own ++ rest) ++ after /\ scalars (before ++ own ++ rest) /\
     (after = [] \/ broken after) /\ own <> [] /\ fault O before own rest (pe_kind e) (qerr_pos (QSyntax (E := unit) (T := unit) e))).
Proof.
  intros P. unfold parse_plain, parse_query in P.
  destruct (parse O q) as [v|e0 es|] eqn:E; [|cbn in P; injection P as ->|discriminate P].
  { destruct v; try discriminate P. destruct (walk_validator O n); discriminate P. }
  pose proof (parse_spec O q) as S0. rewrite E in S0. assert (Np : pe_kind e <> KPanic) by apply S0. clear S0.
  assert (D : (exists l, pe_kind e = KNoMatch l) \/ dirtyw e (run O q)).
  { unfold parse in E. assert (Fi : forall v s, finish v s = PErr e es -> born s e).
    { intros v s F. unfold finish in F. destruct (rev (errs s)) as [|x l] eqn:R; [discriminate|]. injection F as -> _.
      exists (rev l). apply (f_equal (@rev _)) in R. rewrite rev_involutive in R. exact R. }
    destruct (run O q) as [v f s|s|s|]; cbn [parse_result] in E; [right|..|discriminate E].
    - cbn. eauto.
    - destruct (errs s) eqn:Es; [left|right; cbn; eauto]. unfold finish, add_err in E. cbn [errs] in E. rewrite Es in E. cbn in E. injection E as <- _. cbn. eauto.
    - right. apply Fi in E as (l & El). cbn [add_err errs] in El. cbn. destruct l as [|x l]; cbn [app] in El.
      + injection El as <- _. destruct Np. reflexivity.
      + injection El as _ El. exists l. exact El. }
  destruct D as [D|D]; [now left|right].
  destruct (split_valid q) as (u & tl & Su & -> & Ht).
  destruct (run_first O u tl e Su Ht D) as [B|(Nt & K & Of)].
  2:{ left. exists u, tl. repeat split; auto using broken_tail. apply broken_tail; auto. }
  right. unfold ctop in B. apply start_fault in B as (c & (t & A1 & A2) & own & rest & Ec & No & Nl & F).
  cbn [pre crs] in A1, A2. rewrite app_nil_r in A2. rewrite A2, rev_involutive in F. rewrite Ec in A1.
  assert (R : exists rest', rest = rest' ++ ext tl /\ u = t ++ own ++ rest').
  { destruct tl as [|z tl]; cbn [ext] in *.
    - exists rest. rewrite !app_nil_r in *. auto.
    - destruct (list_eq_dec N.eq_dec rest []) as [->|Nr].
      + exfalso. rewrite app_nil_r in A1. apply Nl. apply (f_equal (fun l => last l 0)) in A1. rewrite last_last in A1.
        destruct (exists_last No) as (o & y & ->). rewrite app_assoc, !last_last in *. congruence.
      + destruct (exists_last Nr) as (r & y & ->). exists r. rewrite !app_assoc in A1. apply app_inj_tail in A1 as [A1 ->].
        split; [reflexivity|]. now rewrite A1, <- !app_assoc. }
  destruct R as (rest' & -> & ->). apply fault_shorter in F.
  exists t, own, rest', tl. split; [reflexivity|]. split; [exact Su|]. split; [|split; [exact No|exact F]].
  destruct (list_eq_dec N.eq_dec tl []); [now left|right; now apply broken_tail].
Qed.

(** A literal of a recognisable kind whose value cannot be built is marked from its first to
    its last character, except for integers. *)
Definition literal_error (k : err_kind) : bool :=
  match k with KBadString _ | KBadRegex _ _ | KBadFloat _ _ | KBadNet _ _ | KBadTime _ _ => true | _ => false end.
Theorem C110_marked q e : parse_plain O q = QErr (QSyntax e) -> literal_error (pe_kind e) = true ->
  exists before own after, q = encode (before ++ own) ++ after /\ scalars (before ++ own) /\ value_form own /\ worthless O own /\
    qerr_pos (QSyntax (E := unit) (T := unit) e) = pos_of before own.
Proof.
  intros P K. destruct (C109_error q e P) as [(l & E)|[(bf & af & _ & _ & _ & E & _)|(bf & own & rest & af & -> & Sc & _ & _ & F)]].
  - rewrite E in K. discriminate.
  - rewrite E in K. discriminate.
  - exists bf, own, (encode rest ++ af). split; [now rewrite app_assoc, encode_app, <- app_assoc|].
    split. { rewrite app_assoc in Sc. apply Forall_app in Sc as [Sc _]. exact Sc. }
    unfold value_form. destruct F; try discriminate K; auto 10.
Qed.
(** Some errors never arise. *)
Theorem C109_never q e : parse_plain O q = QErr (QSyntax e) -> (forall sv, pe_kind e <> KBadBool sv) /\ pe_kind e <> KEmptyField /\ pe_kind e <> KPanic.
Proof.
  intros P. destruct (C109_error q e P) as [(l & E)|[(bf & af & _ & _ & _ & E & _)|(bf & own & rest & af & _ & _ & _ & _ & F)]].
  - rewrite E. repeat split; discriminate.
  - rewrite E. repeat split; discriminate.
  - destruct F; repeat split; discriminate.
Qed.
End F.

(** The integer out of range is marked by its first character only. *)
Theorem C110_integer_refuted : exists q e before own, parse_plain test_oracle q = QErr (QSyntax e) /\ pe_kind e = KBadInt (encode own) /\
  q = encode (before ++ own) /\ int_lit own /\ worthless test_oracle own /\
  qerr_pos (QSyntax (E := unit) (T := unit) e) = pos_of before (firstn 1 own) /\ length own = 20%nat.
Proof.
  exists (b "a:99999999999999999999"). eexists. exists (tx "a:"), (tx "99999999999999999999").
  assert (I : int_lit (tx "99999999999999999999")).
  { exists [], (tx "99999999999999999999"). split; [reflexivity|]. split; [now left|]. split; [|discriminate].
    apply digs_spec, Forall_forall, forallb_forall. vm_compute. reflexivity. }
  split; [vm_compute; reflexivity|]. split; [reflexivity|]. split; [reflexivity|]. split; [exact I|].
  split; [|split; [vm_compute; reflexivity|reflexivity]].
  apply (worthless_int test_oracle _ (pos_of [] []) I). vm_compute. reflexivity.
Qed.

(** There is no thirteenth month; 256 is no octet; the slash is never closed; a word is no value;
    one value in parentheses; a byte that is not UTF-8. *)
Example C109_example :
  (exists e, parse_plain test_oracle (b "a:<2021-13-01 AND b:1") = QErr (QSyntax e) /\ pe_kind e = KBadTime 10 (b "2021-13-01") /\
     qerr_pos (QSyntax (E := unit) (T := unit) e) = pos_of (tx "a:<") (tx "2021-13-01")) /\
  (exists e, parse_plain test_oracle (b "ab:256.1.1.1") = QErr (QSyntax e) /\ pe_kind e = KBadNet 9 (b "256.1.1.1/32") /\
     qerr_pos (QSyntax (E := unit) (T := unit) e) = pos_of (tx "ab:") (tx "256.1.1.1")) /\
  (exists e, parse_plain test_oracle (b "ab:/x y") = QErr (QSyntax e) /\ pe_kind e = KUntermRegex /\
     p_off (qerr_pos (QSyntax (E := unit) (T := unit) e)) = 7%Z) /\
  (exists e, parse_plain test_oracle (b "ab:foo, AND c:1") = QErr (QSyntax e) /\ pe_kind e = KUnknownValue (b "foo,") /\
     qerr_pos (QSyntax (E := unit) (T := unit) e) = pos_of (tx "ab:") (tx "f")) /\
  (exists e, parse_plain test_oracle (b "ab:( 1 )") = QErr (QSyntax e) /\ pe_kind e = KParenSingle /\
     qerr_pos (QSyntax (E := unit) (T := unit) e) = pos_of (tx "ab:") (tx "(")) /\
  (exists e, parse_plain test_oracle (b "ab:1 AND c:" ++ [255]) = QErr (QSyntax e) /\ pe_kind e = KInvalidEncoding /\
     p_off (qerr_pos (QSyntax (E := unit) (T := unit) e)) = 11%Z).
Proof. repeat split; eexists; (split; [vm_compute; reflexivity|]); split; reflexivity. Qed.
Example C110_example : exists e, parse_plain test_oracle (encode (tx "b:""" ++ [233] ++ tx """ AND" ++ [10] ++ tx "a:(1, 2021-02-30T00:00:00Z)")) = QErr (QSyntax e) /\
  literal_error (pe_kind e) = true /\ qerr_pos (QSyntax (E := unit) (T := unit) e) = pos_of (tx "b:""" ++ [233] ++ tx """ AND" ++ [10] ++ tx "a:(1, ") (tx "2021-02-30T00:00:00Z") /\
  qerr_pos (QSyntax (E := unit) (T := unit) e) = {| p_line := 2; p_col := 7; p_off := 17; p_len := 20 |}.
Proof. eexists. split; [vm_compute; reflexivity|]. split; [vm_compute; reflexivity|]. split; vm_compute; reflexivity. Qed.
