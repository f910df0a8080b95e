(** C130: what the option Memoize of the parser promises (parser_gen.go:2346-2351). *)
From Verif Require Import Bytes Utf8 Oracles Ast PegSyntax Grammar Actions Engine EngineBasics Memo MemoProofs TestOracle GrammarSpec CostProofs CostUpper Prop_Grammar.

(** Every parse ends, and the number of evaluated expressions is at most 312 for each place of the text and its
    end; 312 is the number of expressions of the grammar.  [rcnt] reads the counter ExprCnt. *)
Theorem C130_linear O q : mrun O q <> MFuel /\ rcnt (plain (mrun O q)) <= 312 * (1 + N.of_nat (length q)).
Proof.
  pose proof (mrun_good O q) as G. assert (R : rest (first_point q) = q) by (unfold first_point; now rewrite pt_init).
  assert (B : forall op m, Inv (first_point q) op m -> cnt (ms m) <= 312 * (1 + N.of_nat (length q))) by (intros op m H; apply Inv_bound in H; rewrite R in H; lia).
  destruct (mrun O q) as [v f m|m|m|]; cbn [mgood plain rcnt] in *.
  - split; [discriminate|]. destruct G as (H & _). now apply B in H.
  - split; [discriminate|]. destruct G as (H & _). now apply B in H.
  - split; [discriminate|]. destruct G as (op & H). now apply B in H.
  - lia.
Qed.
Print Assumptions C130_linear.

(** A fixed bound for each character, where without the option there is none (C08) *)
Theorem C130_nested O n : 4 ^ N.of_nat n <= rcnt (run O (encode (parens n))) /\
  rcnt (plain (mrun O (encode (parens n)))) <= 624 * N.of_nat n + 2808.
Proof.
  split; [apply parens_run|]. destruct (C130_linear O (encode (parens n))) as (_ & H). rewrite parens_length in H. lia.
Qed.
Print Assumptions C130_nested.

(** No expression is evaluated twice at the same place: the entries of the table that the parse leaves are for
    different expressions or different places, and there are as many as evaluations. *)
Theorem C130_once O q : match mrun O q with
  | MVal _ _ m | MFail m => exists places, NoDup places /\ N.of_nat (length places) = cnt (ms m) /\
      (forall x, In x places <-> (exists r path, snd x = KExpr r path) /\ exists y, In (x, y) (memo m)) /\
      Forall (fun x => (0 <= fst x <= Z.of_nat (length q))%Z) places
  | _ => True
  end.
Proof.
  pose proof (mrun_good O q) as G. assert (R : rest (first_point q) = q /\ off (at_ (first_point q)) = 0%Z) by (unfold first_point; rewrite pt_init; split; [reflexivity|destruct (_ =? 10); reflexivity]).
  destruct R as (R1 & R2).
  assert (B : forall m, Inv (first_point q) [] m -> exists places, NoDup places /\ N.of_nat (length places) = cnt (ms m) /\
      (forall x, In x places <-> (exists r path, snd x = KExpr r path) /\ exists y, In (x, y) (memo m)) /\
      Forall (fun x => (0 <= fst x <= Z.of_nat (length q))%Z) places).
  { intros m (I1 & I2 & I3 & _). cbn [app] in *. exists (ekeys (memo m)). split; [exact I1|]. split; [now symmetry|]. split.
    - intros (o, k). unfold ekeys. rewrite filter_In, in_map_iff. cbn [snd fst]. split.
      + intros (((x & y) & E & Hi) & K). cbn [fst] in E. subst x. split; [destruct k; [discriminate|eauto]|eauto].
      + intros ((r & p & ->) & y & Hi). split; [exists ((o, KExpr r p), y); auto|reflexivity].
    - eapply Forall_impl; [|exact I2]. intros x (H & _). rewrite R1, R2 in H. lia. }
  destruct (mrun O q) as [v f m|m|m|]; cbn [mgood] in G; [apply B, G|apply B, G|exact I|exact I].
Qed.
Print Assumptions C130_once.

Example C130_example : rcnt (plain (mrun test_oracle (b "((((((a:exists))))))"))) = 318 /\
  rcnt (plain (mrun test_oracle (b "a:1 AND b:""x"" OR !c:<2"))) = 459.
Proof. split; vm_compute; reflexivity. Qed.
