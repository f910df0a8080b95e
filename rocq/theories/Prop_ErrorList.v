(** C147: how many errors the parser records for one fault. *)
From Verif Require Import Bytes Utf8 Oracles Ast PegSyntax Grammar Actions Engine EngineBasics CostProofs Memo ErrorList TestOracle.
From Coq Require Import ZifyNat ZifyN.

(** [n] opening parentheses and one byte that is no UTF-8. *)
Definition opened (n : nat) : bytes := repeat 40 n ++ [255].

Section P.
Context (O : oracles).

(** The expression fails at [p], goes back to [p], and records the errors [E] (newest first). *)
Definition fails (e : expr) (p : point) (E : list perr) : Prop :=
  forall n inv recs f s, pt s = p -> eval O n inv recs e f s = RFuel \/
    exists s', eval O n inv recs e f s = RFail s' /\ pt s' = p /\ errs s' = E ++ errs s.

Lemma pt_fail inv fl p w s : pt (fail_at inv fl p w s) = pt s.
Proof. unfold fail_at. destruct (negb _); [reflexivity|]. destruct (_ <? _)%Z; [reflexivity|]. now destruct (_ <? _)%Z. Qed.
Lemma restore_same s p : pt s = p -> restore s p = s.
Proof. intros <-. unfold restore. now rewrite Z.eqb_refl. Qed.

Lemma fails_rule r p E : fails (rules r) p E -> fails (ERule r) p E.
Proof.
  intros H [|n] inv recs f s Hp; [now left|]. cbn [eval]. destruct (H n inv recs [] (tick s) Hp) as [->|(s' & -> & P1 & P2)]; [now left|].
  right. exists s'. now split.
Qed.
Lemma fails_label l e p E : fails e p E -> fails (ELabel l e) p E.
Proof.
  intros H [|n] inv recs f s Hp; [now left|]. cbn [eval]. destruct (H n inv recs [] (tick s) Hp) as [->|(s' & -> & P1 & P2)]; [now left|].
  right. exists s'. now split.
Qed.
Lemma fails_action a e p E : fails e p E -> fails (EAction a e) p E.
Proof.
  intros H [|n] inv recs f s Hp; [now left|]. cbn [eval]. destruct (H n inv recs f (tick s) Hp) as [->|(s' & -> & P1 & P2)]; [now left|].
  right. exists s'. now split.
Qed.
Lemma fails_recover e r ls p E : fails e p E -> fails (ERecover e r ls) p E.
Proof.
  intros H [|n] inv recs f s Hp; [now left|]. cbn [eval]. destruct (H n inv ((ls, r) :: recs) f (tick s) Hp) as [->|(s' & -> & P1 & P2)]; [now left|].
  right. exists s'. now split.
Qed.
Lemma fails_seq e es p E : fails e p E -> fails (ESeq (e :: es)) p E.
Proof.
  intros H [|n] inv recs f s Hp; [now left|]. cbn [eval seq_loop]. destruct (H n inv recs f (tick s) Hp) as [->|(s' & -> & P1 & P2)]; [now left|].
  right. exists s'. split; [|now split]. f_equal. apply restore_same. cbn. congruence.
Qed.
Definition fails_all (es : list expr) (p : point) (E : list perr) : Prop :=
  forall n inv recs f s, pt s = p -> choice_loop (eval O n inv recs) es f s = RFuel \/
    exists s', choice_loop (eval O n inv recs) es f s = RFail s' /\ pt s' = p /\ errs s' = E ++ errs s.
Lemma fails_choice es p E : fails_all es p E -> fails (EChoice es) p E.
Proof. intros H [|n] inv recs f s Hp; [now left|]. exact (H n inv recs f (tick s) Hp). Qed.
Lemma fails_none p : fails_all [] p [].
Proof. intros n inv recs f s Hp. right. exists s. now split. Qed.
Lemma fails_more e es p E1 E2 : fails e p E1 -> fails_all es p E2 -> fails_all (e :: es) p (E2 ++ E1).
Proof.
  intros H1 H2 n inv recs f s Hp. cbn [choice_loop]. destruct (H1 n inv recs [] s Hp) as [->|(s1 & -> & P1 & P2)]; [now left|].
  destruct (H2 n inv recs f s1 P1) as [->|(s2 & -> & P3 & P4)]; [now left|]. right. exists s2. split; [reflexivity|]. split; [exact P3|].
  now rewrite P4, P2, app_assoc.
Qed.
Lemma fails_lit c w (ic : bool) want p : (if ic then to_lower (cur_rune p) else cur_rune p) <> c -> fails (ELit (c :: w) ic want) p [].
Proof.
  intros Hne [|n] inv recs f s Hp; [now left|]. right. cbn [eval lit_loop]. cbn [tick pt]. rewrite Hp. apply N.eqb_neq in Hne. rewrite Hne.
  eexists. split; [reflexivity|]. rewrite restore_same by (rewrite pt_fail; exact Hp). rewrite pt_fail, errs_fail. now split.
Qed.
Lemma fails_class v cs rs (ic : bool) p : in_class cs rs (if ic then to_lower (cur_rune p) else cur_rune p) = false -> fails (EClass v cs rs ic false) p [].
Proof.
  intros Hne [|n] inv recs f s Hp; [now left|]. right. cbn [eval]. cbn [tick pt]. rewrite Hp, Hne. cbn [xorb].
  destruct (at_eof p); (eexists; split; [reflexivity|]; rewrite pt_fail, errs_fail; now split).
Qed.
Lemma fails_plus e p : fails e p [] -> fails (EPlus e) p [].
Proof.
  intros H [|n] inv recs f s Hp; [now left|]. cbn [eval]. cbn [star_loop]. destruct (H n inv recs [] (tick s) Hp) as [->|(s' & -> & P1 & P2)]; [now left|].
  right. exists s'. split; [reflexivity|now split].
Qed.

(** The only fault: the byte, and where the parser complains about it. *)
Definition head_at (p : point) : Prop := cur_rune p = 40 \/ cur_rune p = 65533.
Ltac char := unfold head_at in *; match goal with H : _ \/ _ |- _ => destruct H as [H|H]; rewrite H; first [discriminate | reflexivity] end.

Lemma fails_field p : head_at p -> fails (ERule RField) p [].
Proof.
  intros H. apply fails_rule. cbn [rules]. apply fails_action, fails_label, fails_seq, fails_rule. cbn [rules]. apply fails_choice.
  change (@nil perr) with ((([] ++ []) ++ []) ++ @nil perr). apply fails_more; [|apply (fails_more _ _ _ [] ([] ++ [])); [|apply (fails_more _ _ _ [] []); [|apply fails_none]]].
  - apply fails_rule. cbn [rules]. apply fails_action, fails_label, fails_rule. cbn [rules]. apply fails_recover, fails_action, fails_seq, fails_lit. char.
  - apply fails_rule. cbn [rules]. apply fails_action, fails_plus, fails_class. char.
  - apply fails_rule. cbn [rules]. apply fails_action, fails_lit. char.
Qed.
Lemma fails_not p : head_at p -> fails (ERule RlogicalNOT) p [].
Proof.
  intros H. apply fails_rule. cbn [rules]. apply fails_choice. apply (fails_more _ _ _ [] []); [|apply (fails_more _ _ _ [] []); [|apply fails_none]].
  - apply fails_seq, fails_lit. char.
  - apply fails_seq, fails_lit. char.
Qed.

(** A clause whose comparison fails with the errors [E] fails with four times [E]. *)
Lemma fails_clause p E : head_at p -> fails (ERule RComparison) p E -> fails (ERule ROrClause) p ((E ++ E) ++ (E ++ E)).
Proof.
  intros H C.
  assert (Cn : fails (ERule RNotClause) p E).
  { apply fails_rule. cbn [rules]. apply fails_choice. replace E with (([] ++ E) ++ []) by (now rewrite app_nil_r). apply fails_more; [|apply fails_more; [exact C|apply fails_none]].
    apply fails_action, fails_seq, fails_not, H. }
  assert (Ca : fails (ERule RAndClause) p (E ++ E)).
  { apply fails_rule. cbn [rules]. apply fails_choice. change (E ++ E) with (([] ++ E) ++ E). apply fails_more; [|apply fails_more; [exact Cn|apply fails_none]].
    apply fails_action, fails_seq, fails_label, Cn. }
  apply fails_rule. cbn [rules]. apply fails_choice. change ((E ++ E) ++ (E ++ E)) with (([] ++ (E ++ E)) ++ (E ++ E)). apply fails_more; [|apply fails_more; [exact Ca|apply fails_none]].
  apply fails_action, fails_seq, fails_label, Ca.
Qed.

(** Points of the text after some of its parentheses. *)
Definition after_parens (p : point) (n : nat) : Prop := rest p = opened n /\ off (at_ (next_point p)) <> off (at_ p).
Lemma open_head n : fst (decode_rune (opened n)) = 40 /\ snd (decode_rune (opened n)) = 1%nat \/ fst (decode_rune (opened n)) = 65533 /\ snd (decode_rune (opened n)) = 1%nat.
Proof. destruct n; [right; split; reflexivity|left; split; reflexivity]. Qed.
Lemma parens_head p n : rest p = opened n -> head_at p /\ cur_width p = 1%nat.
Proof. intros E. unfold head_at, cur_rune, cur_width. rewrite E. destruct (open_head n) as [(H1 & H2)|(H1 & H2)]; auto. Qed.

(** The byte after the last parenthesis. *)
Definition complaint (p : point) : perr := {| pe_kind := KInvalidEncoding; pe_pos := at_ (next_point p) |}.

Lemma parens_next p n : rest p = opened (S n) -> next_point p = {| at_ := {| line := line (at_ p); col := col (at_ p) + 1; off := off (at_ p) + 1 |}; rest := opened n |}.
Proof.
  intros E. unfold next_point. assert (W : cur_width p = 1%nat) by (apply (parens_head p (S n) E)). rewrite W, E. cbn [skipn opened repeat app].
  destruct (open_head n) as [(H & _)|(H & _)]; unfold opened in H; rewrite H; reflexivity.
Qed.

Lemma ws_none p : head_at p -> forall n inv recs f s, pt s = p -> eval O n inv recs (ERule R_ws) f s = RFuel \/
  exists v s', eval O n inv recs (ERule R_ws) f s = RVal v f s' /\ pt s' = p /\ errs s' = errs s.
Proof.
  intros H [|n] inv recs f s Hp; [now left|]. cbn [eval]. destruct n as [|n]; [now left|]. cbn [rules eval star_loop].
  assert (F : fails (EClass "[ \n\t\r]"%string [32; 10; 9; 13] [] false false) p []) by (apply fails_class; char).
  destruct (F n inv recs [] (tick (tick s)) Hp) as [->|(s' & -> & P1 & P2)]; [now left|]. right. do 2 eexists. split; [reflexivity|now split].
Qed.

Lemma lit_open p n w : rest p = opened (S n) -> forall k inv recs f s, pt s = p -> eval O k inv recs (ELit [40] false w) f s = RFuel \/
  exists v s', eval O k inv recs (ELit [40] false w) f s = RVal v f s' /\ pt s' = next_point p /\
    errs s' = match n with 0%nat => [complaint p] | S _ => [] end ++ errs s.
Proof.
  intros Er [|k] inv recs f s Hp; [now left|]. right. pose proof (parens_next p n Er) as Nx.
  assert (En : rest (next_point p) = opened n) by (now rewrite Nx). cbn [eval lit_loop]. cbn [tick pt].
  rewrite Hp. replace (cur_rune p) with 40 by (unfold cur_rune; rewrite Er; reflexivity). change (40 =? 40) with true. cbv beta iota.
  do 2 eexists. split; [reflexivity|]. rewrite pt_fail, errs_fail. unfold read, read_at. cbn [tick pt]. rewrite Hp. unfold cur_rune, cur_width. rewrite En.
  destruct n; cbn; split; reflexivity.
Qed.

(** One parenthesis: the parser reads it, records an error if the byte follows, fails in the clause and goes back. *)
Lemma fails_open p n E : rest p = opened (S n) -> fails (ERule ROrClause) (next_point p) E ->
  fails (ERule RComparison) p (E ++ match n with 0%nat => [complaint p] | S _ => [] end).
Proof.
  intros Er C. pose proof (parens_head p (S n) Er) as (Hd & W). pose proof (parens_next p n Er) as Nx.
  assert (En : rest (next_point p) = opened n) by (now rewrite Nx). pose proof (parens_head _ _ En) as (Hd' & W').
  apply fails_rule. cbn [rules]. apply fails_choice.
  match goal with |- fails_all _ _ ?X => replace X with ((([] ++ []) ++ []) ++ X) by reflexivity end.
  apply fails_more; [|apply (fails_more _ _ _ [] ([] ++ [])); [|apply (fails_more _ _ _ [] []); [|apply fails_none]]].
  2-3: apply fails_action, fails_seq, fails_label, fails_field, Hd.
  apply fails_action. intros [|k] inv recs f s Hp; [now left|]. cbn [eval].
  cbn [seq_loop]. destruct (lit_open p n """("""%string Er k inv recs f (tick s) Hp) as [->|(v0 & s1 & -> & P1 & P2)]; [now left|].
  destruct (ws_none _ Hd' k inv recs f s1 P1) as [->|(v & s2 & -> & P3 & P4)]; [now left|].
  destruct (fails_label "query"%string _ _ _ C k inv recs f s2 P3) as [->|(s3 & -> & P5 & P6)]; [now left|].
  right. eexists. split; [reflexivity|]. unfold restore. cbn [tick pt]. rewrite P5, Hp, Nx. cbn [at_ off]. destruct (Z.eqb_spec (off (at_ p)) (off (at_ p) + 1)); [lia|].
  cbn [tick pt set_pt errs]. split; [reflexivity|]. now rewrite P6, P4, P2, app_assoc.
Qed.

Lemma fails_byte p : rest p = opened 0 -> fails (ERule ROrClause) p [].
Proof.
  intros E. destruct (parens_head p 0 E) as (H & _). apply (fails_clause p [] H). apply fails_rule. cbn [rules]. apply fails_choice.
  change (@nil perr) with ((([] ++ []) ++ []) ++ @nil perr). apply fails_more; [|apply (fails_more _ _ _ [] ([] ++ [])); [|apply (fails_more _ _ _ [] []); [|apply fails_none]]].
  2-3: apply fails_action, fails_seq, fails_label, fails_field, H.
  apply fails_action, fails_seq, fails_lit. unfold cur_rune. now rewrite E.
Qed.

(** Where the byte stands, seen from the point before [n] parentheses. *)
Definition byte_pos (p : point) (n : nat) : position := {| line := line (at_ p); col := col (at_ p) + Z.of_nat n; off := off (at_ p) + Z.of_nat n |}.
Lemma fails_opened n : forall p, rest p = opened (S n) ->
  fails (ERule ROrClause) p (repeat {| pe_kind := KInvalidEncoding; pe_pos := byte_pos p (S n) |} (4 ^ S n)).
Proof.
  induction n as [|n IH]; intros p E.
  - pose proof (parens_next p 0 E) as Nx. pose proof (fails_open p 0 [] E) as F. cbn [app] in F.
    assert (B : complaint p = {| pe_kind := KInvalidEncoding; pe_pos := byte_pos p 1 |}) by (unfold complaint, byte_pos; rewrite Nx; reflexivity).
    rewrite <- B. apply (fails_clause p [complaint p]); [apply (parens_head p 1 E)|]. apply F, fails_byte. now rewrite Nx.
  - pose proof (parens_next p (S n) E) as Nx. pose proof (IH (next_point p) ltac:(now rewrite Nx)) as F.
    assert (B : byte_pos (next_point p) (S n) = byte_pos p (S (S n))) by (unfold byte_pos; rewrite Nx; cbn [at_ line col off]; f_equal; lia).
    rewrite B in F. apply (fails_open p (S n) _ E) in F. rewrite app_nil_r in F. apply (fails_clause p) in F; [|apply (parens_head p _ E)].
    rewrite <- !repeat_app in F. replace (4 ^ S (S n))%nat with (4 ^ S n + 4 ^ S n + (4 ^ S n + 4 ^ S n))%nat by (cbn [Nat.pow]; lia). exact F.
Qed.
End P.

Lemma rev_same (e : perr) k : rev (repeat e k) = repeat e k.
Proof. induction k as [|k IH]; [reflexivity|]. cbn [repeat rev]. now rewrite IH, <- repeat_cons. Qed.

(** One fault, behind [n] parentheses: the same error is recorded [4 ^ n] times. *)
Theorem C147_recorded O n : exists e, pe_kind e = KInvalidEncoding /\ off (pe_pos e) = Z.of_nat (S n) /\
  recorded (parse O (opened (S n))) = repeat e (4 ^ S n).
Proof.
  set (p := pt (init_state (opened (S n)))).
  assert (P0 : p = {| at_ := {| line := 1; col := 1; off := 0 |}; rest := opened (S n) |}) by reflexivity.
  set (e := {| pe_kind := KInvalidEncoding; pe_pos := byte_pos p (S n) |}). exists e. split; [reflexivity|]. split; [cbn; lia|].
  assert (F : fails O (ERule RQuery) p (repeat e (4 ^ S n))).
  { apply fails_rule. cbn [rules]. apply fails_action. intros [|k] inv recs f s Hp; [now left|]. cbn [eval seq_loop].
    destruct (ws_none O p) with (n := k) (inv := inv) (recs := recs) (f := f) (s := tick s) as [->|(v & s1 & -> & P1 & P2)]; [left; reflexivity|exact Hp|now left|].
    destruct (fails_label O "clause"%string _ _ _ (fails_opened O n p eq_refl) k inv recs f s1 P1) as [->|(s2 & -> & P3 & P4)]; [now left|].
    right. eexists. split; [reflexivity|]. rewrite restore_same by (cbn [tick pt]; congruence). split; [exact P3|]. now rewrite P4, P2. }
  assert (G : fails O (rules RStart) p (repeat e (4 ^ S n))) by (cbn [rules]; apply fails_action, fails_seq, fails_label, F).
  destruct (G (fuel_for (opened (S n))) false [] [] (init_state (opened (S n))) eq_refl) as [E|(s & E & _ & Es)].
  - exfalso. exact (run_no_fuel O _ E).
  - unfold parse, run. rewrite E. cbn [parse_result]. replace (errs (init_state (opened (S n)))) with (@nil perr) in Es by reflexivity. rewrite app_nil_r in Es.
    unfold finish. rewrite Es. destruct (4 ^ S n)%nat as [|m] eqn:M; [exfalso; revert M; apply Nat.pow_nonzero; discriminate|].
    change (repeat e (S m)) with (e :: repeat e m) at 1. cbv beta iota.
    rewrite rev_same.
    reflexivity.
Qed.
Print Assumptions C147_recorded.

(** No polynomial in the length of the query bounds the number of errors. *)
Theorem C147_polynomial_refuted O : forall c k : N, exists q,
  c * (1 + N.of_nat (length q)) ^ k < N.of_nat (length (recorded (parse O q))).
Proof.
  intros c k. destruct (exp_beats_poly c k) as (n & H). exists (opened (S n)). destruct (C147_recorded O n) as (e & _ & _ & ->).
  rewrite repeat_length. unfold opened. rewrite app_length, repeat_length. cbn [length].
  apply N.le_lt_trans with (c * (2 * N.of_nat n + 9) ^ k); [apply N.mul_le_mono_l, N.pow_le_mono_l; lia|].
  apply N.lt_le_trans with (4 ^ N.of_nat n); [exact H|]. rewrite Nat2N.inj_pow. apply N.pow_le_mono_r; lia.
Qed.
Print Assumptions C147_polynomial_refuted.

(** What is left for the caller: no text twice, no text lost, the order kept, and the first error stays the first. *)
Theorem C147_told text r : NoDup (map text (told text r)) /\
  (forall x, In x (map text (told text r)) <-> In x (map text (recorded r))) /\
  (exists keep : list bool, told text r = map snd (filter fst (combine keep (recorded r))) /\ length keep = length (recorded r)) /\
  hd_error (told text r) = hd_error (recorded r).
Proof.
  assert (G : forall l seen, NoDup (map text (dedupe text seen l)) /\
    (forall x, In x (map text (dedupe text seen l)) <-> In x (map text l) /\ ~ In x seen) /\
    exists keep : list bool, dedupe text seen l = map snd (filter fst (combine keep l)) /\ length keep = length l).
  { induction l as [|e l IH]; intros seen; cbn [dedupe map]; [split; [constructor|split; [intros x; cbn; tauto|exists []; now split]]|].
    assert (D : existsb (beqb (text e)) seen = true <-> In (text e) seen).
    { rewrite existsb_exists. split; [intros (y & I & E); now apply beqb_eq in E as ->|intros I; exists (text e); split; [exact I|now apply beqb_eq]]. }
    destruct (existsb _ _) eqn:X.
    - destruct (IH seen) as (H1 & H2 & keep & H3 & H4). pose proof (proj1 D eq_refl) as Is. split; [exact H1|]. split.
      + intros x. rewrite H2. split; [intros (A & B); split; [now right|exact B]|intros ([<-|A] & B); [contradiction|now split]].
      + exists (false :: keep). split; [exact H3|cbn; congruence].
    - assert (Ns : ~ In (text e) seen) by (intros I; apply D in I; discriminate). destruct (IH (text e :: seen)) as (H1 & H2 & keep & H3 & H4). split; [|split].
      + cbn [map]. constructor; [|exact H1]. rewrite H2. intros (_ & B). apply B. now left.
      + intros x. cbn [map In]. rewrite H2. split.
        * intros [<-|(A & B)]; [split; [now left|exact Ns]|]. split; [now right|]. intros I. apply B. now right.
        * intros ([<-|A] & B); [now left|]. destruct (beqb (text e) x) eqn:Y; [left; now apply beqb_eq in Y|]. right. split; [exact A|].
          intros [E|I]; [|contradiction]. assert (beqb (text e) x = true) by now apply beqb_eq. congruence.
      + exists (true :: keep). split; [cbn; congruence|cbn; congruence]. }
  destruct r as [v|e es|]; cbn [told recorded]; try (split; [constructor|split; [reflexivity|split; [exists []; now split|reflexivity]]]).
  destruct (G (e :: es) []) as (H1 & H2 & H3). split; [exact H1|]. split; [intros x; rewrite H2; cbn; tauto|]. split; [exact H3|reflexivity].
Qed.
Print Assumptions C147_told.

(** So the caller of a query with one fault is told one error, however the errors are worded. *)
Theorem C147_one O n text : exists e, told text (parse O (opened (S n))) = [e] /\ pe_kind e = KInvalidEncoding.
Proof.
  destruct (C147_recorded O n) as (e & K & _ & E). destruct (C147_told text (parse O (opened (S n)))) as (H1 & H2 & (keep & H3 & _) & H4). rewrite E in *.
  assert (A : forall x, In x (told text (parse O (opened (S n)))) -> x = e).
  { rewrite H3. intros x I. apply in_map_iff in I as ((k & y) & <- & I). apply filter_In in I as (I & _). apply in_combine_r in I. now apply repeat_spec in I. }
  destruct (told text (parse O (opened (S n)))) as [|x [|y l]].
  - exfalso. assert (Z4 : (4 ^ S n)%nat <> 0%nat) by (apply Nat.pow_nonzero; discriminate). destruct (4 ^ S n)%nat; [congruence|discriminate].
  - exists x. split; [reflexivity|]. rewrite (A x); [exact K|now left].
  - exfalso. rewrite (A x), (A y) in H1 by (cbn; auto). inversion H1. cbn in *. tauto.
Qed.
Print Assumptions C147_one.

(** A query without an odd byte, and the same query with the option Memoize of the parser. *)
Example C147_example :
  length (recorded (parse test_oracle (b "((a:/x"))) = 64%nat /\ length (told (fun e => [Z.to_N (off (pe_pos e))]) (parse test_oracle (b "((a:/x"))) = 1%nat /\
  length (recorded (mparse test_oracle (b "((a:/x"))) = 1%nat /\ length (recorded (parse test_oracle (opened 3))) = 64%nat.
Proof. split; [vm_compute; reflexivity|]. split; [vm_compute; reflexivity|]. split; vm_compute; reflexivity. Qed.
