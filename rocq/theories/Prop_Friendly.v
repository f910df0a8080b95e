(** C94, C95: node names in the statistics. *)
From Verif Require Import Bytes Utf8 Utf8Proofs GoFloat LiteralSpec Oracles Ast AstSpec GrammarSpec ParseQuery PathProofs Layout LayoutProofs Json Values StrMatch Matcher MatchSpec MatchProofs MatchApi MatcherTop QueryMessages
  Stats StatsSpec StatsProofs CountProofs FormatFloat PrintedProofs FriendlyProofs TestOracle.
From Verif Require Import Prop_Paths Prop_Printed.
From Verif Require Prop_Grammar WasmProofs.

(** ** C94 *)
(** The name of a node: its connective, or the comparison as text. *)
Definition label (O : oracles) (n : node) : bytes :=
  match n with
  | NAnd _ _ => b "AND"
  | NOr _ _ => b "OR"
  | NNot _ => b "NOT"
  | NExpr o f vs _ => friendly_string O o f vs
  end.
Theorem C94_names O q t m ds m' : new_matcher O q = NewOk m -> parse_plain O q = QOk t -> session O (mt_root m) ds m' ->
  (exists c k, stats m' = MatchStats (label O t) c k []) /\
  forall p n, subtree t p n -> exists st, node_at m' p = Some st /\ ns_name st = label O n.
Proof.
  intros Nm P S. destruct (new_matcher_accepted O q t P) as (r & B & E). rewrite E in Nm. injection Nm as <-. cbn [mt_root] in S.
  destruct (session_work O _ _ _ S) as (Sh & _).
  assert (H : forall p n, subtree t p n -> exists st, node_at m' p = Some st /\ ns_name st = label O n).
  { intros p n Sp. assert (N : exists st, node_at r p = Some st /\ ns_name st = label O n).
    { clear -B Sp. revert r B. induction Sp as [t|x y p n _ IH|x y p n _ IH|x y p n _ IH|x y p n _ IH|x p n _ IH]; intros m B; cbn [build bind] in B.
      - destruct t as [x y|x y|x|o f vs p]; cbn [build] in B.
        + destruct (build O x); [|discriminate]. destruct (build O y); [|discriminate]. injection B as <-. eexists. now split.
        + destruct (build O x); [|discriminate]. destruct (build O y); [|discriminate]. injection B as <-. eexists. now split.
        + destruct (build O x); [|discriminate]. injection B as <-. eexists. now split.
        + destruct (build_exprs O o vs); [|discriminate]. injection B as <-. eexists. now split.
      - destruct (build O x) as [m1|]; [|discriminate]. destruct (build O y) as [m2|]; [|discriminate]. injection B as <-. cbn. now apply IH.
      - destruct (build O x) as [m1|]; [|discriminate]. destruct (build O y) as [m2|]; [|discriminate]. injection B as <-. cbn. now apply IH.
      - destruct (build O x) as [m1|]; [|discriminate]. destruct (build O y) as [m2|]; [|discriminate]. injection B as <-. cbn. now apply IH.
      - destruct (build O x) as [m1|]; [|discriminate]. destruct (build O y) as [m2|]; [|discriminate]. injection B as <-. cbn. now apply IH.
      - destruct (build O x) as [m1|]; [|discriminate]. injection B as <-. cbn. now apply IH. }
    destruct N as (st & N & En). destruct (node_at_shape r m' p st (eq_sym Sh) N) as (st' & N' & En'). exists st'. split; [exact N'|congruence]. }
  split; [|exact H]. destruct (H [] t (st_here t)) as (st & N & En). exists (ns_checked st), (ns_matched st). rewrite <- En.
  cbn in N. injection N as <-. destruct m'; reflexivity.
Qed.
Print Assumptions C94_names.
Example C94_example : exists m m' st1 st2, new_matcher test_oracle (b "a.b:>=1 OR !b:(1,true)") = NewOk m /\
  session test_oracle (mt_root m) [b "{}"; b "{""b"":true}"] m' /\ stats m' = MatchStats (b "OR") 2 1 [] /\
  node_at m' [DLeft] = Some st1 /\ ns_name st1 = b "a.b:>= 1" /\ node_at m' [DRight; DSub] = Some st2 /\ ns_name st2 = b "b: (1,true)".
Proof.
  do 4 eexists. split; [vm_compute; reflexivity|]. split.
  { repeat (eapply ss_match; [vm_compute; reflexivity|]). apply ss_nil. }
  repeat split; vm_compute; reflexivity.
Qed.

(** ** C95 *)
(** The name of a comparison that is not a query: a string with a bell character, a path of
    wildcards only. *)
Theorem C95_rejected_refuted O : exists q t o f vs p,
  parse_plain O q = QOk t /\ t = NExpr o f vs p /\ forall t', parse_plain O (label O t) <> QOk t'.
Proof.
  exists (b "a:""\u0007"""). do 5 eexists. split; [vm_compute; reflexivity|]. split; [reflexivity|]. intros t'. vm_compute. discriminate.
Qed.
Print Assumptions C95_rejected_refuted.
Theorem C95_star_refuted O : exists q t o f vs p,
  parse_plain O q = QOk t /\ t = NExpr o f vs p /\ forall t', parse_plain O (label O t) <> QOk t'.
Proof.
  exists (b "*:exists"). do 5 eexists. split; [vm_compute; reflexivity|]. split; [reflexivity|]. intros t'. vm_compute. discriminate.
Qed.
Print Assumptions C95_star_refuted.

(** The name of a comparison that is a query with another meaning: a regular expression with
    escaped slashes. *)
Theorem C95_other_refuted : exists O q t o f vs p x y,
  parse_plain O q = QOk t /\ t = NExpr o f vs p /\ parse_plain O (label O t) = QOk (NOr x y).
Proof.
  exists test_oracle, (b "a:/b\/ OR c:\/d/"). do 7 eexists. split; [vm_compute; reflexivity|]. split; [reflexivity|]. vm_compute. reflexivity.
Qed.
Print Assumptions C95_other_refuted.

(** The name of a comparison with a large float is not a query either: it is printed without a
    fraction and read as an integer. *)
Theorem C95_float_refuted O : o_fmt_float O = format_float -> exists q t o f vs p,
  parse_plain O q = QOk t /\ t = NExpr o f vs p /\ forall t', parse_plain O (label O t) <> QOk t'.
Proof.
  intros E. exists (b "a:100000000000000000000.0").
  set (x := f_of_Z 100000000000000000000).
  exists (NExpr EQ [b "a"] [AFloat x (o_fmt_float O x) {| p_line := 1; p_col := 3; p_off := 2; p_len := 23 |}] {| p_line := 1; p_col := 1; p_off := 0; p_len := 25 |}).
  do 4 eexists. split; [vm_compute; reflexivity|]. split; [reflexivity|]. intros t'.
  cbn [label friendly_string val_string]. rewrite E.
  change (parse_plain O (field_string O [b "a"] ++ b ":" ++ [] ++ b " " ++ format_float x) <> QOk t').
  replace (field_string O [b "a"] ++ b ":" ++ [] ++ b " " ++ format_float x) with (b "a: 100000000000000000000") by (vm_compute; reflexivity).
  vm_compute. discriminate.
Qed.
Print Assumptions C95_float_refuted.

(** Values that are printed as a literal: strings without characters that are printed with an
    escape unknown to the grammar, floats with a fraction or in the range of the integers and not
    the negative zero, regular expressions without a slash that do not end in a backslash. *)
Definition shown_well (O : oracles) (v : aval) : Prop :=
  match v with
  | AStr s _ => exists u, s = encode u /\ scalars u /\ Forall (quotable (o_is_print O)) u
  | AFloat f sv _ => In 46 sv \/ (- 2 ^ 63 <= int_value sv < 2 ^ 63)%Z /\ f <> S754_zero true
  | ARegex _ sv _ => exists body, sv = b "/" ++ body ++ b "/" /\ ~ In 47 body /\ last body 0 <> 92
  | AInt _ _ _ | ABool _ _ | ANet _ _ _ | ATime _ _ _ _ => True
  end.

Lemma Forall2_weaken {A B} (P Q : A -> B -> Prop) l l' : (forall x y, P x y -> Q x y) -> Forall2 P l l' -> Forall2 Q l l'.
Proof. intros H. induction 1; constructor; auto. Qed.
Lemma shown_cases O v : shown_well O v -> readable O v \/ readable_float v.
Proof. destruct v; cbn; tauto. Qed.

(** The checks do not tell the value read from the value. *)
Lemma read_orderable v v' : read_for v v' -> orderable v -> orderable v'.
Proof. intros [f sv p H E|w H] Ho; [constructor|exact Ho]. Qed.
Lemma read_simable v v' : read_for v v' -> simable v -> simable v'.
Proof. intros [f sv p H E|w H] Ho; [inversion Ho|exact Ho]. Qed.
Lemma read_num v v' x : read_for v v' -> denotes_num v x -> denotes_num v' x.
Proof. intros [f sv p H E|w H] Ho; [|exact Ho]. inversion Ho; subst. constructor. Qed.
Lemma read_time t d s p v' : read_for (ATime t d s p) v' -> v' = ATime t d s p.
Proof. intros H. now inversion H. Qed.
Lemma read_checked O o f vs vs' p :
  Forall2 (fun v v' => read_for v v' /\ val_string O v' = val_string O v) vs vs' ->
  args_ok o vs /\ distinct_ok O o vs /\ (o = BET -> exists v w, vs = [v; w] /\ range_ok v w) ->
  checked O (NExpr o f vs' p).
Proof.
  intros F (A & (D1 & D2) & B) o' f' ws p' S1. assert (Ei : o' = o /\ ws = vs') by (inversion S1; subst; now split). destruct Ei as (-> & ->). clear S1. rename vs' into ws. split; [|split; [split|]].
  - destruct o; cbn in *.
    + intros ->. inversion F; subst. congruence.
    + destruct A as (v & -> & Ho). inversion F as [|? v' ? ? (H & _) F']; subst. inversion F'; subst. exists v'. eauto using read_orderable.
    + destruct A as (v & -> & Ho). inversion F as [|? v' ? ? (H & _) F']; subst. inversion F'; subst. exists v'. eauto using read_orderable.
    + destruct A as (v & -> & Ho). inversion F as [|? v' ? ? (H & _) F']; subst. inversion F'; subst. exists v'. eauto using read_orderable.
    + destruct A as (v & -> & Ho). inversion F as [|? v' ? ? (H & _) F']; subst. inversion F'; subst. exists v'. eauto using read_orderable.
    + destruct A as (v & w & -> & Ho & Hw). inversion F as [|? v' ? ? (H & _) F']; subst. inversion F' as [|? w' ? ? (H' & _) F'']; subst. inversion F''; subst.
      exists v', w'. eauto using read_orderable.
    + destruct A as (N & A). split; [intros ->; inversion F; subst; congruence|]. intros v' J. destruct (WasmProofs.Forall2_in_r _ _ _ F _ J) as (v & Jv & (H & _)). eauto using read_simable.
    + subst. now inversion F.
    + subst. now inversion F.
  - intros i j v w Hi Hj E.
    assert (G : forall i v', nth_error ws i = Some v' -> exists v, nth_error vs i = Some v /\ val_string O v' = val_string O v).
    { clear -F. induction F as [|v v' vs ws (_ & E) F IH]; intros [|i] x H; try discriminate H; [injection H as <-; exists v; split; [reflexivity|exact E]|apply IH; exact H]. }
    destruct (G _ _ Hi) as (v1 & Hv & Ev). destruct (G _ _ Hj) as (w1 & Hw & Ew). apply (D1 i j v1 w1 Hv Hw). congruence.
  - intros Eo (v & Jv & Ev) (w & Jw & Ew). apply (D2 Eo).
    + destruct (WasmProofs.Forall2_in_r _ _ _ F _ Jv) as (v1 & J1 & (_ & E1)). exists v1. split; [exact J1|congruence].
    + destruct (WasmProofs.Forall2_in_r _ _ _ F _ Jw) as (v1 & J1 & (_ & E1)). exists v1. split; [exact J1|congruence].
  - intros Eo. destruct (B Eo) as (v & w & -> & Rg). inversion F as [|? v' ? ? (H & _) F']; subst. inversion F' as [|? w' ? ? (H' & _) F'']; subst. inversion F''; subst.
    exists v', w'. split; [reflexivity|]. inversion Rg; subst.
    + eapply range_num; eauto using read_num.
    + apply read_time in H. apply read_time in H'. subst. now apply range_time.
    + apply read_time in H'. subst. eapply range_mixed; eauto using read_num.
Qed.

(** Otherwise, with a path of names that are printed faithfully, the name is read back as the same
    comparison. *)
Theorem C95_reads_back_partial O q t o us vs p : formats O ->
  parse_plain O q = QOk t -> subnode (NExpr o (map encode us) vs p) t ->
  us <> [] -> Forall scalars us -> Forall (printed_well O) us ->
  (forall v, In v vs -> shown_well O v) ->
  exists n vs', parse_plain O (label O (NExpr o (map encode us) vs p)) = QOk n /\
    Forall2 read_for vs vs' /\ strip n = strip (NExpr o (map encode us) vs' p) /\
    label O (NExpr o (map encode us) vs p) = label O (NExpr o (map encode us) vs' p).
Proof.
  intros Fm P S0 Ne Su W R. pose proof (accepted_literals O q t _ _ _ _ P S0) as Lit.
  assert (V : exists vs', Forall2 (fun v v' => read_for v v' /\ val_string O v' = val_string O v /\
      exists t', val_string O v' = encode t' /\ scalars t' /\ literal O t' (val_pos v') v') vs vs').
  { clear -Fm Lit R. induction vs as [|v vs IH]; [exists []; constructor|].
    destruct IH as (vs' & F); [intros; apply R; now right|intros; apply Lit; now right|].
    destruct (Lit v (or_introl eq_refl)) as (k & Sk & Lk).
    destruct (readable_reads O k _ v Fm Sk Lk (shown_cases O v (R v (or_introl eq_refl)))) as (v' & t' & Rv & Es & Ep & Et & St & Lt).
    exists (v' :: vs'). constructor; [|exact F]. split; [exact Rv|]. split; [exact Es|]. exists t'. rewrite Es, Ep. auto. }
  destruct V as (vs' & F).
  apply Prop_Grammar.C03_language in P as (_ & _ & _ & _ & C).
  assert (Cn : checked O (NExpr o (map encode us) vs' p)).
  { apply (read_checked O o (map encode us) vs vs' p); [|exact (C o (map encode us) vs p S0)].
    eapply Forall2_weaken; [|exact F]. intros ? ? H. split; apply H. }
  assert (Es : label O (NExpr o (map encode us) vs p) = label O (NExpr o (map encode us) vs' p)).
  { cbn [label]. unfold friendly_string. do 4 f_equal.
    assert (M : map (val_string O) vs' = map (val_string O) vs) by (clear -F; induction F as [|v v' vs vs' (_ & E & _) F IH]; cbn; congruence).
    destruct F as [|v v' vs vs' H F]; [reflexivity|]. destruct F; [cbn in M; congruence|]. now rewrite M. }
  assert (Lv : forall v, In v vs' -> exists t', val_string O v = encode t' /\ scalars t' /\ literal O t' (val_pos v) v).
  { intros v J. destruct (WasmProofs.Forall2_in_r _ _ _ F _ J) as (w & _ & (_ & _ & H)). exact H. }
  destruct (friendly_parses O o us vs' p Cn Lv Ne Su W) as (n & Pn & En).
  exists n, vs'. split; [rewrite Es; exact Pn|]. split; [|split; [exact En|exact Es]].
  eapply Forall2_weaken; [|exact F]. intros ? ? H. apply H.
Qed.
Print Assumptions C95_reads_back_partial.

(** Nor do the matchers. *)
Lemma read_eq_matcher O v v' : read_for v v' -> eq_matcher O v = eq_matcher O v'.
Proof. intros [f sv p H ->|w H]; reflexivity. Qed.
Lemma build_read O o f vs vs' p p' : label O (NExpr o f vs p) = label O (NExpr o f vs' p') -> Forall2 read_for vs vs' ->
  build O (NExpr o f vs p) = build O (NExpr o f vs' p').
Proof.
  cbn [label build]. intros E F. rewrite E. replace (build_exprs O o vs') with (build_exprs O o vs); [reflexivity|].
  assert (Eq : expr_eq O vs = expr_eq O vs').
  { unfold expr_eq. destruct F as [|v v' vs vs' H F]; [reflexivity|]. cbn [eq_matchers]. rewrite (read_eq_matcher O _ _ H).
    replace (eq_matchers O vs') with (eq_matchers O vs); [reflexivity|]. clear -F. induction F as [|v v' vs vs' H F IH]; [reflexivity|].
    cbn [eq_matchers]. now rewrite (read_eq_matcher O _ _ H), IH. }
  assert (En : expr_numeric o vs = expr_numeric o vs').
  { destruct F as [|v v' vs vs' H F]; [reflexivity|]. destruct H as [g sv q H ->|w H]; destruct F; try reflexivity; now destruct w. }
  assert (Eb : expr_between vs = expr_between vs').
  { destruct F as [|v v' vs vs' H F]; [reflexivity|]. destruct F as [|w w' ? ? H' F]; [now destruct H as [g sv q H ->|[] H]|]. destruct F; [|now destruct H as [g sv q H ->|[] H]].
    destruct H as [g sv q H ->|x H]; destruct H' as [g' sv' q' H' ->|x' H']; try reflexivity; now destruct x. }
  destruct o; cbn [build_exprs]; congruence.
Qed.

(** The name as a query then gives the same answers. *)
Theorem C95_same_answers_partial O q o us vs p data r : formats O ->
  parse_plain O q = QOk (NExpr o (map encode us) vs p) ->
  us <> [] -> Forall scalars us -> Forall (printed_well O) us ->
  (forall v, In v vs -> shown_well O v) ->
  (answers O (label O (NExpr o (map encode us) vs p)) data r <-> answers O q data r).
Proof.
  intros Fm P Ne Su W R. destruct (C95_reads_back_partial O q _ o us vs p Fm P (sub_refl _) Ne Su W R) as (n & vs' & Pn & F & En & El).
  rewrite !answers_iff. assert (B : build O n = build O (NExpr o (map encode us) vs p)).
  { rewrite <- (build_strip O n), En, build_strip. symmetry. now apply build_read. }
  split; intros (t' & m & P' & B' & A); [exists (NExpr o (map encode us) vs p), m|exists n, m]; (split; [assumption|split; [congruence|assumption]]).
Qed.
Print Assumptions C95_same_answers_partial.

Example C95_example : exists v w p, parse_plain printing_oracle (b """first name"".id:><(1.5,2.25)") = QOk (NExpr BET [b "first name"; b "id"] [v; w] p) /\
  label printing_oracle (NExpr BET [b "first name"; b "id"] [v; w] p) = b """first name"".id:>< (1.5,2.25)" /\
  formats printing_oracle /\ Forall scalars [tx "first name"; tx "id"] /\ Forall (printed_well printing_oracle) [tx "first name"; tx "id"] /\
  map encode [tx "first name"; tx "id"] = [b "first name"; b "id"] /\ In 46 (val_string printing_oracle v) /\ In 46 (val_string printing_oracle w).
Proof.
  do 3 eexists. split; [vm_compute; reflexivity|]. split; [vm_compute; reflexivity|]. split; [now apply C90_formatter|].
  split; [repeat constructor|]. split; [|split; [reflexivity|split; cbn; tauto]].
  constructor; [|constructor; [|constructor]]; (split; [discriminate|]).
  - right. split; [cbn; tauto|]. cbn. unfold quotable. repeat (constructor; [lia|]). constructor.
  - left. split; [discriminate|]. unfold name_char, digit. cbn. repeat (constructor; [lia|]). constructor.
Qed.

(** Floats without a fraction. *)
Example C95_whole_example : exists v w p n, parse_plain printing_oracle (b "id:(2.0,0.5)") = QOk (NExpr EQ [b "id"] [v; w] p) /\
  shown_well printing_oracle v /\ shown_well printing_oracle w /\ ~ In 46 (val_string printing_oracle v) /\
  parse_plain printing_oracle (b "id: (2,0.5)") = QOk n /\ label printing_oracle (NExpr EQ [b "id"] [v; w] p) = b "id: (2,0.5)" /\
  strip n <> strip (NExpr EQ [b "id"] [v; w] p).
Proof.
  do 4 eexists. split; [vm_compute; reflexivity|]. split; [right; split; [vm_compute; split; [discriminate|reflexivity]|discriminate]|].
  split; [left; cbn; tauto|]. split; [cbn; lia|]. split; [vm_compute; reflexivity|]. split; [vm_compute; reflexivity|]. cbn. discriminate.
Qed.
