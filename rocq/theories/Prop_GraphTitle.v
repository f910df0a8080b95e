(** C150: the texts in the drawing of a query. *)
From Verif Require Import Bytes Utf8 Oracles Ast AstSpec ParseQuery Graph GraphTitle Values Json Matcher QueryMessages MatchApi TestOracle ParserTop MatcherTop.
From Coq Require Import ZifyBool ZifyN ZifyNat.

(** Character references begin with an ampersand. *)
Definition only_references (entities : bytes -> bytes) : Prop := forall s, ~ In 38 s -> entities s = s.

Lemma c_string_whole s : c_string s = s <-> ~ In 0 s.
Proof.
  induction s as [|c s IH]; cbn [c_string In]; [intuition|]. destruct (N.eqb_spec c 0) as [->|Nz].
  - split; [discriminate|intros H; exfalso; apply H; now left].
  - split; [intros [= E] [H|H]; [congruence|now apply IH]|]. intros H. f_equal. apply IH. intuition.
Qed.
Lemma subst_plain name s : ~ In 92 s -> subst_name name s = s.
Proof.
  induction s as [|c s IH]; [reflexivity|]. cbn [In]. intros H. assert (c <> 92) by (intros ->; apply H; now left).
  assert (E : subst_name name (c :: s) = c :: subst_name name s).
  { cbn [subst_name]. destruct c as [|p]; [reflexivity|]. do 7 (try (destruct p as [p|p|]; try reflexivity)); congruence. }
  rewrite E, IH; [reflexivity|intuition].
Qed.
Lemma lines_plain s : ~ In 92 s -> forall line, ~ In 10 line -> Forall (fun l => ~ In 10 l) (label_lines line s) /\
  (concat (map (fun l => l ++ [10]) (label_lines line s)) = line ++ s \/ concat (map (fun l => l ++ [10]) (label_lines line s)) = line ++ s ++ [10]).
Proof.
  induction s as [|c s IH]; cbn [In]; intros H line Hl.
  - cbn [label_lines]. destruct line as [|x line]; cbn [map concat app]; [split; [constructor|now left]|]. split; [repeat constructor; exact Hl|right; now rewrite app_nil_r].
  - assert (Nc : c <> 92) by (intros ->; apply H; now left). assert (Hs : ~ In 92 s) by intuition.
    assert (E : label_lines line (c :: s) = if c =? 10 then line :: label_lines [] s else label_lines (line ++ [c]) s).
    { cbn [label_lines]. destruct c as [|p]; [reflexivity|]. do 7 (try (destruct p as [p|p|]; try reflexivity)); congruence. }
    rewrite E. destruct (N.eqb_spec c 10) as [->|Nt].
    + destruct (IH Hs [] (fun x => x)) as [F C]. split; [constructor; [exact Hl|exact F]|]. cbn [map concat app]. rewrite <- app_assoc. cbn [app] in *.
      destruct C as [C|C]; rewrite C; [now left|now right].
    + destruct (IH Hs (line ++ [c])) as [F C]. { intros I. apply in_app_or in I as [I|[I|[]]]; congruence. }
      split; [exact F|]. rewrite <- !app_assoc in C. exact C.
Qed.

(** The title of the drawing is the query, line by line, if no backslash, ampersand or zero byte occurs in it. *)
Theorem C150_title entities q : only_references entities -> ~ In 92 q -> ~ In 38 q -> ~ In 0 q ->
  Forall (fun l => ~ In 10 l) (title entities q) /\
  (concat (map (fun l => l ++ [10]) (title entities q)) = q \/ concat (map (fun l => l ++ [10]) (title entities q)) = q ++ [10]).
Proof.
  intros R B A Z0. unfold title. rewrite (proj2 (c_string_whole q) Z0), (subst_plain _ _ B), (R _ A).
  destruct (lines_plain q B [] (fun x => x)) as [F C]. split; assumption.
Qed.
Print Assumptions C150_title.

(** Otherwise it may be the title of another query, with other answers: backslashes are lost, *)
Theorem C150_title_refuted : exists O q q' data, answers O q data (Some true) /\ answers O q' data (Some false) /\
  forall entities, only_references entities -> title entities q' = title entities q.
Proof.
  exists test_oracle, (b "a:""t"""), (b "a:""\t"""), (b "{""a"":""t""}").
  split; [do 3 eexists; split; [vm_compute; reflexivity|split; [apply af_none|vm_compute; reflexivity]]|].
  split; [do 3 eexists; split; [vm_compute; reflexivity|split; [apply af_none|vm_compute; reflexivity]]|].
  intros entities R. unfold title. rewrite !R; [reflexivity| |]; vm_compute; intuition discriminate.
Qed.
Print Assumptions C150_title_refuted.
(** and so is everything behind a zero byte. *)
Theorem C150_cut_refuted : exists O q q' data, answers O q data (Some true) /\ answers O q' data (Some false) /\
  forall entities, title entities q' = title entities q.
Proof.
  exists test_oracle, (b "a:/" ++ [0] ++ b "/ OR a:1"), (b "a:/" ++ [0] ++ b "/ OR a:2"), (b "{""a"":1}").
  split; [do 3 eexists; split; [vm_compute; reflexivity|split; [apply af_none|vm_compute; reflexivity]]|].
  split; [do 3 eexists; split; [vm_compute; reflexivity|split; [apply af_none|vm_compute; reflexivity]]|].
  intros entities. reflexivity.
Qed.
Print Assumptions C150_cut_refuted.

(** ** The labels of nodes *)
Lemma const_no_zero s : forallb (fun c => negb (c =? 0)) (b s) = true -> In 0 (b s) <-> False.
Proof. intros H. split; [|intros []]. intros I. rewrite forallb_forall in H. now specialize (H 0 I). Qed.
Lemma in_join x sep l : In x (join sep l) -> In x sep \/ exists y, In y l /\ In x y.
Proof.
  induction l as [|y l IH]; [intros []|]. destruct l as [|z l]; [cbn; intros I; right; exists y; auto|].
  change (join sep (y :: z :: l)) with (y ++ sep ++ join sep (z :: l)). intros I. apply in_app_or in I as [I|I]; [right; exists y; split; [now left|exact I]|].
  apply in_app_or in I as [I|I]; [now left|]. destruct (IH I) as [J|(w & J & K)]; [now left|]. right. exists w. split; [now right|exact K].
Qed.
Lemma join_in x sep l y : In y l -> In x y -> In x (join sep l).
Proof.
  induction l as [|z l IH]; [intros []|]. intros I Ix. destruct l as [|w l]; [destruct I as [->|[]]; exact Ix|].
  change (join sep (z :: w :: l)) with (z ++ sep ++ join sep (w :: l)). apply in_or_app. destruct I as [->|I]; [now left|]. right. apply in_or_app. right. auto.
Qed.

(** A comparison's label arrives in graphviz as it was made exactly if no field name and no printed value has a zero
    byte; the labels of connectives always do. *)
Theorem C150_label O n : c_string (node_label O n) = node_label O n <->
  match n with NExpr o f vs _ => (forall y, In y f -> ~ In 0 y) /\ (forall v, In v vs -> ~ In 0 (val_string O v)) | _ => True end.
Proof.
  destruct n as [l r|l r|n|o f vs p]; cbn [node_label]; try (split; [trivial|reflexivity]).
  rewrite c_string_whole.
  assert (Row : forall v, In 0 (value_row O v) <-> In 0 (val_string O v)).
  { intros v. unfold value_row. rewrite !in_app_iff. repeat (rewrite const_no_zero by reflexivity).
    assert (C : In 0 (val_color v) <-> False) by (destruct v; cbn [val_color]; apply const_no_zero; reflexivity).
    assert (T : In 0 (val_type v) <-> False) by (destruct v; cbn [val_type]; apply const_no_zero; reflexivity). rewrite C, T. tauto. }
  assert (Rows : In 0 (concat (map (value_row O) vs)) <-> exists v, In v vs /\ In 0 (val_string O v)).
  { rewrite in_concat. split.
    - intros (x & I & Z0). apply in_map_iff in I as (v & <- & I). exists v. split; [exact I|now apply Row].
    - intros (v & I & Z0). exists (value_row O v). split; [now apply in_map|now apply Row]. }
  assert (Names : In 0 (join (b ".") f) <-> exists y, In y f /\ In 0 y).
  { split; [|intros (y & I & Z0); now apply (join_in 0 (b ".") f y)]. intros I. apply in_join in I as [I|I]; [|exact I]. now apply const_no_zero in I. }
  assert (Hop : In 0 (html_escape (op_text o)) <-> False) by (destruct o; vm_compute; intuition discriminate).
  assert (Hn : In 0 (html_escape (b "op")) <-> False) by (vm_compute; intuition discriminate).
  assert (L : In 0 (expr_label O o f vs) <-> (exists y, In y f /\ In 0 y) \/ exists v, In v vs /\ In 0 (val_string O v)).
  { unfold expr_label. rewrite !in_app_iff. repeat (rewrite const_no_zero by reflexivity). rewrite Names, Hop, Hn.
    assert (E : forall X (c : bytes), (In 0 c <-> False) -> In 0 (match vs with [] => [] | _ => c ++ X end) <-> vs <> [] /\ In 0 X).
    { intros X c Hc. destruct vs as [|v vs']; [cbn; tauto|]. rewrite in_app_iff, Hc. intuition discriminate. }
    rewrite E by (apply const_no_zero; reflexivity). rewrite Rows.
    assert (vs <> [] /\ (exists v, In v vs /\ In 0 (val_string O v)) <-> exists v, In v vs /\ In 0 (val_string O v)); [|tauto].
    split; [tauto|]. intros (v & I & Z0). split; [intros ->; destruct I|eauto]. }
  rewrite L. split.
  - intros H. split; intros x I Z0; apply H; [left|right]; eauto.
  - intros [H1 H2] [(y & I & Z0)|(v & I & Z0)]; [exact (H1 y I Z0)|exact (H2 v I Z0)].
Qed.
Print Assumptions C150_label.
(** A field name can have one, and its label is cut in the middle. *)
Theorem C150_label_refuted : exists q t, (forall O, parse_plain O q = QOk t) /\ exists rest, forall O, node_label O t = c_string (node_label O t) ++ 0 :: rest O /\
  c_string (node_label O t) = b "<TABLE BORDER=""0"" CELLBORDER=""1"" CELLSPACING=""0"" CELLPADDING=""2"">
<TR>
	<TD COLSPAN=""2"" CELLPADDING=""8"">a".
Proof.
  exists (b """a\u0000b"":true"). eexists. split; [intros O; vm_compute; reflexivity|].
  eexists (fun O => _). intros O. cbn [node_label]. split; [|reflexivity]. reflexivity.
Qed.
Print Assumptions C150_label_refuted.

Example C150_example : (forall entities, only_references entities -> title entities (b "a:1" ++ [10] ++ b "AND b:2") = [b "a:1"; b "AND b:2"]) /\
  only_references (fun s => s) /\ title (fun s => s) (b "a:/\Gx\d/") = [b "a:/queryxd/"].
Proof.
  split; [|split; [intros s _; reflexivity|reflexivity]]. intros entities R. unfold title. rewrite R; [reflexivity|]. vm_compute. intuition discriminate.
Qed.
