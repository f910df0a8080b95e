(** C15, C66, C71: field paths. *)
From Verif Require Import Bytes Utf8 Utf8Proofs GoStrconv Oracles Ast AstSpec PegSyntax Engine GrammarSpec GrammarFacts Layout LayoutProofs
  LiteralSpec StringProofs PathProofs ParseQuery SimpleQuery RegexLitProofs Prop_Grammar Prop_Layout TestOracle.
From Coq Require Import ZifyBool ZifyN ZifyNat.

(** ** C15 *)
(** Two queries whose tokens differ only in unquoted star segments of their paths (each path
    keeping at least one segment) are accepted together, with the same tree up to positions. *)
Theorem C15_star_segments O k k' n text text' :
  tokens_tree O LOr k n -> same_tokens k k' ->
  layout_query k text -> layout_query k' text' -> scalars text -> scalars text' ->
  ((exists t, parse_plain O (encode text) = QOk t /\ strip t = n) <->
   (exists t, parse_plain O (encode text') = QOk t /\ strip t = n)).
Proof.
  intros T S L L' Hs Hs'. rewrite (C05_same_verdict O k n text), (C05_same_verdict O k' n text'); auto; [tauto|].
  eapply same_tokens_tree; eauto.
Qed.
Print Assumptions C15_star_segments.

Example C15_example :
  let k := TOne (tx "a.b") (tx "<") (tx "1") in let k' := TOne (tx "*.a.*.*.b") (tx "<") (tx "1") in
  same_tokens k k' /\ layout_query k (tx "a.b:<1") /\ layout_query k' (tx "*.a.*.*.b:<1") /\
  exists t t', parse_plain test_oracle (b "a.b:<1") = QOk t /\ parse_plain test_oracle (b "*.a.*.*.b:<1") = QOk t' /\ strip t = strip t'.
Proof.
  assert (Ls : forall a, layout_query (TOne a (tx "<") (tx "1")) (a ++ tx ":<1")).
  { intros a. exists [], (a ++ tx ":<1"), []. rewrite app_nil_r. split; [reflexivity|]. split; [constructor|]. split; [constructor|].
    apply (lay_one a (tx "<") (tx "1") [] [] []); constructor. }
  assert (P : forall c, 97 <= c <= 98 -> segment [c]).
  { intros c H. eexists. apply pc_plain; [|discriminate]. constructor; [left; lia|constructor]. }
  assert (St : segment (tx "*")) by (eexists; apply pc_star).
  split; [|split; [apply (Ls (tx "a.b"))|split; [apply (Ls (tx "*.a.*.*.b"))|]]].
  - apply st_one. right. exists [tx "a"; tx "b"], [tx "*"; tx "a"; tx "*"; tx "*"; tx "b"].
    split; [discriminate|]. split; [discriminate|].
    assert (A : segment (tx "a")) by (apply (P 97); lia). assert (B : segment (tx "b")) by (apply (P 98); lia).
    split; [auto|]. split; [auto 10|]. split; [reflexivity|]. split; reflexivity.
  - vm_compute. do 2 eexists. split; [reflexivity|]. split; reflexivity.
Qed.

(** The second half fails: a quoted star is dropped too. *)
Theorem C15_quoted_star_refuted : forall O,
  exists t, quoted (tx """*""") /\ denotes_string (tx "*") (tx "*") /\
    parse_plain O (b "a.""*"":exists") = QOk t /\ strip t = NExpr EXS [b "a"] [] no_position.
Proof.
  intros O. eexists. split; [|split; [|split]].
  - exists (tx "*"). split; [reflexivity|]. cbn. apply qb_char; [lia..|constructor].
  - cbn. apply ds_char; [lia..|constructor].
  - vm_compute. reflexivity.
  - reflexivity.
Qed.
Print Assumptions C15_quoted_star_refuted.

(** What holds of quoted segments: the text is kept unless it is a single star. *)
Theorem C15_quoted_segments_partial O us : us <> [] -> Forall scalars us -> Forall (fun u => u <> tx "*") us ->
  exists p, parse_plain O (encode (path_text (map quote_text us) ++ tx ":exists")) = QOk (NExpr EXS (map encode us) [] p).
Proof.
  intros Ne Sc St. eexists. apply accept_exists.
  - exists (map encode us). split.
    + apply pieces_path; [destruct us; [congruence|discriminate]|].
      clear Ne St. induction Sc as [|u us S Sc IH]; constructor; auto. apply pc_quoted; [apply quote_text_quoted|now apply unquote_quote_text].
    + clear Ne. induction us as [|u us IH]; [reflexivity|]. inversion Sc as [|? ? Su Sc']; inversion St as [|? ? Nu St']; subst. cbn [map filter]. rewrite <- IH by auto.
      destruct (beqb (encode u) (b "*")) eqn:E; [|reflexivity]. exfalso. apply Nu. apply beqb_eq in E.
      change (b "*") with (encode (tx "*")) in E. apply encode_inj in E; auto. repeat constructor.
  - clear Ne St. induction us as [|u us IH]; [constructor|]. inversion Sc; subst. destruct us as [|u' us].
    + cbn. now apply quote_text_scalars.
    + cbn [map]. rewrite path_text_cons by discriminate. rewrite !scalars_app. split; [now apply quote_text_scalars|]. split; [repeat constructor|]. now apply IH.
Qed.
Print Assumptions C15_quoted_segments_partial.
Example C15_quoted_example :
  exists p, parse_plain test_oracle (b """a.b"".""**"".""x"":exists") = QOk (NExpr EXS [b "a.b"; b "**"; b "x"] [] p).
Proof. vm_compute. eexists. reflexivity. Qed.

(** ** C66 *)
(** The path of an accepted query whose printed form is rejected. *)
Theorem C66_field_string_refuted : forall O, exists f,
  (exists p, parse_plain O (b """a:b"":exists") = QOk (NExpr EXS f [] p)) /\
  forall t, parse_plain O (field_string O f ++ b ":exists") <> QOk t.
Proof.
  intros O. exists [b "a:b"]. split; [vm_compute; eexists; reflexivity|]. intros t. vm_compute. discriminate.
Qed.
Print Assumptions C66_field_string_refuted.
(** The path of an accepted query whose printed form means something else. *)
Theorem C66_field_string_other_refuted : forall O, exists f g,
  (exists p, parse_plain O (b """(!a"":exists") = QOk (NExpr EXS f [] p)) /\ f <> g /\
  exists p, parse_plain O (field_string O f ++ b ":exists)") = QOk (NNot (NExpr EXS g [] p)).
Proof.
  intros O. exists [b "(!a"], [b "a"]. split; [vm_compute; eexists; reflexivity|]. split; [discriminate|]. vm_compute. eexists. reflexivity.
Qed.
Print Assumptions C66_field_string_other_refuted.

(** ** C71: the paths that are printed faithfully. *)
Definition printed_well (O : oracles) (u : text) : Prop :=
  u <> tx "*" /\
  (u <> [] /\ Forall name_char u \/
   (In 32 u \/ In 46 u \/ In 34 u) /\ Forall (quotable (o_is_print O)) u).

Lemma encode_rune_has c k : k < 128 -> In k (encode_rune c) -> c = k.
Proof.
  intros Hk I. destruct (N.eq_dec c k); auto. exfalso.
  pose proof (encode_rune_no c k n Hk) as F. rewrite Forall_forall in F. exact (F k I eq_refl).
Qed.
Lemma encode_in u k : k < 128 -> (In k (encode u) <-> In k u).
Proof.
  intros Hk. induction u as [|c u IH]; [reflexivity|]. rewrite encode_cons, in_app_iff, IH. cbn [In]. split.
  - intros [I|I]; auto. left. now apply encode_rune_has in I.
  - intros [<-|I]; auto. left. rewrite encode_rune_ascii by auto. now left.
Qed.
Lemma has_byte_in c s : has_byte c s = true <-> In c s.
Proof. unfold has_byte. rewrite existsb_exists. split; [intros (x & I & E); apply N.eqb_eq in E; now subst|]. intros I. exists c. split; auto. apply N.eqb_refl. Qed.
Lemma needs_quote_in u : needs_quote (encode u) = true <-> In 32 u \/ In 46 u \/ In 34 u.
Proof. unfold needs_quote. rewrite !orb_true_iff, !has_byte_in, !encode_in by lia. tauto. Qed.

Lemma field_piece_ok O u : scalars u -> printed_well O u ->
  exists t, field_piece_string O (encode u) = encode t /\ scalars t /\ piece t (encode u).
Proof.
  intros Su (_ & [[Ne Nm]|[Q F]]); unfold field_piece_string.
  - exists u. replace (needs_quote (encode u)) with false; [split; auto; split; auto; now apply pc_plain|].
    symmetry. apply not_true_iff_false. rewrite needs_quote_in. rewrite Forall_forall in Nm.
    intros [I|[I|I]]; apply Nm in I; unfold name_char, digit in I; lia.
  - replace (needs_quote (encode u)) with true by (symmetry; now apply needs_quote_in).
    destruct (quote_text_of _ _ Su F) as (t & E & St & Qt & U). exists t. split; auto. split; auto. now apply pc_quoted.
Qed.
Lemma field_string_path O us : us <> [] -> Forall scalars us -> Forall (printed_well O) us ->
  exists t, field_string O (map encode us) = encode t /\ scalars t /\ field t (map encode us).
Proof.
  intros Ne Sc W.
  assert (P : exists ss, ss <> [] /\ field_string O (map encode us) = encode (path_text ss) /\ scalars (path_text ss) /\ Forall2 piece ss (map encode us)).
  { induction us as [|u us IH]; [congruence|]. inversion Sc as [|? ? Su Sc']; inversion W as [|? ? Wu W']; subst.
    destruct (field_piece_ok O u Su Wu) as (t & E & St & P). destruct us as [|u' us].
    - exists [t]. split; [discriminate|]. cbn. rewrite E. repeat split; auto.
    - destruct (IH ltac:(discriminate) Sc' W') as (ss & Ns & Es & Ss & F). exists (t :: ss). split; [discriminate|].
      rewrite path_text_cons by auto. rewrite !scalars_app, !encode_app, <- Es. cbn [map field_string]. cbn [map] in Es. rewrite E. split; [reflexivity|].
      split; [split; auto; split; auto; repeat constructor|]. constructor; auto. }
  destruct P as (ss & Ns & E & Ss & F). exists (path_text ss). split; auto. split; auto. exists (map encode us). split; [now apply pieces_path|].
  clear - W Sc. induction us as [|u us IH]; [reflexivity|]. inversion Sc as [|? ? Su Sc']; inversion W as [|? ? [Nu _] W']; subst. cbn [map filter]. rewrite <- IH by auto.
  destruct (beqb (encode u) (b "*")) eqn:E; [|reflexivity]. exfalso. apply Nu. apply beqb_eq in E.
  change (b "*") with (encode (tx "*")) in E. apply encode_inj in E; auto. repeat constructor.
Qed.
Theorem C71_field_string O us : us <> [] -> Forall scalars us -> Forall (printed_well O) us ->
  exists p, parse_plain O (field_string O (map encode us) ++ b ":exists") = QOk (NExpr EXS (map encode us) [] p).
Proof.
  intros Ne Sc W. destruct (field_string_path O us Ne Sc W) as (t & E & St & F).
  eexists. rewrite E. change (b ":exists") with (encode (tx ":exists")). rewrite <- encode_app. now apply accept_exists.
Qed.
Print Assumptions C71_field_string.
Example C71_example : Forall (printed_well test_oracle) [tx "user_id"; tx "first name."; [233; 46; 10]] /\
  exists p, parse_plain test_oracle (field_string test_oracle [b "user_id"; b "first name."; [195; 169; 46; 10]] ++ b ":exists")
    = QOk (NExpr EXS [b "user_id"; b "first name."; [195; 169; 46; 10]] [] p).
Proof.
  split; [|vm_compute; eexists; reflexivity]. constructor; [|constructor; [|constructor; [|constructor]]].
  - split; [discriminate|]. left. split; [discriminate|]. cbn. unfold name_char, digit. repeat constructor; lia.
  - split; [discriminate|]. right. split; [cbn; tauto|]. cbn. unfold quotable. repeat constructor; lia.
  - split; [discriminate|]. right. split; [cbn; tauto|]. unfold quotable. repeat constructor; cbn; lia.
Qed.
