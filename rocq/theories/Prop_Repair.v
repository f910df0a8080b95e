(** C114: what could stand in the place of an error about a value, and the advice to put an
    unknown word in quotes. *)
From Verif Require Import Bytes Utf8 Utf8Proofs GoStrconv Oracles Ast PegSyntax Grammar Engine EngineBasics GrammarSpec GrammarFacts ShapeSpec FaultSpec PathProofs SimpleQuery
  ParseQuery ParserTop Viable ViableForm ViableStart Prop_Viable Prop_Fault TestOracle.
From Coq Require Import ZifyBool ZifyN ZifyNat.

(** ** What could stand there *)
(** Errors about a value: any value; about one value in parentheses: any value or list; about a
    string, which may be the name of a field: any string; about a missing quote or slash: these. *)
Inductive remedy : err_kind -> text -> Prop :=
| rm_unknown w t : value_form t -> remedy (KUnknownValue w) t
| rm_close t : value_form t -> remedy KCloseParen t
| rm_regex n s t : value_form t -> remedy (KBadRegex n s) t
| rm_float n s t : value_form t -> remedy (KBadFloat n s) t
| rm_int s t : value_form t -> remedy (KBadInt s) t
| rm_net n s t : value_form t -> remedy (KBadNet n s) t
| rm_time n s t : value_form t -> remedy (KBadTime n s) t
| rm_string n t : quoted t -> remedy (KBadString n) t
| rm_single t : values_form t -> remedy KParenSingle t
| rm_untermstr : remedy KUntermStr (tx """")
| rm_untermregex : remedy KUntermRegex (tx "/").

Theorem C114_remedy O q e : parse_plain O q = QErr (QSyntax e) -> pe_kind e <> KInvalidEncoding ->
  exists before after, q = encode before ++ after /\ scalars before /\
    p_off (qerr_pos (QSyntax (E := unit) (T := unit) e)) = Z.of_nat (length (encode before)) /\
    forall t, scalars t -> remedy (pe_kind e) t -> exists more, scalars more /\ query_form (before ++ t ++ more).
Proof.
  intros P Nk. unfold parse_plain, parse_query in P.
  destruct (parse O q) as [v|e0 es|] eqn:E; [|cbn in P; injection P as ->|discriminate P].
  - destruct v; try discriminate P. destruct (walk_validator O n); discriminate P.
  - destruct (first_error_full O q e es E Nk) as (bf & af & H1 & H2 & H3 & _ & H5 & _). exists bf, af. do 3 (split; [assumption|]).
    intros t St R. assert (Pl : place (pe_kind e) t) by (destruct R; cbn; auto).
    destruct (H5 t St Pl) as (z & Sz & Lz). exists z. split; [exact Sz|]. rewrite app_assoc. now apply form_query.
Qed.

(** 256 is no octet; any value could stand there, for example true, followed by a parenthesis. *)
Example C114_remedy_example : exists e, parse_plain test_oracle (b "(a:1 AND b:256.1.1.1)") = QErr (QSyntax e) /\ pe_kind e = KBadNet 9 (b "256.1.1.1/32") /\
  remedy (pe_kind e) (tx "true") /\ query_form (tx "(a:1 AND b:" ++ tx "true" ++ tx ")").
Proof.
  eexists. split; [vm_compute; reflexivity|]. split; [reflexivity|]. split; [apply rm_net; unfold value_form; auto 10|].
  assert (P : exists t, parse_plain test_oracle (encode (tx "(a:1 AND b:" ++ tx "true" ++ tx ")")) = QOk t) by (eexists; vm_compute; reflexivity).
  destruct P as (t & P). apply C102_form in P as (text & Sc & E & F). apply encode_inj in E; [now rewrite E| |exact Sc].
  apply Forall_forall, forallb_forall. vm_compute. reflexivity.
Qed.

(** Every error that is about a value has a remedy. *)
Theorem C114_every O q e : parse_plain O q = QErr (QSyntax e) ->
  (exists l, pe_kind e = KNoMatch l) \/ pe_kind e = KInvalidEncoding \/ exists t, scalars t /\ remedy (pe_kind e) t.
Proof.
  intros P.
  assert (Vt : value_form (tx "true")) by (unfold value_form; auto 10).
  assert (Qt : quoted (tx """""")) by (exists []; split; [reflexivity|constructor]).
  destruct (C109_error O q e P) as [(l & E)|[(bf & af & _ & _ & _ & E & _)|(bf & own & rest & af & _ & _ & _ & _ & F)]]; [left; eauto|auto|right; right].
  destruct F; first [exists (tx "true"); split; [repeat constructor|constructor; first [exact Vt|apply vf_one; exact Vt]]
    |exists (tx """"""); split; [repeat constructor|constructor; exact Qt]|exists (tx """"); split; [repeat constructor|constructor]
    |exists (tx "/"); split; [repeat constructor|constructor]].
Qed.

(** ** The advice to put the word in quotes *)
(** did you mean, followed by the word in quotes (parser_gen.go:2084) *)
Definition advice (O : oracles) (k : err_kind) : option bytes :=
  match k with KUnknownValue w => Some (quote (o_is_print O) w) | _ => None end.

(** For words of characters that can be quoted, it is a string with the word as its value, and it
    could stand in the place of the error. *)
Lemma same_start a1 b1 a2 b2 : scalars a1 -> scalars a2 -> encode a1 ++ b1 = encode a2 ++ b2 -> length (encode a1) = length (encode a2) -> a1 = a2.
Proof.
  intros S1 S2 E L. apply encode_inj; auto. apply (f_equal (firstn (length (encode a1)))) in E.
  rewrite firstn_app, firstn_all, Nat.sub_diag, firstn_O, app_nil_r in E. rewrite L, firstn_app, firstn_all, Nat.sub_diag, firstn_O, app_nil_r in E. exact E.
Qed.
Theorem C114_advice O q e w : parse_plain O q = QErr (QSyntax e) -> pe_kind e = KUnknownValue w ->
  exists before own rest after, q = encode (before ++ own ++ rest) ++ after /\ scalars (before ++ own ++ rest) /\
    w = encode own /\ p_off (qerr_pos (QSyntax (E := unit) (T := unit) e)) = Z.of_nat (length (encode before)) /\
    (Forall (quotable (o_is_print O)) own ->
     exists t, advice O (pe_kind e) = Some (encode t) /\ scalars t /\ literal O t (pos_of before t) (AStr w (pos_of before t)) /\
       exists more, scalars more /\ query_form (before ++ t ++ more)).
Proof.
  intros P K. destruct (C109_error O q e P) as [(l & E)|[(bf & af & _ & _ & _ & E & _)|(bf & own & rest & af & Eq & Sc & _ & _ & F)]]; [congruence|congruence|].
  rewrite K in F. pose proof Sc as Sc'. apply Forall_app in Sc' as [Sb Sc']. apply Forall_app in Sc' as [So Sr].
  assert (Hw : w = encode own) by (inversion F; auto).
  assert (Ho : p_off (qerr_pos (QSyntax (E := unit) (T := unit) e)) = Z.of_nat (length (encode bf))) by (revert F; generalize (qerr_pos (QSyntax (E := unit) (T := unit) e)); intros ps F; inversion F; subst; reflexivity).
  exists bf, own, rest, af. do 4 (split; [assumption|]). intros Qo.
  destruct (quote_text_of _ own So Qo) as (t & Et & St & Qt & Ut). exists t. rewrite K. cbn [advice]. rewrite Hw, Et.
  split; [reflexivity|]. split; [exact St|]. split; [now apply lit_string|].
  destruct (C114_remedy O q e P) as (bf' & af' & Eq' & Sb' & Ho' & R); [congruence|].
  assert (bf' = bf).
  { apply (same_start bf' af' bf (encode (own ++ rest) ++ af)); auto; [|lia]. rewrite <- Eq', Eq, encode_app, <- !app_assoc. reflexivity. }
  subst bf'. apply R; auto. rewrite K. constructor. now left.
Qed.

(** In a query that is one comparison, following the advice gives the comparison with the word. *)
Theorem C114_simple O f l w e : field f l -> scalars f -> scalars w -> Forall (quotable (o_is_print O)) w ->
  parse_plain O (encode (f ++ tx ":" ++ w)) = QErr (QSyntax e) -> pe_kind e = KUnknownValue (encode w) ->
  exists t p p', advice O (pe_kind e) = Some (encode t) /\
    parse_plain O (encode (f ++ tx ":") ++ encode t) = QOk (NExpr EQ l [AStr (encode w) p] p').
Proof.
  intros F Sf Sw Qw _ K. destruct (quote_text_of _ w Sw Qw) as (t & Et & St & Qt & Ut). exists t, (pos_of (f ++ tx ":") t), (pos_of [] (f ++ tx ":" ++ t)).
  rewrite K. cbn [advice]. rewrite Et. split; [reflexivity|]. rewrite <- encode_app, <- app_assoc. apply accept_one; auto. now apply lit_string.
Qed.
Example C114_example : exists e,
  parse_plain test_oracle (b "name:smith") = QErr (QSyntax e) /\ pe_kind e = KUnknownValue (b "smith") /\
  advice test_oracle (pe_kind e) = Some (b """smith""") /\
  exists p p', parse_plain test_oracle (b "name:""smith""") = QOk (NExpr EQ [b "name"] [AStr (b "smith") p] p').
Proof. eexists. split; [vm_compute; reflexivity|]. split; [reflexivity|]. split; [reflexivity|]. do 2 eexists. vm_compute. reflexivity. Qed.

(** The word is taken to reach to the next white space: put in quotes it swallows the parenthesis,
    and the query is still refused. *)
Theorem C114_swallow_refuted : exists before w rest, forall O, exists e e' t,
  parse_plain O (before ++ w ++ rest) = QErr (QSyntax e) /\ pe_kind e = KUnknownValue w /\
  p_off (qerr_pos (QSyntax (E := unit) (T := unit) e)) = Z.of_nat (length before) /\
  advice O (pe_kind e) = Some t /\ parse_plain O (before ++ t ++ rest) = QErr e'.
Proof.
  exists (b "(a:"), (b "foo)"), []. intros O. do 3 eexists. split; [vm_compute; reflexivity|]. split; [reflexivity|]. split; [reflexivity|].
  split; [reflexivity|]. vm_compute. reflexivity.
Qed.
(** In a list, the comma. *)
Theorem C114_list_refuted : exists before w rest, forall O, exists e e' t,
  parse_plain O (before ++ w ++ rest) = QErr (QSyntax e) /\ pe_kind e = KUnknownValue w /\
  p_off (qerr_pos (QSyntax (E := unit) (T := unit) e)) = Z.of_nat (length before) /\
  advice O (pe_kind e) = Some t /\ parse_plain O (before ++ t ++ rest) = QErr e'.
Proof.
  exists (b "a:("), (b "foo,"), (b " ""bar"")"). intros O. do 3 eexists. split; [vm_compute; reflexivity|]. split; [reflexivity|]. split; [reflexivity|].
  split; [reflexivity|]. vm_compute. reflexivity.
Qed.
(** Go writes a bell as \a in quotes, which is not a string of the language. *)
Theorem C114_escape_refuted : exists before w, forall O, exists e e' t,
  parse_plain O (before ++ w) = QErr (QSyntax e) /\ pe_kind e = KUnknownValue w /\
  p_off (qerr_pos (QSyntax (E := unit) (T := unit) e)) = Z.of_nat (length before) /\
  advice O (pe_kind e) = Some t /\ parse_plain O (before ++ t) = QErr e'.
Proof.
  exists (b "a:"), ([7] ++ b "x"). intros O. do 3 eexists. split; [vm_compute; reflexivity|]. split; [reflexivity|]. split; [reflexivity|].
  split; [reflexivity|]. vm_compute. reflexivity.
Qed.
Print Assumptions C114_advice.
