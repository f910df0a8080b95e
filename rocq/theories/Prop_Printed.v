(** C67, C90: printed forms of values. *)
From Verif Require Import Bytes Utf8 Utf8Proofs GoFloat Oracles TestOracle Ast AstSpec GrammarSpec ParseQuery SimpleQuery FormatFloat FloatProofs NumSpec NumProofs PrintedProofs.
From Coq Require Import Reals.

(** The forms are those of [val_string]; [formats O] says what strconv documents about
    FormatFloat(f, 'f', -1, 64): for a finite double the text is a sign, digits and perhaps a
    point and digits, and ParseFloat gives the double back. *)

(** ** C67 *)
(** An integer and a float print alike: a:1 and a:1.0. *)
Theorem C67_kind_refuted O : o_fmt_float O = format_float -> exists q1 q2 t1 t2 v1 v2 p1 p2,
  parse_plain O q1 = QOk t1 /\ parse_plain O q2 = QOk t2 /\
  t1 = NExpr EQ [b "a"] [v1] p1 /\ t2 = NExpr EQ [b "a"] [v2] p2 /\
  val_string O v1 = val_string O v2 /\ type_of v1 = TyInt /\ type_of v2 = TyFloat.
Proof.
  intros E. exists (b "a:1"), (b "a:1.0"). do 2 eexists.
  exists (AInt 1 (b "1") (pos_of (tx "a:") (tx "1"))), (AFloat (f_of_Z 1) (o_fmt_float O (f_of_Z 1)) (pos_of (tx "a:") (tx "1.0"))). do 2 eexists.
  split; [apply (accept_one O (tx "a") [b "a"] (tx "1"))|]; [apply field_a|now apply ascii_scalars; repeat constructor|now apply ascii_scalars; repeat constructor| |].
  { apply lit_int; [|reflexivity]. exists [], (tx "1"). split; [reflexivity|]. split; [now left|]. split; [|discriminate]. constructor; [unfold digit; cbn; lia|constructor]. }
  split; [apply (accept_one O (tx "a") [b "a"] (tx "1.0"))|]; [apply field_a|now apply ascii_scalars; repeat constructor|now apply ascii_scalars; repeat constructor| |].
  { apply lit_float; [|vm_compute; reflexivity]. exists [], (tx "1"), (tx "0"). split; [reflexivity|]. split; [now left|].
    repeat split; try discriminate; (constructor; [unfold digit; cbn; lia|constructor]). }
  split; [reflexivity|]. split; [reflexivity|]. split; [|now split]. cbn [val_string]. rewrite E. vm_compute. reflexivity.
Qed.
Print Assumptions C67_kind_refuted.

(** ** C90 *)
Theorem C90_printed O q1 t1 o1 f1 vs1 p1 v1 q2 t2 o2 f2 vs2 p2 v2 :
  formats O ->
  parse_plain O q1 = QOk t1 -> subnode (NExpr o1 f1 vs1 p1) t1 -> In v1 vs1 ->
  parse_plain O q2 = QOk t2 -> subnode (NExpr o2 f2 vs2 p2) t2 -> In v2 vs2 ->
  val_string O v1 = val_string O v2 ->
  match v1, v2 with
  | AInt i _ _, AInt j _ _ => i = j
  | AFloat f _ _, AFloat g _ _ => f = g
  | AStr s _, AStr s' _ => s = s'
  | ABool x _, ABool y _ => x = y
  | ARegex pat _ _, ARegex pat' _ _ => pat = pat'
  | ANet n _ _, ANet n' _ _ => n = n'
  | ATime i d _ _, ATime i' d' _ _ => i = i' /\ d = d'
  | AInt i _ _, AFloat f _ _ | AFloat f _ _, AInt i _ _ => double_value f = nearest (IZR i)
  | _, _ => False
  end.
Proof.
  intros Fm P1 S1 J1 P2 S2 J2 E. exact (shapes_same O v1 v2 Fm (accepted_shape O _ _ _ _ _ _ _ P1 S1 J1) (accepted_shape O _ _ _ _ _ _ _ P2 S2 J2) E).
Qed.
Print Assumptions C90_printed.

(** The hypothesis is met by the documented result of FormatFloat. *)
Theorem C90_formatter O : o_fmt_float O = format_float -> formats O.
Proof. apply format_formats. Qed.
Print Assumptions C90_formatter.

(** An oracle with that formatter, and two queries whose values print alike. *)
Definition printing_oracle : oracles := {|
  o_re_parse := o_re_parse test_oracle; o_re_match := o_re_match test_oracle; o_fmt_float := format_float; o_float_other := o_float_other test_oracle;
  o_is_print := o_is_print test_oracle; o_dateparse := o_dateparse test_oracle; o_to_lower := o_to_lower test_oracle; o_text_search := o_text_search test_oracle;
  o_fold := o_fold test_oracle; o_strict_bits := true |}.
Example C90_example : formats printing_oracle /\ exists v1 v2 p1 p2,
  parse_plain printing_oracle (b "a:1.5") = QOk (NExpr EQ [b "a"] [v1] p1) /\
  parse_plain printing_oracle (b "a:1.50") = QOk (NExpr EQ [b "a"] [v2] p2) /\
  val_string printing_oracle v1 = val_string printing_oracle v2 /\ v1 <> v2.
Proof.
  split; [now apply C90_formatter|].
  exists (AFloat (S754_finite false 6755399441055744 (-52)) (b "1.5") (pos_of (tx "a:") (tx "1.5"))), (AFloat (S754_finite false 6755399441055744 (-52)) (b "1.5") (pos_of (tx "a:") (tx "1.50"))). do 2 eexists.
  split; [vm_compute; reflexivity|]. split; [vm_compute; reflexivity|]. split; [reflexivity|discriminate].
Qed.
