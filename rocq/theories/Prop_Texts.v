(** C115-C118: the texts of errors and messages. *)
From Verif Require Import Bytes Utf8 Utf8Proofs GoStrconv Oracles Ast PegSyntax Engine Expected Validators Visitors ParseQuery ParserTop QueryMessages
  Marshal MarshalSpec MarshalProofs JsonSpec GoItoa ItoaProofs GrammarSpec ShapeSpec FaultSpec LiteralSpec LiteralProofs NetLitProofs Faults Prop_Fault Wasm WasmProofs Reasons ReasonSpec ReasonProofs Texts TestOracle.
From Coq Require Import ZifyBool ZifyN ZifyNat.

Section T.
Context (O : oracles) (T : texts).
Notation text_of e := (error_text O T (pe_kind e)).

(** ** C115: an error about a value shows the value in brackets *)
Definition shows_value (k : err_kind) : bool :=
  match k with KUnknownValue _ | KBadRegex _ _ | KBadFloat _ _ | KBadInt _ | KBadNet _ _ | KBadTime _ _ => true | _ => false end.
(** as it is written, except that in regular expressions an escaped slash is shown as a slash
    and addresses are completed *)
Definition shown_as (own u : GrammarSpec.text) : Prop :=
  u = own \/ (regex_lit own /\ unslashed own u) \/ (ip_lit own /\ ~ In 47 own /\ u = own ++ tx "/32").
Theorem C115_quotes q e : parse_plain O q = QErr (QSyntax e) -> shows_value (pe_kind e) = true ->
  exists before own after u head tail, q = encode (before ++ own) ++ after /\ scalars (before ++ own) /\ own <> [] /\
    p_off (qerr_pos (QSyntax (E := unit) (T := unit) e)) = Z.of_nat (length (encode before)) /\
    text_of e = head ++ b "[" ++ encode u ++ b "]" ++ tail /\ ~ In 91 head /\ shown_as own u.
Proof.
  intros P K. destruct (C109_error O q e P) as [(l & E)|[(bf & af & _ & _ & _ & E & _)|(bf & own & rest & af & -> & Sc & _ & No & F)]].
  - rewrite E in K. discriminate.
  - rewrite E in K. discriminate.
  - assert (Q : forall k p, fault O bf own rest k p -> shows_value k = true ->
      p_off p = Z.of_nat (length (encode bf)) /\ exists u head tail, error_text O T k = head ++ b "[" ++ encode u ++ b "]" ++ tail /\ ~ In 91 head /\ shown_as own u).
    { intros k p Fk Kk.
      assert (Hd : forall s : string, forallb (fun c => negb (c =? 91)) (b s) = true -> ~ In 91 (b s)).
      { intros s H I0. rewrite forallb_forall in H. apply H in I0. discriminate. }
      destruct Fk; try discriminate Kk; (split; [reflexivity|]).
      - exists u, (b "invalid regular expression "). eexists. split; [cbn [error_text]; change (b "invalid regular expression [") with (b "invalid regular expression " ++ b "["); rewrite <- !app_assoc; change (b "]: ") with (b "]" ++ b ": "); rewrite <- !app_assoc; reflexivity|]. split; [now apply Hd|]. right. left. auto.
      - exists own, (b "invalid float value "), []. split; [cbn [error_text]; rewrite app_nil_r; change (b "invalid float value [") with (b "invalid float value " ++ b "["); now rewrite <- app_assoc|]. split; [now apply Hd|]. now left.
      - exists u, (b "invalid network value "). eexists. split; [cbn [error_text]; change (b "invalid network value [") with (b "invalid network value " ++ b "["); change (b "]: ") with (b "]" ++ b ": "); rewrite <- !app_assoc; reflexivity|]. split; [now apply Hd|].
        destruct H1 as [[_ ->]|[N47 ->]]; [now left|]. right. right. auto.
      - exists own, (b "invalid datetime value "). eexists. split; [cbn [error_text]; change (b "invalid datetime value [") with (b "invalid datetime value " ++ b "["); change (b "]: ") with (b "]" ++ b ": "); rewrite <- !app_assoc; reflexivity|]. split; [now apply Hd|]. now left.
      - exists own, (b "invalid integer value "), []. split; [cbn [error_text]; rewrite app_nil_r; change (b "invalid integer value [") with (b "invalid integer value " ++ b "["); now rewrite <- app_assoc|]. split; [now apply Hd|]. now left.
      - exists own, (b "unknown type of value "). eexists. split; [cbn [error_text]; change (b "unknown type of value [") with (b "unknown type of value " ++ b "["); change (b "] -- did you mean ") with (b "]" ++ b " -- did you mean "); rewrite <- !app_assoc; reflexivity|]. split; [now apply Hd|]. now left. }
    destruct (Q _ _ F K) as (Of & u & head & tail & Et & Nh & Sh).
    exists bf, own, (encode rest ++ af), u, head, tail. split; [now rewrite app_assoc, encode_app, <- app_assoc|].
    split. { rewrite app_assoc in Sc. apply Forall_app in Sc as [Sc _]. exact Sc. } auto 10.
Qed.
(** So the value can be found in the query by looking for what is in the brackets, unless it is
    an address without prefix length or a regular expression with an escaped slash. *)
Corollary C115_found q e : parse_plain O q = QErr (QSyntax e) -> shows_value (pe_kind e) = true ->
  (forall n sv, pe_kind e <> KBadNet n sv) -> (forall n sv, pe_kind e <> KBadRegex n sv) ->
  exists before own after head tail, q = encode before ++ own ++ after /\
    p_off (qerr_pos (QSyntax (E := unit) (T := unit) e)) = Z.of_nat (length (encode before)) /\
    text_of e = head ++ b "[" ++ own ++ b "]" ++ tail /\ ~ In 91 head.
Proof.
  intros P K Nn Nr. destruct (C109_error O q e P) as [(l & E)|[(bf & af & _ & _ & _ & E & _)|(bf & own & rest & af & -> & Sc & _ & No & F)]].
  - rewrite E in K. discriminate.
  - rewrite E in K. discriminate.
  - exists bf, (encode own), (encode rest ++ af).
    assert (Hd : forall s : string, forallb (fun c => negb (c =? 91)) (b s) = true -> ~ In 91 (b s)).
    { intros s H I0. rewrite forallb_forall in H. apply H in I0. discriminate. }
    revert F K Nn Nr. generalize (qerr_pos (QSyntax (E := unit) (T := unit) e)). intros p F K Nn Nr.
    assert (G : p_off p = Z.of_nat (length (encode bf)) /\ exists head tail, error_text O T (pe_kind e) = head ++ b "[" ++ encode own ++ b "]" ++ tail /\ ~ In 91 head).
    { remember (pe_kind e) as k eqn:Ek. clear Ek. destruct F; try discriminate K; (split; [reflexivity|]).
      - now destruct (Nr n (encode u)).
      - exists (b "invalid float value "), []. split; [cbn [error_text]; rewrite app_nil_r; change (b "invalid float value [") with (b "invalid float value " ++ b "["); now rewrite <- app_assoc|]. now apply Hd.
      - now destruct (Nn n (encode u)).
      - exists (b "invalid datetime value "). eexists. split; [cbn [error_text]; change (b "invalid datetime value [") with (b "invalid datetime value " ++ b "["); change (b "]: ") with (b "]" ++ b ": "); rewrite <- !app_assoc; reflexivity|]. now apply Hd.
      - exists (b "invalid integer value "), []. split; [cbn [error_text]; rewrite app_nil_r; change (b "invalid integer value [") with (b "invalid integer value " ++ b "["); now rewrite <- app_assoc|]. now apply Hd.
      - exists (b "unknown type of value "). eexists. split; [cbn [error_text]; change (b "unknown type of value [") with (b "unknown type of value " ++ b "["); change (b "] -- did you mean ") with (b "]" ++ b " -- did you mean "); rewrite <- !app_assoc; reflexivity|]. now apply Hd. }
    destruct G as (Of & head & tail & Et & Nh). exists head, tail. split; [now rewrite !encode_app, <- !app_assoc|]. auto.
Qed.
End T.
Print Assumptions C115_quotes.
Print Assumptions C115_found.

(** The two exceptions: what is in the brackets is not in the query. *)
Theorem C115_net_refuted : exists q, forall O T, exists e u head tail, parse_plain O q = QErr (QSyntax e) /\ shows_value (pe_kind e) = true /\
  error_text O T (pe_kind e) = head ++ b "[" ++ u ++ b "]" ++ tail /\ ~ In 91 head /\ ~ In 93 u /\ forall x y, q <> x ++ u ++ y.
Proof.
  exists (b "a:256.1.1.1"). intros O T. eexists. exists (b "256.1.1.1/32"), (b "invalid network value "). eexists.
  split; [vm_compute; reflexivity|]. split; [reflexivity|]. split; [vm_compute; reflexivity|].
  split; [intros H; vm_compute in H; repeat (destruct H as [H|H]; [discriminate|]); exact H|].
  split; [intros H; vm_compute in H; repeat (destruct H as [H|H]; [discriminate|]); exact H|].
  intros x y E. assert (I0 : In 47 (b "a:256.1.1.1")) by (rewrite E; apply in_or_app; right; apply in_or_app; left; vm_compute; tauto).
  vm_compute in I0. repeat (destruct I0 as [I0|I0]; [discriminate|]). exact I0.
Qed.
Print Assumptions C115_net_refuted.
(** An oracle for which no regular expression is valid *)
Definition strict_oracle : oracles := {|
  o_re_parse := fun _ => None; o_re_match := o_re_match test_oracle; o_fmt_float := o_fmt_float test_oracle; o_float_other := o_float_other test_oracle;
  o_is_print := o_is_print test_oracle; o_dateparse := o_dateparse test_oracle; o_to_lower := o_to_lower test_oracle;
  o_text_search := o_text_search test_oracle; o_fold := o_fold test_oracle; o_strict_bits := true |}.
Theorem C115_regex_refuted T : exists O q e u head tail, parse_plain O q = QErr (QSyntax e) /\ shows_value (pe_kind e) = true /\
  error_text O T (pe_kind e) = head ++ b "[" ++ u ++ b "]" ++ tail /\ ~ In 91 head /\ ~ In 93 u /\ forall x y, q <> x ++ u ++ y.
Proof.
  exists strict_oracle, (b "a:/x\/(/"). eexists. exists (b "/x/(/"), (b "invalid regular expression "). eexists.
  split; [vm_compute; reflexivity|]. split; [reflexivity|]. split; [vm_compute; reflexivity|].
  split; [intros H; vm_compute in H; repeat (destruct H as [H|H]; [discriminate|]); exact H|].
  split; [intros H; vm_compute in H; repeat (destruct H as [H|H]; [discriminate|]); exact H|].
  intros x y E. vm_compute in E. do 9 (destruct x as [|? x]; [discriminate E|]). discriminate E.
Qed.
Print Assumptions C115_regex_refuted.
Example C115_example T : exists e, parse_plain test_oracle (b "b:1 AND a:2021-13-01") = QErr (QSyntax e) /\ shows_value (pe_kind e) = true /\
  p_off (qerr_pos (QSyntax (E := unit) (T := unit) e)) = 10%Z /\
  error_text test_oracle T (pe_kind e) = b "invalid datetime value [2021-13-01]: month out of range".
Proof. eexists. split; [vm_compute; reflexivity|]. split; [reflexivity|]. split; reflexivity. Qed.

(** ** C118: the reason *)
Lemma ndigits_length n t : ndigits n t -> length t = n.
Proof. now intros [_ L]. Qed.
Section R.
Context (O : oracles) (T : texts).

Lemma reason_some own : timestamp_lit own -> worthless O own -> time_reason (encode own) <> None.
Proof.
  intros L W E. destruct (proj1 (time_reason_none (encode own) no_position) E) as (v & V). apply (W no_position v). now apply lit_time.
Qed.
Lemma date_len y m d : ndigits 4 y -> ndigits 2 m -> ndigits 2 d -> length (y ++ tx "-" ++ m ++ tx "-" ++ d) = 10%nat.
Proof. intros [_ Y] [_ M] [_ D]. rewrite !app_length, Y, M, D. reflexivity. Qed.

Theorem C118_time q e n sv : parse_plain O q = QErr (QSyntax e) -> pe_kind e = KBadTime n sv ->
  exists r, error_text O T (pe_kind e) = b "invalid datetime value [" ++ sv ++ b "]: " ++ r /\
    ((exists y m d, sv = y ++ tx "-" ++ m ++ tx "-" ++ d /\ ndigits 4 y /\ ndigits 2 m /\ ndigits 2 d /\ first_wrong (date_faults y m d) r) \/
     (exists y m d sep h mi s f z, sv = y ++ tx "-" ++ m ++ tx "-" ++ d ++ sep ++ h ++ tx ":" ++ mi ++ tx ":" ++ s ++ f ++ z /\
        ndigits 4 y /\ ndigits 2 m /\ ndigits 2 d /\ length sep = 1%nat /\ ndigits 2 h /\ ndigits 2 mi /\ ndigits 2 s /\ secfrac f /\ zone z /\
        first_wrong (time_faults y m d sep h mi s z) r)).
Proof.
  intros P K. destruct (C109_error O q e P) as [(l & E)|[(bf & af & _ & _ & _ & E & _)|(bf & own & rest & af & _ & _ & _ & _ & F)]]; try congruence.
  rewrite K in *. clear K P. revert F. generalize (qerr_pos (QSyntax (E := unit) (T := unit) e)). intros p F. inversion F as [| | | |n0 L W| | | | | |]; subst.
  pose proof (reason_some own L W) as Nr. cbn [error_text]. destruct (time_reason (encode own)) as [r|] eqn:R; [|congruence]. cbn [or_empty]. exists r. split; [reflexivity|].
  destruct L as [L|L].
  - right. pose proof (datetime_ascii own L) as A. rewrite (encode_ascii _ A) in *.
    destruct L as (d0 & sep & u & E & (y & m & d & Ed & Y & M & D) & Sp & (h & mi & s & f & z & Eu & H & Mi & Se & Fr & Zn)). subst d0 u.
    assert (Sl : exists c, sep = [c]) by (destruct Sp as [->|[->| ->]]; eexists; reflexivity). destruct Sl as (c & ->).
    exists y, m, d, [c], h, mi, s, f, z. split; [rewrite E, <- !app_assoc; reflexivity|]. repeat (split; [assumption||reflexivity|]).
    unfold time_reason in R. rewrite E in R. rewrite app_length, (date_len y m d Y M D) in R. cbn [app length] in R.
    replace (Nat.eqb (10 + S (length (h ++ tx ":" ++ mi ++ tx ":" ++ s ++ f ++ z))) 10) with false in R by lia.
    pose proof (time_explained y m d c h mi s f z Y M D H Mi Se Fr Zn) as X. cbn [app] in X, R. rewrite R in X. exact X.
  - left. pose proof (date_ascii own L) as A. rewrite (encode_ascii _ A) in *. destruct L as (y & m & d & -> & Y & M & D).
    exists y, m, d. repeat (split; [assumption||reflexivity|]). unfold time_reason in R. rewrite (date_len y m d Y M D) in R. cbn [Nat.eqb] in R.
    pose proof (date_explained y m d Y M D) as X. rewrite R in X. exact X.
Qed.

Theorem C118_net q e n sv : parse_plain O q = QErr (QSyntax e) -> pe_kind e = KBadNet n sv ->
  exists r o1 o2 o3 o4 m, error_text O T (pe_kind e) = b "invalid network value [" ++ sv ++ b "]: " ++ r /\
    sv = (o1 ++ tx "." ++ o2 ++ tx "." ++ o3 ++ tx "." ++ o4) ++ match m with [] => tx "/32" | _ => m end /\
    octet o1 /\ octet o2 /\ octet o3 /\ octet o4 /\ cidr m /\ first_wrong (net_faults O o1 o2 o3 o4 m) r.
Proof.
  intros P K. destruct (C109_error O q e P) as [(l & E)|[(bf & af & _ & _ & _ & E & _)|(bf & own & rest & af & _ & _ & _ & _ & F)]]; try congruence.
  rewrite K in *. clear K P. revert F. generalize (qerr_pos (QSyntax (E := unit) (T := unit) e)). intros p F. inversion F as [| | |n0 u L W Sh| | | | | | |]; subst.
  assert (Sv : encode u = net_text (encode own)).
  { pose proof (proj2 (dotted_ip_lit own) L) as D. rewrite (encode_ascii own (dotted_ascii _ D)). unfold net_text, has_byte.
    destruct Sh as [[I0 ->]|[N0 ->]].
    - rewrite (encode_ascii own (dotted_ascii _ D)). replace (existsb (N.eqb 47) own) with true; [reflexivity|]. symmetry. apply existsb_exists. exists 47. auto.
    - rewrite encode_app, (encode_ascii own (dotted_ascii _ D)). replace (existsb (N.eqb 47) own) with false; [reflexivity|]. symmetry.
      destruct (existsb (N.eqb 47) own) eqn:X; [|reflexivity]. apply existsb_exists in X as (c & Ic & Ec). apply N.eqb_eq in Ec. subst c. contradiction. }
  rewrite Sv. cbn [error_text].
  assert (Nr : net_reason O (net_text (encode own)) <> None).
  { intros E. destruct (proj1 (net_reason_none O (encode own) no_position) E) as (v & V). apply (W no_position v). now apply lit_ip. }
  destruct (net_reason O (net_text (encode own))) as [r|] eqn:R; [|congruence]. cbn [or_empty]. exists r.
  pose proof (proj2 (dotted_ip_lit own) L) as D. rewrite (encode_ascii own (dotted_ascii _ D)) in *. clear D.
  destruct L as (o1 & o2 & o3 & o4 & m & -> & O1 & O2 & O3 & O4 & C). exists o1, o2, o3, o4, m. split; [reflexivity|].
  pose proof (net_explained O o1 o2 o3 o4 m O1 O2 O3 O4 C) as X. rewrite R in X. cbn [explains] in X.
  split; [|auto 10]. unfold net_text.
  assert (N47 : ~ In 47 (o1 ++ tx "." ++ o2 ++ tx "." ++ o3 ++ tx "." ++ o4)).
  { assert (Dg : forall o, octet o -> ~ In 47 o). { intros o [[Do _] _] I0. unfold digits in Do. rewrite Forall_forall in Do. apply Do in I0. unfold digit in I0. lia. }
    intros I0. apply in_app_or in I0 as [I0|I0]; [exact (Dg _ O1 I0)|]. apply in_app_or in I0 as [I0|I0]; [destruct I0 as [I0|[]]; discriminate|].
    apply in_app_or in I0 as [I0|I0]; [exact (Dg _ O2 I0)|]. apply in_app_or in I0 as [I0|I0]; [destruct I0 as [I0|[]]; discriminate|].
    apply in_app_or in I0 as [I0|I0]; [exact (Dg _ O3 I0)|]. apply in_app_or in I0 as [I0|I0]; [destruct I0 as [I0|[]]; discriminate|]. exact (Dg _ O4 I0). }
  destruct C as [->|(b0 & -> & B)].
  - rewrite app_nil_r. unfold has_byte. destruct (existsb _ _) eqn:X'; [|rewrite <- !app_assoc; reflexivity].
    apply existsb_exists in X' as (c & Ic & Ec). apply N.eqb_eq in Ec. subst c. contradiction.
  - replace (has_byte 47 _) with true; [rewrite <- !app_assoc; reflexivity|]. symmetry. apply existsb_exists. exists 47. split; [|reflexivity].
    do 7 (apply in_or_app; right). now left.
Qed.
End R.
Print Assumptions C118_time.
Print Assumptions C118_net.
(** The reason is missing if the date is followed by a lower-case t or a blank, or the zone is a
    lower-case z: all of these are accepted by the grammar. *)
Theorem C118_reason_refuted : exists q1 q2 q3, forall O T, Forall (fun q => exists e sv, parse_plain O q = QErr (QSyntax e) /\
    error_text O T (pe_kind e) = b "invalid datetime value [" ++ sv ++ b "]: ") [q1; q2; q3].
Proof.
  exists (b "a:2021-01-01t00:00:00Z"), (b "a:2021-01-01 00:00:00Z"), (b "a:2021-01-01T00:00:00z"). intros O T.
  constructor; [|constructor; [|constructor; [|constructor]]].
  - eexists. exists (b "2021-01-01t00:00:00Z"). split; [vm_compute; reflexivity|vm_compute; reflexivity].
  - eexists. exists (b "2021-01-01 00:00:00Z"). split; [vm_compute; reflexivity|vm_compute; reflexivity].
  - eexists. exists (b "2021-01-01T00:00:00z"). split; [vm_compute; reflexivity|vm_compute; reflexivity].
Qed.
Print Assumptions C118_reason_refuted.
(** The day is judged after the time: *)
Example C118_example T : exists e e', parse_plain test_oracle (b "a:2021-02-31T24:00:00Z") = QErr (QSyntax e) /\
  error_text test_oracle T (pe_kind e) = b "invalid datetime value [2021-02-31T24:00:00Z]: hour out of range" /\
  parse_plain test_oracle (b "a:1.2.03.400/33") = QErr (QSyntax e') /\
  error_text test_oracle T (pe_kind e') = b "invalid network value [1.2.03.400/33]: IPv4 field has octet with leading zero".
Proof. do 2 eexists. split; [vm_compute; reflexivity|]. split; [vm_compute; reflexivity|]. split; [vm_compute; reflexivity|vm_compute; reflexivity]. Qed.

(** ** C116: the text of an error tells its kind *)
Definition err_tag (k : err_kind) : nat :=
  match k with
  | KInvalidEncoding => 0 | KNoMatch _ => 1 | KPanic => 2 | KEmptyField => 3 | KParenSingle => 4 | KCloseParen => 5 | KUnknownValue _ => 6 | KBadString _ => 7
  | KBadRegex _ _ => 8 | KBadBool _ => 9 | KBadFloat _ _ => 10 | KBadInt _ => 11 | KBadNet _ _ => 12 | KBadTime _ _ => 13 | KUntermStr => 14 | KUntermRegex => 15
  end%nat.
Definition check_tag (k : verr) : nat * option op :=
  match k with
  | VeNeedsNumeric o => (0, Some o) | VeNeedsStringy o => (1, Some o) | VeNoArgs o => (2, Some o) | VeExactly o _ => (3, Some o) | VeAtLeast o _ => (4, Some o)
  | VeDuplicate _ _ _ => (5, None) | VeConflictBool _ _ _ => (6, None) | VeSecondDatetime => (7, None) | VeSecondGreater => (8, None)
  end%nat.
Definition complaint {E M} (e : qerr E M) : option (nat + nat * option op) :=
  match e with QSyntax pe => Some (inl (err_tag (pe_kind pe))) | QInvalid k _ => Some (inr (check_tag k)) | _ => None end.

(** How each text begins *)
Definition label (x : nat + nat * option op) : bytes :=
  match x with
  | inl n => b (nth n ["invalid encoding"; "no match found, expected: "; ""; "empty field"; "unnecessary parenthesis for only one value"; "unexpected closing parenthesis";
      "unknown type of value ["; "invalid string: "; "invalid regular expression ["; "invalid boolean value ["; "invalid float value ["; "invalid integer value [";
      "invalid network value ["; "invalid datetime value ["; "unterminated string"; "unterminated regular expression"]%string ""%string)
  | inr (n, Some o) => b "[" ++ op_text o ++ b "] operation " ++
      b (nth n ["needs numeric arguments"; "needs string, or boolean arguments"; "does not accept arguments"; "requires exactly "; "requires at least "]%string ""%string)
  | inr (n, None) => b (nth n [""; ""; ""; ""; ""; "duplicate argument ["; "conflicting boolean value ["; "second argument must"; "[><] operation requires the second argument"]%string ""%string)
  end.
Lemma b_app (x y : string) : b (x ++ y)%string = b x ++ b y.
Proof. unfold b. induction x as [|c x IH]; [reflexivity|]. cbn. now rewrite IH. Qed.
Lemma has_prefix_app x y : has_prefix x (x ++ y) = true.
Proof. apply has_prefix_spec. eauto. Qed.
Lemma has_prefix_self x : has_prefix x x = true.
Proof. rewrite <- (app_nil_r x) at 2. apply has_prefix_app. Qed.
Lemma error_label O T k : k <> KPanic -> has_prefix (label (inl (err_tag k))) (error_text O T k) = true.
Proof.
  intros Nk. destruct k; try congruence; cbn [err_tag error_text label nth]; try apply has_prefix_app; try reflexivity.
Qed.
Lemma check_label k : has_prefix (label (inr (check_tag k))) (verr_text k) = true.
Proof.
  destruct k; cbn [check_tag verr_text label nth]; rewrite <- ?app_assoc; try apply has_prefix_self; try apply has_prefix_app; try reflexivity.
  all: rewrite !app_assoc; do 2 rewrite <- app_assoc; rewrite <- ?app_assoc.
  all: repeat rewrite app_assoc; rewrite <- (app_assoc _ (json_int _)); apply has_prefix_app.
Qed.
Lemma prefixes_meet : forall x y s, has_prefix x s = true -> has_prefix y s = true -> has_prefix x y = true \/ has_prefix y x = true.
Proof.
  induction x as [|c x IH]; intros [|d y] s Hx Hy; auto. destruct s as [|a s]; [discriminate|]. cbn [has_prefix] in *.
  apply andb_true_iff in Hx as [E1 Hx], Hy as [E2 Hy]. destruct (IH y s Hx Hy) as [H|H]; rewrite H; [left|right]; lia.
Qed.
Definition op_list : list op := [EQ; LT; LTE; GT; GTE; BET; SIM; EXS; NUL].
Definition all_complaints : list (nat + nat * option op) :=
  map inl [0;1;3;4;5;6;7;8;9;10;11;12;13;14;15]%nat ++ map inr (list_prod [0;1;2;3;4]%nat (map Some op_list) ++ [(5, None); (6, None); (7, None); (8, None)]%nat).
Lemma complaint_listed {E M} (e : qerr E M) x : complaint e = Some x -> (forall pe, e = QSyntax pe -> pe_kind pe <> KPanic) -> In x all_complaints.
Proof.
  intros C Np. unfold all_complaints. apply in_or_app. destruct e as [pe| | |k p| | |]; try discriminate C; injection C as <-.
  - left. apply in_map. specialize (Np pe eq_refl). destruct (pe_kind pe); try congruence; cbn; tauto.
  - right. apply in_map, in_or_app. assert (Io : forall o, In (Some o) (map Some op_list)) by (intros []; cbn; tauto).
    destruct k; cbn [check_tag]; [left; apply in_prod; [cbn; tauto|apply Io]..|right; cbn; tauto|right; cbn; tauto|right; cbn; tauto|right; cbn; tauto].
Qed.
Definition tag_eqb (x y : nat + nat * option op) : bool :=
  match x, y with
  | inl n, inl m => Nat.eqb n m
  | inr (n, Some o), inr (m, Some o') => Nat.eqb n m && op_eqb o o'
  | inr (n, None), inr (m, None) => Nat.eqb n m
  | _, _ => false
  end.
Lemma tag_eqb_eq x y : tag_eqb x y = true -> x = y.
Proof.
  destruct x as [n|[n [o|]]], y as [m|[m [o'|]]]; cbn; intros H; try discriminate.
  - apply Nat.eqb_eq in H. congruence.
  - apply andb_true_iff in H as [H1 H2]. apply Nat.eqb_eq in H1. destruct o, o'; try discriminate; congruence.
  - apply Nat.eqb_eq in H. congruence.
Qed.
Lemma labels_apart : forallb (fun x => forallb (fun y => negb (has_prefix (label x) (label y)) || tag_eqb x y) all_complaints) all_complaints = true.
Proof. vm_compute. reflexivity. Qed.
Lemma complaint_label {E M} O T show (e : qerr E M) x : complaint e = Some x -> (forall pe, e = QSyntax pe -> pe_kind pe <> KPanic) ->
  has_prefix (label x) (qerr_text O T show e) = true.
Proof.
  intros C Np. destruct e as [pe| | |k p| | |]; try discriminate C; injection C as <-; cbn [qerr_text].
  - apply error_label. now apply Np.
  - apply check_label.
Qed.
Lemma same_label {E M} O T show (e e' : qerr E M) x x' : complaint e = Some x -> complaint e' = Some x' ->
  (forall pe, e = QSyntax pe -> pe_kind pe <> KPanic) -> (forall pe, e' = QSyntax pe -> pe_kind pe <> KPanic) ->
  qerr_text O T show e = qerr_text O T show e' -> x = x'.
Proof.
  intros C C' Np Np' Et. pose proof (complaint_label O T show e x C Np) as L. pose proof (complaint_label O T show e' x' C' Np') as L'. rewrite Et in L.
  pose proof labels_apart as A. rewrite forallb_forall in A.
  pose proof (complaint_listed e x C Np) as I1. pose proof (complaint_listed e' x' C' Np') as I2.
  destruct (prefixes_meet _ _ _ L L') as [H|H].
  - specialize (A x I1). rewrite forallb_forall in A. specialize (A x' I2). rewrite H in A. now apply tag_eqb_eq.
  - specialize (A x' I2). rewrite forallb_forall in A. specialize (A x I1). rewrite H in A. symmetry. now apply tag_eqb_eq.
Qed.
Lemma plain_error O q e : parse_plain O q = QErr e -> (exists x, complaint e = Some x) /\ forall pe, e = QSyntax pe -> pe_kind pe <> KPanic.
Proof.
  intros P. split.
  - unfold parse_plain, parse_query in P. pose proof (parse_spec O q) as S0. destruct (parse O q) as [v|e0 es|]; [| |contradiction].
    + destruct S0 as (rs & x & _ & _ & -> & _). cbn in P. destruct (walk_validator O x); cbn in P; try discriminate P. injection P as <-. eexists. reflexivity.
    + injection P as <-. eexists. reflexivity.
  - intros pe ->. now apply (C109_never O q pe).
Qed.
(** Rejected queries with the same message are rejected for the same kind of mistake (and by a check of the same operation). *)
Theorem C116_kinds O T q q' e e' show : parse_plain O q = QErr e -> parse_plain O q' = QErr e' ->
  qerr_text O T show e = qerr_text O T show e' -> exists x, complaint e = Some x /\ complaint e' = Some x.
Proof.
  intros P P' Et. destruct (plain_error O q e P) as ((x & C) & Np). destruct (plain_error O q' e' P') as ((x' & C') & Np').
  exists x. split; [exact C|]. rewrite C'. f_equal. symmetry. eapply same_label; eassumption.
Qed.
Print Assumptions C116_kinds.
(** The web page recognises an incomplete query by the first words of the message. *)
Theorem C116_web O T q : (forall t, parse_plain O q <> QOk t) ->
  exists e, p_wrap O q = WebRes [] [err_convert e q] /\ page_of O T (err_convert e q) = err_page O T e q /\
    (pg_msg (err_page O T e q) = b "incomplete query" <-> exists pe l, e = QSyntax pe /\ pe_kind pe = KNoMatch l).
Proof.
  intros R.
  assert (G : forall e : qerr unit hint, (exists x, complaint e = Some x) -> (forall pe, e = QSyntax pe -> pe_kind pe <> KPanic) ->
    page_of O T (err_convert e q) = err_page O T e q /\ (pg_msg (err_page O T e q) = b "incomplete query" <-> exists pe l, e = QSyntax pe /\ pe_kind pe = KNoMatch l)).
  { intros e (x & C) Np. pose proof (complaint_label O T (web_hint_text T) e x C Np) as L.
    assert (D : (exists pe l, e = QSyntax pe /\ pe_kind pe = KNoMatch l) \/ x <> inl 1%nat).
    { destruct e as [pe| | |k p| | |]; try discriminate C; injection C as <-; [|right; discriminate].
      destruct (pe_kind pe) eqn:K; try (right; discriminate). left. eauto. }
    assert (Pre : has_prefix (b "no match found") (qerr_text O T (web_hint_text T) e) = true <-> x = inl 1%nat).
    { split.
      - intros H. assert (Li : In x all_complaints) by (eapply complaint_listed; eassumption).
        assert (A : forallb (fun y => negb (has_prefix (label y) (b "no match found") || has_prefix (b "no match found") (label y)) || tag_eqb y (inl 1%nat)) all_complaints = true) by (vm_compute; reflexivity).
        rewrite forallb_forall in A. specialize (A x Li). destruct (prefixes_meet _ _ _ L H) as [X|X]; rewrite X, ?orb_true_r in A; now apply tag_eqb_eq.
      - intros ->. cbn [label nth] in L. apply has_prefix_spec in L as (t & ->). change (b "no match found, expected: ") with (b "no match found" ++ b ", expected: "). rewrite <- app_assoc. apply has_prefix_app. }
    unfold err_page. destruct D as [(pe & l & -> & K)|Nx].
    - assert (x = inl 1%nat) as Ex by (cbn in C; rewrite K in C; injection C as <-; reflexivity).
      rewrite (proj2 Pre Ex). destruct pe as [pk pp]. cbn [pe_kind] in K. subst pk. split; [reflexivity|]. split; [|reflexivity]. intros _. do 2 eexists. split; reflexivity.
    - cbv zeta. destruct (has_prefix (b "no match found") (qerr_text O T (web_hint_text T) e)) eqn:H; [destruct Nx; apply Pre; reflexivity|].
      assert (Ec : err_convert e q = {| w_kind := MError; w_text := WError e; w_start := p_off (qerr_pos e); w_end := p_off (qerr_pos e) + p_len (qerr_pos e) |}).
      { destruct e as [[pk pp]| | |k p| | |]; try reflexivity. destruct pk; try reflexivity. exfalso. apply Nx. now injection C as <-. }
      rewrite Ec. split; [reflexivity|]. cbn [pg_msg]. split.
      + intros Ei. exfalso. assert (Li : In x all_complaints) by (eapply complaint_listed; eassumption). rewrite Ei in L.
        assert (A : forallb (fun y => negb (has_prefix (label y) (b "incomplete query"))) all_complaints = true) by (vm_compute; reflexivity).
        rewrite forallb_forall in A. specialize (A x Li). rewrite L in A. discriminate.
      + intros (pe & l & -> & K). exfalso. apply Nx. cbn in C. rewrite K in C. now injection C as <-. }
  destruct (rejected O q R) as [(e & es & P & E)|(k & p & _ & E)].
  - exists (QSyntax e). split; [exact E|]. apply G; [eexists; reflexivity|]. intros pe [= <-]. apply (C109_never O q e). unfold parse_plain, parse_query. now rewrite P.
  - exists (QInvalid k p). split; [exact E|]. apply G; [eexists; reflexivity|discriminate].
Qed.
Print Assumptions C116_web.
Example C116_example T : exists e e', parse_plain test_oracle (b "a:>(1,2)") = QErr e /\ parse_plain test_oracle (b "bcd:>(3,4,5)") = QErr e' /\
  qerr_text test_oracle T (fun _ => []) e = b "[>] operation requires exactly 1 arguments" /\ qerr_text test_oracle T (fun _ => []) e' = b "[>] operation requires exactly 1 arguments".
Proof. do 2 eexists. split; [vm_compute; reflexivity|]. split; [vm_compute; reflexivity|]. split; vm_compute; reflexivity. Qed.

(** ** C117: the printed forms *)
Lemma cut_at (c : N) : forall x y u v, ~ In c x -> ~ In c y -> x ++ c :: u = y ++ c :: v -> x = y /\ u = v.
Proof.
  induction x as [|a x IH]; intros [|d y] u v Hx Hy E; cbn in E.
  - injection E as ->. auto.
  - injection E as -> _. destruct Hy. now left.
  - injection E as -> _. destruct Hx. now left.
  - injection E as -> E. destruct (IH y u v) as [-> ->]; auto; intros H; [apply Hx|apply Hy]; now right.
Qed.
Lemma int_cut c z z' u v : c <> 45 -> (c < 48 \/ 57 < c < 97 \/ 122 < c) -> json_int z ++ c :: u = json_int z' ++ c :: v -> z = z' /\ u = v.
Proof.
  intros N1 N2 E. apply cut_at in E as [E ->]; [|intros H; apply json_int_chars in H; lia..].
  split; [|reflexivity]. apply (writes_int_fun (json_int z)); [apply json_int_writes|rewrite E; apply json_int_writes].
Qed.
Definition same_place (p p' : pos) : Prop := p_line p = p_line p' /\ p_col p = p_col p' /\ p_off p = p_off p'.
Lemma place_cut p p' (u v : bytes) : json_int (p_line p) ++ b ":" ++ json_int (p_col p) ++ b "(" ++ json_int (p_off p) ++ b ")" ++ u =
  json_int (p_line p') ++ b ":" ++ json_int (p_col p') ++ b "(" ++ json_int (p_off p') ++ b ")" ++ v -> same_place p p' /\ u = v.
Proof.
  intros E. change (b ":") with [58] in E. change (b "(") with [40] in E. change (b ")") with [41] in E. cbn [app] in E.
  apply int_cut in E as [E1 E]; [|lia..]. apply int_cut in E as [E2 E]; [|lia..]. apply int_cut in E as [E3 E]; [|lia..]. unfold same_place. auto.
Qed.
(** ParseError.Error *)
Theorem C117_error p p' m m' : error_line p m = error_line p' m' -> same_place p p' /\ m = m'.
Proof.
  unfold error_line. change (b "): ") with (b ")" ++ b ": "). rewrite <- !app_assoc. intros E. apply place_cut in E as [E1 E2]. split; [exact E1|].
  exact (f_equal (skipn 2) E2).
Qed.
Print Assumptions C117_error.
(** ParserMessage.String *)
Definition placeless (p : pos) : Prop := (p_line p = 0 \/ p_col p = 0 \/ p_off p = -1)%Z.
Theorem C117_message t t' p p' m m' : message_line t p m = message_line t' p' m' ->
  t = t' /\ m = m' /\ (placeless p /\ placeless p' \/ ~ placeless p /\ ~ placeless p' /\ same_place p p').
Proof.
  intros E. unfold message_line, placeless in *.
  assert (Ty : forall u v : bytes, type_str t ++ u = type_str t' ++ v -> t = t' /\ u = v).
  { intros u v Et. destruct t, t'; try discriminate Et; (split; [reflexivity|]); (exact (f_equal (skipn 4) Et) || exact (f_equal (skipn 7) Et) || exact (f_equal (skipn 5) Et)). }
  destruct ((p_line p =? 0) || (p_col p =? 0) || (p_off p =? -1))%Z eqn:B, ((p_line p' =? 0) || (p_col p' =? 0) || (p_off p' =? -1))%Z eqn:B';
    apply Ty in E as [-> E]; try discriminate E.
  - split; [reflexivity|]. split; [exact (f_equal (skipn 2) E)|]. left. lia.
  - split; [reflexivity|]. apply (f_equal (skipn 2)) in E. cbn [skipn b app] in E. change (b ")]: ") with (b ")" ++ b "]: ") in E. rewrite <- !app_assoc in E.
    apply (place_cut p p') in E as [Sp E]. split; [exact (f_equal (skipn 3) E)|]. right. split; [lia|]. split; [lia|exact Sp].
Qed.
Print Assumptions C117_message.
(** Their form. *)
Definition place_text (p : pos) (x : bytes) : Prop := exists l c o, writes_int l (p_line p) /\ writes_int c (p_col p) /\ writes_int o (p_off p) /\
  x = l ++ b ":" ++ c ++ b "(" ++ o ++ b ")".
Theorem C117_form t p m :
  (exists x, place_text p x /\ error_line p m = x ++ b ": " ++ m) /\
  exists x, message_line t p m = match t with MHint => b "HINT" | MWarning => b "WARNING" | MError => b "ERROR" end ++ x ++ b ": " ++ m /\
    (placeless p -> x = []) /\ (~ placeless p -> exists y, place_text p y /\ x = b " [" ++ y ++ b "]").
Proof.
  assert (P : place_text p (json_int (p_line p) ++ b ":" ++ json_int (p_col p) ++ b "(" ++ json_int (p_off p) ++ b ")")).
  { do 3 eexists. split; [apply json_int_writes|]. split; [apply json_int_writes|]. split; [apply json_int_writes|reflexivity]. }
  split.
  - eexists. split; [exact P|]. unfold error_line. rewrite <- !app_assoc. reflexivity.
  - unfold message_line, placeless. destruct ((p_line p =? 0) || (p_col p =? 0) || (p_off p =? -1))%Z eqn:B.
    + exists []. split; [now destruct t|]. split; [reflexivity|intros H; lia].
    + eexists. split; [|split; [intros H; lia|intros _; eexists; split; [exact P|reflexivity]]]. rewrite <- !app_assoc. now destruct t.
Qed.
Print Assumptions C117_form.
Example C117_example : error_line {| p_line := 1; p_col := 14; p_off := 13; p_len := 7 |} (b "[><] operation needs numeric arguments") = b "1:14(13): [><] operation needs numeric arguments" /\
  message_line MWarning no_position (b "x") = b "WARNING: x" /\ message_line MHint {| p_line := 1; p_col := 3; p_off := 2; p_len := 1 |} (b "x") = b "HINT [1:3(2)]: x".
Proof. repeat split; vm_compute; reflexivity. Qed.

(** ** The error texts of the tests (parser/parser_test.go:204-300) *)
Definition star_oracle : oracles := {|
  o_re_parse := fun s => if beqb s (b "*") then None else Some (RT OpLiteral []); o_re_match := o_re_match test_oracle; o_fmt_float := o_fmt_float test_oracle;
  o_float_other := o_float_other test_oracle; o_is_print := o_is_print test_oracle; o_dateparse := o_dateparse test_oracle; o_to_lower := o_to_lower test_oracle;
  o_text_search := o_text_search test_oracle; o_fold := o_fold test_oracle; o_strict_bits := true |}.
Definition star_texts : texts := {|
  t_re_error := fun s => if beqb s (b "*") then b "error parsing regexp: missing argument to repetition operator: `*`" else [];
  t_re_show := fun _ => []; t_panic := []; t_type := []; t_other := [] |}.
Definition told (q : string) : option bytes :=
  match parse_plain star_oracle (b q) with
  | QErr e => Some (error_line (qerr_pos e) (qerr_text star_oracle star_texts (fun _ => []) e))
  | QOk _ => Some []
  | _ => None
  end.
Example error_texts_of_the_tests : forallb (fun t => match told (fst t) with Some m => beqb m (b (snd t)) | None => false end)
  [("name:""foo", "1:10(9): unterminated string, check for missing closing [""] or unescaped [\]");
   ("name:/*/", "1:6(5): invalid regular expression [/*/]: error parsing regexp: missing argument to repetition operator: `*`");
   ("name:/.*/", "");
   ("net:500.500.500.500/32", "1:5(4): invalid network value [500.500.500.500/32]: IPv4 field has value >255");
   ("net:192.168.0.0/99", "1:5(4): invalid network value [192.168.0.0/99]: prefix length out of range");
   ("net:192.168.0.0/24", "");
   ("Andy:1979-13-03", "1:6(5): invalid datetime value [1979-13-03]: month out of range");
   ("Joe:1979-02-31", "1:5(4): invalid datetime value [1979-02-31]: day out of range");
   ("Andy:1979-10-03", "");
   ("AndyPrecise:2021-06-08T20:74:33+00:00", "1:13(12): invalid datetime value [2021-06-08T20:74:33+00:00]: minute out of range");
   ("AndyPrecise:2021-06-08T20:53:33+00:00", "");
   ("name:(/.*/,/*/)", "1:12(11): invalid regular expression [/*/]: error parsing regexp: missing argument to repetition operator: `*`");
   ("foo:(""bar"")", "1:5(4): unnecessary parenthesis for only one value");
   ("name:()", "1:7(6): unexpected closing parenthesis, expecting values");
   ("value: (1,2,1)", "1:13(12): duplicate argument [1] (value 3/3)");
   ("value:>< 1", "1:1(0): [><] operation requires exactly 2 arguments");
   ("value:>< (1,2,3)", "1:1(0): [><] operation requires exactly 2 arguments");
   ("value:>< (1, ""hello"")", "1:14(13): [><] operation needs numeric arguments");
   ("value:>< (2, 1)", "1:14(13): [><] operation requires the second argument be greater");
   ("value:< ""hello""", "1:9(8): [<] operation needs numeric arguments");
   ("value:<= ""hello""", "1:10(9): [<=] operation needs numeric arguments");
   ("value:> ""hello""", "1:9(8): [>] operation needs numeric arguments");
   ("value:>= ""hello""", "1:10(9): [>=] operation needs numeric arguments");
   ("value:>< ""hello""", "1:10(9): [><] operation needs numeric arguments")]%string = true.
Proof. vm_compute. reflexivity. Qed.
