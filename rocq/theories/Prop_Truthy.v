(** C122: truth values of JSON values, as documented in json_values.go:173-181. *)
From Coq Require Import Reals.
From Verif Require Import Bytes Utf8 Utf8Proofs GoFloat Oracles Json JsonSpec DecodeSpec NumSpec NumProofs FloatProofs NumLitProofs RegexLitProofs GrammarSpec Values Truthy TestOracle.
From Verif Require Import Prop_Decode.
From Coq Require Import ZifyBool ZifyN ZifyNat.

(** The table in the comment; numbers with their exact values, strings as they are when decoded. *)
Inductive documented : json -> bool -> Prop :=
| do_bool x : documented (JBool x) x
| do_zero raw : denotes_number raw 0 -> documented (JNum raw) false
| do_number raw r : denotes_number raw r -> r <> 0%R -> documented (JNum raw) true
| do_falsy raw s : decodes raw s -> In s [b ""; b "false"; b "0"] -> documented (JStr raw) false
| do_truthy raw s : decodes raw s -> ~ In s [b ""; b "false"; b "0"] -> documented (JStr raw) true
| do_null : documented JNull false.

(** Booleans and null; objects and arrays have no truth value. *)
Theorem C122_other O v : match v with
  | JBool _ | JNull => exists x, get_truthy_val O v = Some x /\ documented v x
  | JObj _ | JArr _ => get_truthy_val O v = None /\ forall x, ~ documented v x
  | _ => True
  end.
Proof. destruct v; try exact Logic.I; try (eexists; split; [reflexivity|constructor]); (split; [reflexivity|]; intros x H; inversion H). Qed.
Print Assumptions C122_other.

(** Numbers: the nearest double decides; numbers beyond the doubles have none. *)
Lemma fin_zero : finite_double (S754_zero false) /\ double_value (S754_zero false) = 0%R.
Proof. split; [|reflexivity]. repeat split. Qed.
Theorem C122_number O raw r : denotes_number raw r ->
  (in_double_range r -> exists x, get_truthy_val O (JNum raw) = Some x /\ (x = true <-> nearest r <> 0%R)) /\
  (~ in_double_range r -> get_truthy_val O (JNum raw) = None).
Proof.
  intros D. destruct (parse_float_exact (o_float_other O) raw r D) as [H1 H2]. cbn [get_truthy_val]. split; intros R.
  - destruct (H1 R) as (f & -> & F & V). eexists. split; [reflexivity|]. rewrite negb_true_iff, <- V.
    destruct fin_zero as [Fz Vz]. pose proof (eq_exact f (S754_zero false) F Fz) as E. rewrite Vz in E.
    destruct (f_eq f (S754_zero false)); split; intros X; try discriminate; try reflexivity.
    + destruct X. now apply E.
    + intros Y. apply E in Y. discriminate.
  - now rewrite (H2 R).
Qed.
Print Assumptions C122_number.
(** Zero is false, and so are numbers nearer to zero than to any other double. *)
Theorem C122_tiny_refuted : exists raw, documented (JNum raw) true /\ forall O, get_truthy_val O (JNum raw) = Some false.
Proof.
  exists (b "1e-400"). split; [|intros O; vm_compute; reflexivity].
  assert (D : denotes_number (b "1e-400") (1 * IZR (digits_value (b "1" ++ [])) * powerRZ 10 (- digits_value (b "400") - 0))).
  { assert (Fd : forall l, Forall (fun d => 48 <= d <= 57) l <-> forallb (fun d => (48 <=? d) && (d <=? 57)) l = true).
    { intros l. rewrite forallb_forall, Forall_forall. split; intros H x Hx; specialize (H x Hx); lia. }
    apply (dec_number [] 1 (b "1") [] [] (b "e-400") (- digits_value (b "400"))); try (apply Fd; reflexivity); try discriminate; try reflexivity.
    - constructor.
    - left. split; reflexivity.
    - apply (xt_neg 101 (b "400")); [now left|now apply Fd|discriminate]. }
  eapply do_number; [exact D|]. apply Rmult_integral_contrapositive_currified.
  - cbn. intros H. rewrite Rmult_1_l in H. apply eq_IZR in H. discriminate.
  - apply powerRZ_NOR. apply not_0_IZR. discriminate.
Qed.
Print Assumptions C122_tiny_refuted.

(** Strings: read as they are written in the document, with small and capital letters alike. *)
Definition spelled (want : list (list N)) (s : text) : Prop := Forall2 (fun c w => In c w) s want.
Definition falsy_word (s : text) : Prop :=
  s = tx "0" \/ spelled [tx "fF"; tx "aA"; tx "lL"; tx "sS" ++ [383]; tx "eE"] s.
Lemma Forall2_length {A B} (P : A -> B -> Prop) l m : Forall2 P l m -> length l = length m.
Proof. induction 1; cbn; congruence. Qed.
Lemma Forall2_cons_iff {A B} (P : A -> B -> Prop) x l y m : Forall2 P (x :: l) (y :: m) <-> P x y /\ Forall2 P l m.
Proof. split; [intros H; now inversion H|intros [? ?]; now constructor]. Qed.
Theorem C122_string O u : scalars u -> exists x, get_truthy_val O (JStr (encode u)) = Some x /\ (x = false <-> u = [] \/ falsy_word u).
Proof.
  intros Su. cbn [get_truthy_val]. eexists. split; [reflexivity|].
  assert (F : falsy_string (encode u) = true <-> falsy_word u).
  { unfold falsy_string. rewrite decode_encode by exact Su. unfold falsy_word, spelled. clear Su. destruct u as [|c1 [|c2 [|c3 [|c4 [|c5 [|c6 u]]]]]].
    - split; [discriminate|]. intros [H|H]; [discriminate|apply Forall2_length in H; discriminate].
    - split; [intros H; apply N.eqb_eq in H; left; now subst|]. intros [[= ->]|H]; [reflexivity|apply Forall2_length in H; discriminate].
    - split; [discriminate|]. intros [H|H]; [discriminate|apply Forall2_length in H; discriminate].
    - split; [discriminate|]. intros [H|H]; [discriminate|apply Forall2_length in H; discriminate].
    - split; [discriminate|]. intros [H|H]; [discriminate|apply Forall2_length in H; discriminate].
    - split.
      + intros H. right. repeat (constructor; [cbn; lia|]). constructor.
      + intros [H|H]; [discriminate|]. apply Forall2_cons_iff in H. destruct H as [A1 H]. apply Forall2_cons_iff in H. destruct H as [A2 H].
        apply Forall2_cons_iff in H. destruct H as [A3 H]. apply Forall2_cons_iff in H. destruct H as [A4 H]. apply Forall2_cons_iff in H. destruct H as [A5 _].
        cbn in A1, A2, A3, A4, A5. lia.
    - split; [discriminate|]. intros [H|H]; [discriminate|apply Forall2_length in H; discriminate]. }
  rewrite negb_false_iff. destruct (encode u) as [|c r] eqn:E.
  - destruct u as [|a u]; [tauto|]. exfalso. rewrite encode_cons in E. destruct (encode_rune_split a) as (x & y & Ea). rewrite Ea in E. discriminate.
  - rewrite F. split; [tauto|]. intros [->|H]; [discriminate|exact H].
Qed.
Print Assumptions C122_string.
Theorem C122_case_refuted : exists raw, documented (JStr raw) true /\ forall O, get_truthy_val O (JStr raw) = Some false.
Proof.
  exists (b "FALSE"). split; [|intros O; reflexivity]. apply (do_truthy _ (b "FALSE")).
  - repeat (apply dc_char; [vm_compute; discriminate|vm_compute; discriminate|vm_compute; discriminate|]). constructor.
  - cbn. intuition discriminate.
Qed.
Print Assumptions C122_case_refuted.
Theorem C122_escape_refuted : exists raw, documented (JStr raw) false /\ forall O, get_truthy_val O (JStr raw) = Some true.
Proof.
  exists [92; 117; 48; 48; 51; 48]. split; [|intros O; reflexivity]. apply (do_falsy _ (b "0")); [|cbn; tauto].
  apply (dc_uni 48 48 51 48 48 (b "0") [] []); [|lia| |constructor].
  - exists 0, 0, 3, 0. unfold hex_digit. lia.
  - constructor; lia.
Qed.
Print Assumptions C122_escape_refuted.

Example C122_example : map (get_truthy_val test_oracle) [JNum (b "0"); JNum (b "-0.0"); JNum (b "2"); JStr (b "no"); JStr (b "0"); JStr (b "FaLse"); JStr [92; 117; 48; 48; 51; 48]; JNum (b "1e999")] =
  [Some false; Some false; Some true; Some true; Some false; Some false; Some true; None].
Proof. vm_compute. reflexivity. Qed.
