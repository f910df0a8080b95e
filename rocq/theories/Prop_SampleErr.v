(** C152: what Sample says about a text it refuses for its outer form. *)
From Verif Require Import Bytes Utf8 Utf8Proofs Json JsonSpec JsonProofs Values JsonParser Sampler SamplerSpec SamplerProofs SampleErr.
From Coq Require Import ZifyBool ZifyN ZifyNat.

(** These are the errors after which the sampler is as before. *)
Theorem C152_which s data : data <> [] -> sp_keys s <> None ->
  ((exists t, outer_error data = Some t) <-> sample s data = Sampled true s).
Proof.
  intros Ne Nk. destruct data as [|c r]; [congruence|]. unfold outer_error, sample.
  destruct (c =? 123); [destruct (last_byte _ =? 125)|destruct (c =? 91); [destruct (last_byte _ =? 93)|]]; cbn [negb].
  2, 4, 5: split; [reflexivity|eauto].
  all: split; [intros [t H]; discriminate|]; intros H; destruct (sample_in _ _ _ _ _ _); try discriminate H;
    injection H as H; rewrite <- H in Nk; cbn in Nk; congruence.
Qed.
Print Assumptions C152_which.

(** The words, by the first and the last character. *)
Definition words_for (data : bytes) (w : bytes) : Prop :=
  (exists r, data = 123 :: r /\ (forall x, data <> x ++ [125]) /\ w = b "unterminated JSON object: ") \/
  (exists r, data = 91 :: r /\ (forall x, data <> x ++ [93]) /\ w = b "unterminated JSON array: ") \/
  ((forall r, data <> 123 :: r) /\ (forall r, data <> 91 :: r) /\ w = b "sample is not an object or array: ").

Lemma last_is (c d : N) r : last (c :: r) 0 = d <-> exists x, c :: r = x ++ [d].
Proof.
  split.
  - intros <-. exists (removelast (c :: r)). apply app_removelast_last. discriminate.
  - intros [x ->]. apply last_last.
Qed.

(** The error consists of the words and the beginning of the text: all of a text of up to 100
    bytes, and the first 100 bytes of a longer one. *)
Theorem C152_text data t : data <> [] ->
  (outer_error data = Some t <->
   exists w q rest, words_for data w /\ t = w ++ q /\ data = q ++ rest /\
     ((length data <= 100)%nat /\ rest = [] \/ (100 <= length data)%nat /\ length q = 100%nat)).
Proof.
  intros Ne.
  assert (Q : forall q, q = quoted_part data <-> exists rest, data = q ++ rest /\
     ((length data <= 100)%nat /\ rest = [] \/ (100 <= length data)%nat /\ length q = 100%nat)).
  { intros q. unfold quoted_part. destruct (Nat.ltb_spec 100 (length data)) as [L|L].
    - split.
      + intros ->. exists (skipn 100 data). split; [now rewrite firstn_skipn|]. right. rewrite firstn_length. lia.
      + intros (rest & E & [[H _]|[_ H]]); [lia|]. rewrite E at 1. rewrite <- H, firstn_app, Nat.sub_diag, firstn_all. cbn. now rewrite app_nil_r.
    - rewrite firstn_all. split.
      + intros ->. exists []. rewrite app_nil_r. auto.
      + intros (rest & E & [[_ ->]|[H1 H2]]); [now rewrite app_nil_r in E|]. apply (f_equal (@length N)) in E as E2. rewrite app_length in E2.
        destruct rest; [now rewrite app_nil_r in E|cbn in E2; lia]. }
  assert (W : outer_error data = Some t <-> exists w, words_for data w /\ t = w ++ quoted_part data).
  { destruct data as [|c r]; [congruence|]. clear Q Ne. unfold outer_error, words_for, last_byte.
    destruct (N.eqb_spec c 123) as [->|N1]; [|destruct (N.eqb_spec c 91) as [->|N2]].
    - destruct (N.eqb_spec (last (123 :: r) 0) 125) as [E|E]; cbn [negb].
      + split; [discriminate|]. apply last_is in E as [x E]. intros (w & [(r' & _ & H & _)|[(r' & H & _)|(H & _)]] & _); [now destruct (H x)|discriminate H|now destruct (H r)].
      + split.
        * intros [= <-]. eexists. split; [left; exists r; repeat split; intros x H; apply E, last_is; eauto|reflexivity].
        * intros (w & [(r' & _ & _ & ->)|[(r' & H & _)|(H & _)]] & ->); [reflexivity|discriminate H|now destruct (H r)].
    - destruct (N.eqb_spec (last (91 :: r) 0) 93) as [E|E]; cbn [negb].
      + split; [discriminate|]. apply last_is in E as [x E]. intros (w & [(r' & H & _)|[(r' & _ & H & _)|(_ & H & _)]] & _); [discriminate H|now destruct (H x)|now destruct (H r)].
      + split.
        * intros [= <-]. eexists. split; [right; left; exists r; repeat split; intros x H; apply E, last_is; eauto|reflexivity].
        * intros (w & [(r' & H & _)|[(r' & _ & _ & ->)|(_ & H & _)]] & ->); [discriminate H|reflexivity|now destruct (H r)].
    - split.
      + intros [= <-]. eexists. split; [right; right; repeat split; intros x [= H]; congruence|reflexivity].
      + intros (w & [(r' & [= H] & _)|[(r' & [= H] & _)|(_ & _ & ->)]] & ->); [congruence|congruence|reflexivity]. }
  rewrite W. split.
  - intros (w & Hw & ->). destruct (proj1 (Q _) eq_refl) as (rest & E & H). exists w, (quoted_part data), rest. auto.
  - intros (w & q & rest & Hw & -> & E & H). exists w. split; [exact Hw|]. f_equal. apply Q. eauto.
Qed.
Print Assumptions C152_text.

(** Of a JSON value without blanks around it the words are true: an object or array is not
    complained about, and anything else is called what it is. *)
Theorem C152_true text j : value_text text j ->
  match j with
  | JObj _ | JArr _ => outer_error text = None
  | _ => exists q, outer_error text = Some (b "sample is not an object or array: " ++ q)
  end.
Proof.
  intros V. destruct V as [| | |s H|s H|w H|s vs H|w H|s ms H]; try (eexists; reflexivity).
  - destruct (number_head s H) as (c & r & -> & Hc). unfold outer_error.
    assert (c <> 123 /\ c <> 91) as [N1 N2] by (unfold digit in Hc; lia).
    apply N.eqb_neq in N1, N2. rewrite N1, N2. eauto.
  - unfold outer_error, last_byte. rewrite app_comm_cons, last_last. reflexivity.
  - unfold outer_error, last_byte. rewrite app_comm_cons, last_last. reflexivity.
  - unfold outer_error, last_byte. rewrite app_comm_cons, last_last. reflexivity.
  - unfold outer_error, last_byte. rewrite app_comm_cons, last_last. reflexivity.
Qed.
Print Assumptions C152_true.

(** With blanks they are not: a whole object is called unterminated, an array no array. *)
Theorem C152_true_refuted :
  (exists text ms, document text (JObj ms) /\ outer_error text = Some (b "unterminated JSON object: " ++ text)) /\
  (exists text els, document text (JArr els) /\ outer_error text = Some (b "sample is not an object or array: " ++ text)).
Proof.
  split.
  - exists (b "{""a"":1}" ++ [10]). eexists. split; [apply parse_json_spec; vm_compute; reflexivity|reflexivity].
  - exists (b " [1]"). eexists. split; [apply parse_json_spec; vm_compute; reflexivity|reflexivity].
Qed.
Print Assumptions C152_true_refuted.

(** The error is text in UTF-8 if the sample is and has up to 100 bytes. *)
Definition utf8_text (t : bytes) : Prop := exists u, scalars u /\ t = encode u.
Theorem C152_readable data t : utf8_text data -> (length data <= 100)%nat -> outer_error data = Some t -> utf8_text t.
Proof.
  intros (u & Su & Eu) L H. assert (Ne : data <> []) by (intros ->; discriminate H).
  apply C152_text in H as (w & q & rest & Hw & -> & E & [[_ ->]|[L2 Lq]]); [|auto|auto].
  - rewrite app_nil_r in E. subst q.
    assert (Aw : exists uw, scalars uw /\ w = encode uw).
    { destruct Hw as [(? & _ & _ & ->)|[(? & _ & _ & ->)|(_ & _ & ->)]]; eexists; (split; [|symmetry; apply encode_ascii]); try apply ascii_scalars; repeat constructor. }
    destruct Aw as (uw & Sw & ->). exists (uw ++ u). split; [apply Forall_app; now split|]. rewrite encode_app. congruence.
  - assert (rest = []) as ->. { apply (f_equal (@length N)) in E as E2. rewrite app_length in E2. destruct rest; [reflexivity|cbn in E2; lia]. }
    rewrite app_nil_r in E. subst q.
    assert (Aw : exists uw, scalars uw /\ w = encode uw).
    { destruct Hw as [(? & _ & _ & ->)|[(? & _ & _ & ->)|(_ & _ & ->)]]; eexists; (split; [|symmetry; apply encode_ascii]); try apply ascii_scalars; repeat constructor. }
    destruct Aw as (uw & Sw & ->). exists (uw ++ u). split; [apply Forall_app; now split|]. rewrite encode_app. congruence.
Qed.
Print Assumptions C152_readable.

(** A longer one may be cut within a character. *)
Theorem C152_readable_refuted : exists data j t, document data j /\ utf8_text data /\ outer_error data = Some t /\ ~ utf8_text t.
Proof.
  set (u := [34] ++ repeat 97 98 ++ [233] ++ [34]).
  exists (encode u), (JStr (repeat 97 98 ++ encode [233])). eexists. split; [apply parse_json_spec; vm_compute; reflexivity|].
  split; [exists u; split; [repeat constructor|reflexivity]|]. split; [vm_compute; reflexivity|].
  intros (x & Sx & E). assert (D : decode (encode x) = x) by now apply decode_encode.
  rewrite <- E in D. rewrite <- D in E. vm_compute in E. discriminate E.
Qed.
Print Assumptions C152_readable_refuted.

Example C152_example :
  outer_error (b "{""a"":1") = Some (b "unterminated JSON object: {""a"":1") /\
  outer_error (91 :: repeat 49 200) = Some (b "unterminated JSON array: [" ++ repeat 49 99) /\
  value_text (b "12") (JNum (b "12")) /\ outer_error (b "12") = Some (b "sample is not an object or array: 12") /\
  sp_keys (new_sampler 3) <> None.
Proof.
  split; [reflexivity|]. split; [vm_compute; reflexivity|]. split; [|split; [reflexivity|discriminate]].
  apply vt_num. apply (proj2 (scan_number_sound (b "12") (b "12") [] ltac:(vm_compute; reflexivity))).
Qed.
