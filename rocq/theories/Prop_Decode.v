(** C77: decoding of JSON strings and member names. *)
From Verif Require Import Bytes Utf8 GoStrconv GoFloat GoTime GoNet Oracles Ast AstSpec Json JsonSpec JsonProofs Values StrMatch Matcher
  QueryMessages MatchApi MatchSpec MatchProofs MatcherTop Visitors ParseQuery TestOracle DecodeSpec Prop_Match.
From Coq Require Import ZifyBool ZifyN ZifyNat.

Lemma hex_digit_val h v : hex_digit h v -> hex_val h = Some v /\ v < 16.
Proof.
  unfold hex_digit, hex_val. intros [(H & ->)|[(H & ->)|(H & ->)]].
  - replace ((48 <=? h) && (h <=? 57)) with true by lia. split; [reflexivity|lia].
  - replace ((48 <=? h) && (h <=? 57)) with false by lia. replace ((97 <=? h) && (h <=? 102)) with false by lia.
    replace ((65 <=? h) && (h <=? 70)) with true by lia. split; [reflexivity|lia].
  - replace ((48 <=? h) && (h <=? 57)) with false by lia. replace ((97 <=? h) && (h <=? 102)) with true by lia. split; [reflexivity|lia].
Qed.
Lemma four_val h1 h2 h3 h4 c : four h1 h2 h3 h4 c -> hex4 h1 h2 h3 h4 = Some c.
Proof.
  intros (a1 & a2 & a3 & a4 & H1 & H2 & H3 & H4 & ->). unfold hex4.
  destruct (hex_digit_val _ _ H1) as (-> & _), (hex_digit_val _ _ H2) as (-> & _), (hex_digit_val _ _ H3) as (-> & _), (hex_digit_val _ _ H4) as (-> & _).
  f_equal. lia.
Qed.
Lemma utf8_encode c u : utf8_of c u -> c < 55296 \/ 57343 < c -> encode_rune c = u.
Proof.
  intros H Ns. unfold encode_rune. assert (Sc : is_scalar c = true) by (destruct H; unfold is_scalar; lia). rewrite Sc. unfold encode_raw.
  destruct H as [c H|c H|c H|c H].
  - replace (c <? 128) with true by lia. reflexivity.
  - replace (c <? 128) with false by lia. replace (c <? 2048) with true by lia. reflexivity.
  - replace (c <? 128) with false by lia. replace (c <? 2048) with false by lia. replace (c <? 65536) with true by lia. reflexivity.
  - replace (c <? 128) with false by lia. replace (c <? 2048) with false by lia. replace (c <? 65536) with false by lia. reflexivity.
Qed.

Theorem C77_decoding raw t : decodes raw t -> unescape raw = Some t.
Proof.
  induction 1 as [|c r t L Q B _ IH|e c r t I _ IH|h1 h2 h3 h4 c u r t F Ns U _ IH|h1 h2 h3 h4 g1 g2 g3 g4 hi lo u r t F G Hi Lo U _ IH].
  - reflexivity.
  - cbn [unescape]. replace (c =? 92) with false by lia. now rewrite IH.
  - cbn [unescape]. change (92 =? 92) with true. cbv iota. cbn in I.
    destruct I as [E|[E|[E|[E|[E|[E|[E|[E|[]]]]]]]]]; injection E as <- <-; cbn -[unescape]; now rewrite IH.
  - cbn [unescape]. change (92 =? 92) with true. change (117 =? 117) with true. change (esc_byte 117) with (@None N). cbv iota.
    rewrite (four_val _ _ _ _ _ F). replace (is_utf16 c) with false by (unfold is_utf16; lia). cbn [negb]. rewrite IH. cbn [option_map].
    now rewrite (utf8_encode c u U Ns).
  - cbn [unescape]. change (92 =? 92) with true. change (117 =? 117) with true. change (esc_byte 117) with (@None N). cbv iota.
    rewrite (four_val _ _ _ _ _ F), (four_val _ _ _ _ _ G). replace (is_utf16 hi) with true by (unfold is_utf16; lia). cbn [negb].
    replace (lo <? 56320) with false by lia. rewrite IH. cbn [option_map].
    rewrite (utf8_encode _ u U); [reflexivity|lia].
Qed.
Print Assumptions C77_decoding.

(** Names and values are found by their decoded text: the member selected by a key. *)
Theorem C77_member_by_text key ms child : (forall m, In m ms -> exists t, decodes (fst m) t) ->
  member key (JObj ms) child <->
  exists before raw after, ms = before ++ (raw, child) :: after /\ decodes raw key /\ forall m, In m before -> ~ decodes (fst m) key.
Proof.
  intros Dec. rewrite C26_member.
  2:{ intros m I E. destruct (Dec m I) as (t & D). rewrite (C77_decoding _ _ D) in E. discriminate. }
  split; intros (bf & raw & af & -> & U & F); exists bf, raw, af; (split; [reflexivity|]).
  - split.
    + destruct (Dec (raw, child)) as (t & D); [apply in_or_app; right; now left|]. cbn in D. pose proof (C77_decoding _ _ D) as E. rewrite U in E. injection E as ->. exact D.
    + intros m I D. apply (F m I). now apply C77_decoding.
  - split; [now apply C77_decoding|]. intros m I E. destruct (Dec m) as (t & D); [apply in_or_app; now left|].
    pose proof (C77_decoding _ _ D) as E'. rewrite E in E'. injection E' as ->. exact (F m I D).
Qed.
Print Assumptions C77_member_by_text.

Example C77_example : decodes (b "a\n\u00e9\ud83d\ude00") [97; 10; 195; 169; 240; 159; 152; 128].
Proof.
  assert (H : forall h v, (48 <= h <= 57 /\ v = h - 48) \/ (65 <= h <= 70 /\ v = h - 55) \/ (97 <= h <= 102 /\ v = h - 87) -> hex_digit h v) by (intros; assumption).
  apply (dc_char 97); [lia|lia|lia|]. apply (dc_esc 110 10); [cbn; tauto|].
  apply (dc_uni 48 48 101 57 233 [195; 169]).
  { exists 0, 0, 14, 9. repeat split; try (apply H; lia). }
  { lia. } { apply (u8_2 233). lia. }
  apply (dc_pair 100 56 51 100 100 101 48 48 55357 56832 [240; 159; 152; 128] [] []).
  { exists 13, 8, 3, 13. repeat split; try (apply H; lia). }
  { exists 13, 14, 0, 0. repeat split; try (apply H; lia). }
  { lia. } { lia. } { apply (u8_4 128512). lia. } apply dc_end.
Qed.

(** The half after an escaped surrogate is taken from any six characters: here the name with
    escape \ud83d followed by the characters zzde00 is found as the single character U+1F600. *)
Theorem C80_lone_surrogate_refuted : exists q data key raw, forall O,
  (exists p, parse_plain O q = QOk (NExpr EXS [key] [] p)) /\ document data (JObj [(raw, JNum (b "1"))]) /\
  raw = b "\ud83dzzde00" /\ key = encode [128512] /\ ~ decodes raw key /\ answers O q data (Some true).
Proof.
  exists (34 :: encode [128512] ++ b """:exists"), (b "{""\ud83dzzde00"":1}"), (encode [128512]), (b "\ud83dzzde00"). intros O.
  split; [eexists; vm_compute; reflexivity|]. split; [apply parse_json_spec; vm_compute; reflexivity|]. split; [reflexivity|]. split; [reflexivity|]. split.
  - intros D. change (b "\ud83dzzde00") with (92 :: 117 :: 100 :: 56 :: 51 :: 100 :: b "zzde00") in D.
    inversion D as [|c r t L Q B D'|e c r t I D'|h1 h2 h3 h4 c u r t F Ns U D'|]; subst.
    + cbn in I. intuition discriminate.
    + apply four_val in F. vm_compute in F. injection F as <-. lia.
  - do 3 eexists. split; [vm_compute; reflexivity|]. split; [apply af_none|]. vm_compute. reflexivity.
Qed.
Print Assumptions C80_lone_surrogate_refuted.
