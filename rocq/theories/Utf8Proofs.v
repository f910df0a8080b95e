(** Lemmas about the UTF-8 model. *)
From Verif Require Import Bytes Utf8.
From Coq Require Import ZifyBool ZifyN ZifyNat.
Ltac Zify.zify_post_hook ::= Z.div_mod_to_equations.

Lemma scalar_spec r : is_scalar r = true <-> (r < 55296 \/ (57344 <= r /\ r <= 1114111)).
Proof. unfold is_scalar. lia. Qed.

Lemma encode_rune_scalar r : is_scalar r = true -> encode_rune r = encode_raw r.
Proof. unfold encode_rune. now intros ->. Qed.

Lemma encode_raw_len r : (1 <= length (encode_raw r) <= 4)%nat.
Proof. unfold encode_raw. repeat destruct (_ <? _); cbn; lia. Qed.

Lemma encode_rune_len r : (1 <= length (encode_rune r) <= 4)%nat.
Proof. unfold encode_rune. destruct (is_scalar r); apply encode_raw_len. Qed.

(** Decoding what was encoded. *)
Lemma decode_encode_rune r s : is_scalar r = true ->
  decode_rune (encode_rune r ++ s) = (r, length (encode_rune r)).
Proof.
  intros H. rewrite encode_rune_scalar by assumption. apply scalar_spec in H.
  unfold encode_raw.
  destruct (r <? 128) eqn:E1; [cbn; rewrite E1; reflexivity|].
  destruct (r <? 2048) eqn:E2.
  { cbn [app length]. unfold decode_rune, is_cont.
    replace (192 + r / 64 <? 128) with false by lia.
    replace ((192 + r / 64 <? 194) || (244 <? 192 + r / 64)) with false by lia.
    replace (192 + r / 64 <? 224) with true by lia.
    replace ((128 <=? 128 + r mod 64) && (128 + r mod 64 <=? 191)) with true by lia.
    f_equal. lia. }
  destruct (r <? 65536) eqn:E3.
  { cbn [app length]. unfold decode_rune, is_cont, acc_lo, acc_hi.
    replace (224 + r / 4096 <? 128) with false by lia.
    replace ((224 + r / 4096 <? 194) || (244 <? 224 + r / 4096)) with false by lia.
    replace (224 + r / 4096 <? 224) with false by lia.
    replace (224 + r / 4096 =? 240) with false by lia.
    replace (224 + r / 4096 =? 244) with false by lia.
    replace (224 + r / 4096 <? 240) with true by lia.
    replace ((128 <=? 128 + r mod 64) && (128 + r mod 64 <=? 191)) with true by lia.
    assert (X : ((if 224 + r / 4096 =? 224 then 160 else 128) <=? 128 + (r / 64) mod 64) &&
            (128 + (r / 64) mod 64 <=? (if 224 + r / 4096 =? 237 then 159 else 191)) = true).
    { destruct (224 + r / 4096 =? 224) eqn:A; destruct (224 + r / 4096 =? 237) eqn:B; lia. }
    rewrite X. cbn [negb]. f_equal. lia. }
  { cbn [app length]. unfold decode_rune, is_cont, acc_lo, acc_hi.
    replace (240 + r / 262144 <? 128) with false by lia.
    replace ((240 + r / 262144 <? 194) || (244 <? 240 + r / 262144)) with false by lia.
    replace (240 + r / 262144 <? 224) with false by lia.
    replace (240 + r / 262144 =? 224) with false by lia.
    replace (240 + r / 262144 =? 237) with false by lia.
    replace (240 + r / 262144 <? 240) with false by lia.
    replace ((128 <=? 128 + r mod 64) && (128 + r mod 64 <=? 191)) with true by lia.
    replace ((128 <=? 128 + (r / 64) mod 64) && (128 + (r / 64) mod 64 <=? 191)) with true by lia.
    assert (X : ((if 240 + r / 262144 =? 240 then 144 else 128) <=? 128 + (r / 4096) mod 64) &&
            (128 + (r / 4096) mod 64 <=? (if 240 + r / 262144 =? 244 then 143 else 191)) = true).
    { destruct (240 + r / 262144 =? 240) eqn:A; destruct (240 + r / 262144 =? 244) eqn:B; lia. }
    rewrite X. cbn [negb]. f_equal. lia. }
Qed.

(** Decoding never reads more than is there, and makes progress. *)
Lemma decode_rune_width s r w : decode_rune s = (r, w) ->
  (s = [] /\ w = 0%nat /\ r = rune_error) \/ (1 <= w <= length s)%nat.
Proof.
  destruct s as [|c s1]; cbn [decode_rune]; [intros [= <- <-]; now left|].
  intros H. right.
  repeat match type of H with
         | context [if ?c then _ else _] => destruct c
         | context [match ?x with _ => _ end] => destruct x
         end; injection H as <- <-; cbn [length]; lia.
Qed.

(** A successfully decoded rune is a scalar value and its bytes are its encoding. *)
Lemma decode_rune_ok s r w : decode_rune s = (r, w) -> (r, w) <> (rune_error, 1%nat) -> s <> [] ->
  is_scalar r = true /\ s = encode_rune r ++ skipn w s /\ w = length (encode_rune r).
Proof.
  intros H Hne Hs. destruct s as [|c s1]; [congruence|]. clear Hs.
  unfold decode_rune in H.
  destruct (c <? 128) eqn:E1.
  { injection H as <- <-. split; [apply scalar_spec; lia|].
    rewrite encode_rune_scalar by (apply scalar_spec; lia).
    unfold encode_raw. rewrite E1. cbn. auto. }
  destruct ((c <? 194) || (244 <? c)) eqn:E2; [congruence|].
  destruct s1 as [|c1 s2]; [congruence|].
  destruct (c <? 224) eqn:E3.
  { unfold is_cont in H. destruct ((128 <=? c1) && (c1 <=? 191)) eqn:E4; [|congruence].
    injection H as <- <-. set (r := (c - 192) * 64 + (c1 - 128)).
    assert (Hr : 128 <= r < 2048) by lia.
    split; [apply scalar_spec; lia|].
    rewrite encode_rune_scalar by (apply scalar_spec; lia).
    unfold encode_raw. replace (r <? 128) with false by lia. replace (r <? 2048) with true by lia.
    cbn [skipn app length]. split; [|reflexivity]. repeat f_equal; lia. }
  destruct (negb ((acc_lo c <=? c1) && (c1 <=? acc_hi c))) eqn:E4; [congruence|].
  destruct s2 as [|c2 s3]; [congruence|].
  unfold is_cont in H.
  destruct (negb ((128 <=? c2) && (c2 <=? 191))) eqn:E5; [congruence|].
  unfold acc_lo, acc_hi in E4.
  destruct (c <? 240) eqn:E6.
  { injection H as <- <-. set (r := (c - 224) * 4096 + (c1 - 128) * 64 + (c2 - 128)).
    assert (Hc1 : 128 <= c1 <= 191 /\ (c = 224 -> 160 <= c1) /\ (c = 237 -> c1 <= 159)).
    { destruct (c =? 224) eqn:A; destruct (c =? 240) eqn:B; destruct (c =? 237) eqn:C; destruct (c =? 244) eqn:D; lia. }
    assert (Hr : 2048 <= r < 65536 /\ ~ (55296 <= r < 57344)) by lia.
    split; [apply scalar_spec; lia|].
    rewrite encode_rune_scalar by (apply scalar_spec; lia).
    unfold encode_raw. replace (r <? 128) with false by lia. replace (r <? 2048) with false by lia.
    replace (r <? 65536) with true by lia.
    cbn [skipn app length]. split; [|reflexivity]. repeat f_equal; lia. }
  destruct s3 as [|c3 s4]; [congruence|].
  destruct (negb ((128 <=? c3) && (c3 <=? 191))) eqn:E7; [congruence|].
  injection H as <- <-.
  set (r := (c - 240) * 262144 + (c1 - 128) * 4096 + (c2 - 128) * 64 + (c3 - 128)).
  assert (Hc1 : 128 <= c1 <= 191 /\ (c = 240 -> 144 <= c1) /\ (c = 244 -> c1 <= 143)).
  { destruct (c =? 224) eqn:A; destruct (c =? 240) eqn:B; destruct (c =? 237) eqn:C; destruct (c =? 244) eqn:D; lia. }
  assert (Hr : 65536 <= r <= 1114111) by lia.
  split; [apply scalar_spec; lia|].
  rewrite encode_rune_scalar by (apply scalar_spec; lia).
  unfold encode_raw. replace (r <? 128) with false by lia. replace (r <? 2048) with false by lia.
  replace (r <? 65536) with false by lia.
  cbn [skipn app length]. split; [|reflexivity]. repeat f_equal; lia.
Qed.

Lemma skipn_app_exact {A} (x y : list A) : skipn (length x) (x ++ y) = y.
Proof. rewrite skipn_app, skipn_all, Nat.sub_diag. reflexivity. Qed.

Lemma encode_cons r rs : encode (r :: rs) = encode_rune r ++ encode rs.
Proof. reflexivity. Qed.

Lemma encode_app x y : encode (x ++ y) = encode x ++ encode y.
Proof. unfold encode. now rewrite map_app, concat_app. Qed.

Definition scalars (rs : list N) : Prop := Forall (fun r => is_scalar r = true) rs.

Lemma decode_fuel_encode rs n : scalars rs -> (length (encode rs) <= n)%nat ->
  decode_fuel n (encode rs) = rs.
Proof.
  revert n; induction rs as [|r rs IH]; intros n Hs Hn.
  - destruct n; reflexivity.
  - inversion Hs as [|? ? Hr Hrs]; subst.
    rewrite encode_cons in *. rewrite app_length in Hn.
    pose proof (encode_rune_len r) as Hl.
    destruct n as [|n]; [lia|].
    cbn [decode_fuel].
    destruct (encode_rune r ++ encode rs) as [|c l] eqn:E.
    + apply (f_equal (@length N)) in E. rewrite app_length in E. cbn in E. lia.
    + rewrite <- E. rewrite decode_encode_rune by assumption.
      rewrite skipn_app_exact. f_equal. apply IH; [assumption|lia].
Qed.

Lemma decode_encode rs : scalars rs -> decode (encode rs) = rs.
Proof. intros H. unfold decode. now apply decode_fuel_encode. Qed.

Lemma encode_inj x y : scalars x -> scalars y -> encode x = encode y -> x = y.
Proof.
  intros Hx Hy H. rewrite <- (decode_encode x), <- (decode_encode y) by assumption. now rewrite H.
Qed.

Lemma rune_count_encode rs : scalars rs -> rune_count (encode rs) = length rs.
Proof. intros H. unfold rune_count. now rewrite decode_encode. Qed.

Lemma valid_fuel_spec n s : (length s <= n)%nat ->
  valid_fuel n s = true <-> exists rs, scalars rs /\ s = encode rs.
Proof.
  revert s; induction n as [|n IH]; intros s Hn.
  - destruct s as [|c s]; [|cbn in Hn; lia]. cbn. split; [|reflexivity].
    intros _. exists []. split; [constructor|reflexivity].
  - destruct s as [|c s0].
    + cbn. split; [|reflexivity]. intros _. exists []. split; [constructor|reflexivity].
    + cbn [valid_fuel].
      set (s := c :: s0) in *. assert (Hs : s <> []) by discriminate.
      destruct (decode_rune s) as [r w] eqn:E.
      destruct (decode_rune_width s r w E) as [[Hx _]|Hw]; [congruence|].
      destruct ((r =? rune_error) && Nat.eqb w 1) eqn:F.
      * cbn [negb andb]. split; [discriminate|]. intros [rs [H1 H2]].
        destruct rs as [|r0 rs]; [cbn in H2; congruence|].
        inversion H1 as [|? ? Hr Hrs]; subst.
        rewrite H2, encode_cons, decode_encode_rune in E by assumption.
        injection E as <- <-.
        assert (r0 = rune_error) by lia. subst r0. cbn in F. discriminate.
      * cbn [negb andb].
        assert (Hne : (r, w) <> (rune_error, 1%nat)) by (intros [= -> ->]; cbn in F; discriminate).
        destruct (decode_rune_ok s r w E Hne Hs) as (Hr & Heq & Hlen).
        rewrite IH by (rewrite skipn_length; lia).
        split.
        -- intros [rs [H1 H2]]. exists (r :: rs). split; [now constructor|].
           rewrite encode_cons, <- H2. exact Heq.
        -- intros [rs [H1 H2]]. destruct rs as [|r0 rs]; [cbn in H2; congruence|].
           inversion H1 as [|? ? Hr0 Hrs]. subst x l.
           exists rs. split; [assumption|].
           rewrite H2, encode_cons, decode_encode_rune in E by assumption.
           injection E as E1 E2. rewrite H2, encode_cons, <- E2. apply skipn_app_exact.
Qed.

Lemma valid_utf8_spec s : valid_utf8 s = true <-> exists rs, scalars rs /\ s = encode rs.
Proof. apply valid_fuel_spec. lia. Qed.

Lemma encode_ascii s : Forall (fun c => c < 128) s -> encode s = s.
Proof.
  induction 1 as [|c s Hc Hs IH]; [reflexivity|].
  rewrite encode_cons, IH, encode_rune_scalar by (apply scalar_spec; lia).
  unfold encode_raw. replace (c <? 128) with true by lia. reflexivity.
Qed.

Lemma ascii_scalars s : Forall (fun c => c < 128) s -> scalars s.
Proof. intros H. unfold scalars. eapply Forall_impl; [|exact H]. cbn; intros c Hc. apply scalar_spec. lia. Qed.

Lemma encode_rune_ascii c : c < 128 -> encode_rune c = [c].
Proof.
  intros H. rewrite encode_rune_scalar by (apply scalar_spec; lia).
  unfold encode_raw. replace (c <? 128) with true by lia. reflexivity.
Qed.
