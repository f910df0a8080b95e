(** strconv.Unquote undoes strconv.Quote. *)
From Verif Require Import Bytes Utf8 Utf8Proofs GoStrconv GrammarSpec GrammarFacts LiteralSpec StringProofs.
From Coq Require Import ZifyBool ZifyN ZifyNat.

Lemma hex_val_digit v : v < 16 -> hex_val (hex_digit v) = Some v.
Proof.
  intros H. unfold hex_digit, hex_val. destruct (N.ltb_spec v 10).
  - replace ((48 <=? 48 + v) && (48 + v <=? 57)) with true by lia. f_equal. lia.
  - replace ((48 <=? 87 + v) && (87 + v <=? 57)) with false by lia. replace ((97 <=? 87 + v) && (87 + v <=? 102)) with true by lia. f_equal. lia.
Qed.
Lemma hex_step n acc v s : v < 16 -> hex_digits (S n) acc (hex_digit v :: s) = hex_digits n (acc * 16 + v) s.
Proof. intros H. cbn [hex_digits]. now rewrite hex_val_digit. Qed.

Lemma div16 c k : c / k = c / (k * 16) * 16 + (c / k) mod 16.
Proof. destruct (N.eq_dec k 0) as [->|]; [now destruct c|]. rewrite <- N.div_div by lia. pose proof (N.div_mod (c / k) 16). lia. Qed.
Lemma mod16 c : c mod 16 < 16.
Proof. apply N.mod_upper_bound. lia. Qed.

Lemma unquote_quote_rune isprint c r n : is_scalar c = true ->
  unquote_loop (S n) (quote_rune isprint c ++ r) =
    match unquote_loop n r with Some (o, rem) => Some (encode_rune c ++ o, rem) | None => None end.
Proof.
  intros Sc. pose proof Sc as Sc'. rewrite scalar_spec in Sc'. unfold quote_rune.
  destruct (N.eqb_spec c 34) as [->|N34]; cbn [orb]; [now apply unquote_loop_esc|].
  destruct (N.eqb_spec c 92) as [->|N92]; cbn [orb]; [now apply unquote_loop_esc|].
  destruct (if c <? 128 then (32 <=? c) && (c <? 127) else isprint c) eqn:P.
  { apply unquote_loop_char; auto. destruct (N.ltb_spec c 128); lia. }
  destruct (N.eqb_spec c 7) as [->|]; [now apply unquote_loop_esc|].
  destruct (N.eqb_spec c 8) as [->|]; [now apply unquote_loop_esc|].
  destruct (N.eqb_spec c 12) as [->|]; [now apply unquote_loop_esc|].
  destruct (N.eqb_spec c 10) as [->|]; [now apply unquote_loop_esc|].
  destruct (N.eqb_spec c 13) as [->|]; [now apply unquote_loop_esc|].
  destruct (N.eqb_spec c 9) as [->|]; [now apply unquote_loop_esc|].
  destruct (N.eqb_spec c 11) as [->|]; [now apply unquote_loop_esc|].
  assert (Bd : (c <? 32) || (c =? 127) = true -> c < 128) by lia.
  pose proof (div16 c 1) as D0. rewrite N.div_1_r in D0. change (1 * 16) with 16 in D0.
  pose proof (div16 c 16) as D1. change (16 * 16) with 256 in D1. pose proof (div16 c 256) as D2. change (256 * 16) with 4096 in D2.
  pose proof (div16 c 4096) as D3. change (4096 * 16) with 65536 in D3. pose proof (div16 c 65536) as D4. change (65536 * 16) with 1048576 in D4.
  pose proof (div16 c 1048576) as D5. change (1048576 * 16) with 16777216 in D5. pose proof (div16 c 16777216) as D6. change (16777216 * 16) with 268435456 in D6.
  destruct ((c <? 32) || (c =? 127)) eqn:C1; [|destruct (N.ltb_spec c 65536) as [L|L]].
  - specialize (Bd eq_refl). assert (c / 16 < 16) by (apply N.div_lt_upper_bound; clear -Bd; lia). rewrite encode_rune_ascii by assumption.
    apply unquote_loop_esc. cbn [app]. unfold unquote_char. cbn [N.eqb Pos.eqb negb N.leb N.compare Pos.compare Pos.compare_cont].
    rewrite !hex_step by (assumption || apply mod16). cbn [hex_digits]. rewrite N.mul_0_l, N.add_0_l, <- D0. reflexivity.
  - assert (c / 4096 < 16) by (apply N.div_lt_upper_bound; clear -L; lia). 
    apply unquote_loop_esc. cbn [app]. unfold unquote_char. cbn [N.eqb Pos.eqb negb N.leb N.compare Pos.compare Pos.compare_cont].
    rewrite !hex_step by (assumption || apply mod16). cbn [hex_digits]. rewrite N.mul_0_l, N.add_0_l, <- D2, <- D1, <- D0. now rewrite Sc.
  - assert (c / 268435456 < 16) by (apply N.div_lt_upper_bound; clear -Sc'; lia). 
    apply unquote_loop_esc. cbn [app]. unfold unquote_char. cbn [N.eqb Pos.eqb negb N.leb N.compare Pos.compare Pos.compare_cont].
    rewrite !hex_step by (assumption || apply mod16). cbn [hex_digits]. rewrite N.mul_0_l, N.add_0_l, <- D6, <- D5, <- D4, <- D3, <- D2, <- D1, <- D0. now rewrite Sc.
Qed.

Lemma quote_loop_cons isprint c u n : is_scalar c = true ->
  quote_loop isprint (S n) (encode (c :: u)) = quote_rune isprint c ++ quote_loop isprint n (encode u).
Proof.
  intros Sc. rewrite encode_cons. pose proof (encode_rune_len c) as H.
  destruct (encode_rune c ++ encode u) as [|x y] eqn:E1; [destruct (encode_rune c); [cbn in H; lia|discriminate]|].
  cbn [quote_loop]. rewrite <- E1. rewrite decode_encode_rune by auto. rewrite skipn_app_exact.
  assert (G : (c =? rune_error) && Nat.eqb (length (encode_rune c)) 1 = false) by (destruct (N.eqb_spec c rune_error) as [->|]; reflexivity).
  now rewrite G.
Qed.
Lemma quote_rune_len isprint c : (1 <= length (quote_rune isprint c))%nat.
Proof. unfold quote_rune. pose proof (encode_rune_len c). repeat match goal with |- context [if ?x then _ else _] => destruct x end; cbn; lia. Qed.

Lemma unquote_quote_loop isprint u : scalars u -> forall n m, (length (encode u) <= n)%nat ->
  (length (quote_loop isprint n (encode u)) < m)%nat ->
  unquote_loop m (quote_loop isprint n (encode u) ++ [34]) = Some (encode u, []).
Proof.
  induction u as [|c u IH]; intros Su n m Hn Hm.
  - replace (quote_loop isprint n (encode [])) with (@nil N) in * by (now destruct n). destruct m; [cbn in Hm; lia|]. reflexivity.
  - inversion Su as [|? ? Sc Su']; subst. pose proof (encode_rune_len c). pose proof (quote_rune_len isprint c).
    rewrite encode_cons, app_length in Hn. destruct n as [|n]; [lia|]. rewrite quote_loop_cons in * by auto. rewrite app_length in Hm.
    destruct m as [|m]; [lia|]. rewrite <- app_assoc, unquote_quote_rune by auto. rewrite (IH Su' n m) by lia. now rewrite encode_cons.
Qed.
Lemma unquote_quote isprint u : scalars u -> unquote (quote isprint (encode u)) = Some (encode u).
Proof.
  intros Su. unfold quote, unquote. rewrite (unquote_quote_loop isprint u Su); [reflexivity|lia|]. cbn. rewrite app_length. cbn. lia.
Qed.
