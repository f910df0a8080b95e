(** Quoted literals: strconv.Unquote against the specification. *)
From Verif Require Import Bytes Utf8 Utf8Proofs GoStrconv GrammarSpec GrammarFacts LiteralSpec.
From Coq Require Import ZifyBool ZifyN ZifyNat.

Lemma unquote_loop_char c r n : c <> 34 -> c <> 92 -> 32 <= c -> is_scalar c = true ->
  unquote_loop (S n) (encode_rune c ++ r) =
    match unquote_loop n r with Some (o, rem) => Some (encode_rune c ++ o, rem) | None => None end.
Proof.
  intros H1 H2 H3 Hs. destruct (N.lt_ge_cases c 128) as [L|L].
  - rewrite encode_rune_ascii by auto. cbn [app].
    assert (E : unquote_char (c :: r) = Some ([c], r)).
    { unfold unquote_char. replace (c =? 34) with false by lia. replace (128 <=? c) with false by lia. replace (c =? 92) with false by lia. reflexivity. }
    cbn [unquote_loop]. rewrite E.
    destruct c as [|p]; [lia|].
    do 7 (destruct p as [p|p|]; try reflexivity; try lia).
  - assert (E : unquote_char (encode_rune c ++ r) = Some (encode_rune c, r)).
    { pose proof (decode_encode_rune c r Hs) as D. destruct (encode_rune c) as [|x y] eqn:Ec; [pose proof (encode_rune_len c) as X; rewrite Ec in X; cbn in X; lia|].
      assert (Hx : 128 <= x).
      { pose proof (encode_rune_high c L) as X. rewrite Ec in X. now inversion X. }
      cbn [app] in *. unfold unquote_char. replace (x =? 34) with false by lia. replace (128 <=? x) with true by lia.
      rewrite D. rewrite <- Ec. f_equal. f_equal. change (x :: y ++ r) with ((x :: y) ++ r). rewrite <- Ec. apply skipn_app_exact. }
    destruct (encode_rune c) as [|x y] eqn:Ec; [pose proof (encode_rune_len c) as X; rewrite Ec in X; cbn in X; lia|].
    assert (Hx : 128 <= x).
    { pose proof (encode_rune_high c L) as X. rewrite Ec in X. now inversion X. }
    cbn [app] in *. cbn [unquote_loop]. rewrite E.
    destruct x as [|p]; [lia|]. do 7 (destruct p as [p|p|]; try reflexivity; try lia).
Qed.

Lemma unquote_loop_esc e out r n : unquote_char (92 :: e) = Some (out, r) ->
  unquote_loop (S n) (92 :: e) = match unquote_loop n r with Some (o, rem) => Some (out ++ o, rem) | None => None end.
Proof. intros H. cbn [unquote_loop]. now rewrite H. Qed.
Lemma unquote_loop_esc_none e n : unquote_char (92 :: e) = None -> unquote_loop (S n) (92 :: e) = None.
Proof. intros H. cbn [unquote_loop]. now rewrite H. Qed.

Lemma hex_val_num c : hex c -> hex_val c = Some (hex_num c).
Proof.
  intros H. unfold hex_val, hex_num, hex in *. destruct ((48 <=? c) && (c <=? 57)) eqn:E1.
  { replace (c <=? 57) with true by lia. reflexivity. }
  destruct ((97 <=? c) && (c <=? 102)) eqn:E2.
  { replace (c <=? 57) with false by lia. replace (c <=? 70) with false by lia. reflexivity. }
  replace ((65 <=? c) && (c <=? 70)) with true by lia. replace (c <=? 57) with false by lia. replace (c <=? 70) with true by lia. reflexivity.
Qed.
Lemma hex_ascii c : hex c -> c < 128.
Proof. unfold hex. lia. Qed.
Lemma hex_num_small c : hex c -> hex_num c < 16.
Proof. unfold hex, hex_num. intros H. destruct (c <=? 57) eqn:?, (c <=? 70) eqn:?; lia. Qed.

Lemma unquote_uni h1 h2 h3 h4 r : hex h1 -> hex h2 -> hex h3 -> hex h4 ->
  let c := hex_num h1 * 4096 + hex_num h2 * 256 + hex_num h3 * 16 + hex_num h4 in
  unquote_char (92 :: 117 :: h1 :: h2 :: h3 :: h4 :: r) = if is_scalar c then Some (encode_rune c, r) else None.
Proof.
  intros H1 H2 H3 H4 c. unfold unquote_char. cbn [N.eqb Pos.eqb negb N.leb N.compare Pos.compare Pos.compare_cont].
  cbn [hex_digits]. rewrite !hex_val_num by auto.
  replace ((((0 * 16 + hex_num h1) * 16 + hex_num h2) * 16 + hex_num h3) * 16 + hex_num h4) with c by (unfold c; lia).
  reflexivity.
Qed.
Lemma uni_scalar h1 h2 h3 h4 : hex h1 -> hex h2 -> hex h3 -> hex h4 ->
  let c := hex_num h1 * 4096 + hex_num h2 * 256 + hex_num h3 * 16 + hex_num h4 in
  is_scalar c = true <-> ~ surrogate c.
Proof.
  intros H1 H2 H3 H4 c. rewrite scalar_spec. unfold surrogate.
  apply hex_num_small in H1, H2, H3, H4. assert (c < 65536) by (unfold c; lia). lia.
Qed.

(** What each escape yields. *)
Lemma escape_cases e r : In e (tx """\bfnrt") ->
  exists c, unquote_char (92 :: e :: r) = Some ([c], r) /\ c < 128 /\
    (forall t u, denotes_string t u -> denotes_string (92 :: e :: t) (c :: u)).
Proof.
  intros H. cbn in H. repeat destruct H as [<-|H]; try contradiction; eexists; (split; [reflexivity|]); (split; [lia|]).
  - apply ds_quote.
  - apply ds_backslash.
  - apply ds_b.
  - apply ds_f.
  - apply ds_n.
  - apply ds_r.
  - apply ds_t.
Qed.

(** The loop on the body of a quoted literal. *)
Lemma unquote_body t : quoted_body t -> scalars t -> forall n, (length (encode t) < n)%nat ->
  match unquote_loop n (encode t ++ [34]) with
  | Some (s, rem) => rem = [] /\ exists u, denotes_string t u /\ scalars u /\ s = encode u
  | None => forall u, ~ denotes_string t u
  end.
Proof.
  induction 1 as [|c t H1 H2 H3 Q IH|e t He Q IH|h1 h2 h3 h4 t G1 G2 G3 G4 Q IH]; intros Hs n Hn.
  - destruct n; [cbn in Hn; lia|]. cbn. split; auto. exists []. split; [constructor|split; [constructor|auto]].
  - inversion Hs as [|? ? Sc Hs']; subst. rewrite encode_cons in *. rewrite app_length in Hn. pose proof (encode_rune_len c).
    destruct n; [lia|]. rewrite <- app_assoc, unquote_loop_char by auto. specialize (IH Hs' n ltac:(lia)).
    destruct (unquote_loop n (encode t ++ [34])) as [[s rem]|].
    + destruct IH as (-> & u & D & Su & ->). split; auto. exists (c :: u). split; [now constructor|]. split; [now constructor|]. now rewrite encode_cons.
    + intros u D. inversion D; subst; try (cbn in *; congruence); eapply IH; eauto.
  - inversion Hs as [|? ? _ Hs']; subst. inversion Hs' as [|? ? _ Hs'']; subst.
    assert (A : e < 128) by (cbn in He; repeat destruct He as [<-|He]; try contradiction; lia).
    rewrite !encode_cons, (encode_rune_ascii 92), (encode_rune_ascii e) in * by (auto; lia). cbn [app length] in *.
    destruct n; [lia|]. destruct (escape_cases e (encode t ++ [34]) He) as (c & U & Hc & Dc).
    rewrite (unquote_loop_esc _ _ _ _ U). specialize (IH Hs'' n ltac:(lia)).
    destruct (unquote_loop n (encode t ++ [34])) as [[s rem]|].
    + destruct IH as (-> & u & D & Su & ->). split; auto. exists (c :: u). split; [auto|]. split; [constructor; auto; apply scalar_spec; lia|].
      now rewrite encode_cons, encode_rune_ascii.
    + intros u D. inversion D; subst; try congruence; try (eapply IH; eauto; fail).
      cbn in He. repeat destruct He as [He|He]; try contradiction; discriminate.
  - inversion Hs as [|? ? _ Hs']; subst. inversion Hs' as [|? ? _ Hs'']; subst. inversion Hs'' as [|? ? _ Hs1]; subst.
    inversion Hs1 as [|? ? _ Hs2]; subst. inversion Hs2 as [|? ? _ Hs3]; subst. inversion Hs3 as [|? ? _ Hs4]; subst.
    assert (E : encode (92 :: 117 :: h1 :: h2 :: h3 :: h4 :: t) = 92 :: 117 :: h1 :: h2 :: h3 :: h4 :: encode t).
    { rewrite !encode_cons, !encode_rune_ascii by (first [now apply hex_ascii|lia]). reflexivity. }
    rewrite E in *.
    cbn [app length] in *. destruct n; [lia|].
    pose proof (unquote_uni h1 h2 h3 h4 (encode t ++ [34]) G1 G2 G3 G4) as U. pose proof (uni_scalar h1 h2 h3 h4 G1 G2 G3 G4) as US. cbn zeta in U, US.
    set (c := hex_num h1 * 4096 + hex_num h2 * 256 + hex_num h3 * 16 + hex_num h4) in *.
    destruct (is_scalar c) eqn:Sc.
    + rewrite (unquote_loop_esc _ _ _ _ U). specialize (IH Hs4 n ltac:(lia)).
      destruct (unquote_loop n (encode t ++ [34])) as [[s rem]|].
      * destruct IH as (-> & u & D & Su & ->). split; auto. exists (c :: u). split; [apply ds_uni; auto; tauto|]. split; [now constructor|]. now rewrite encode_cons.
      * intros u D. inversion D; subst; try (cbn in *; congruence). eapply IH; eauto.
    + rewrite (unquote_loop_esc_none _ _ U). intros u D. inversion D; subst; try (cbn in *; congruence).
      assert (false = true) by (apply US; auto). discriminate.
Qed.

Lemma denotes_body t u : denotes_string t u -> quoted_body t.
Proof.
  induction 1; try (now constructor); try (apply qb_esc; cbn; tauto).
Qed.
Lemma denotes_fun t u : denotes_string t u -> forall u', denotes_string t u' -> u = u'.
Proof.
  induction 1; intros u' D; inversion D; subst; try congruence; try (cbn in *; congruence); try (f_equal; auto; fail).
Qed.

Theorem unquote_spec t : quoted t -> scalars t ->
  forall s, unquote (encode t) = Some s <->
    exists body u, t = [34] ++ body ++ [34] /\ denotes_string body u /\ s = encode u.
Proof.
  intros (body & -> & Q) Hs s.
  assert (Hb : scalars body). { apply Forall_app in Hs as [_ Hs]. now apply Forall_app in Hs as [Hs _]. }
  assert (E : encode ([34] ++ body ++ [34]) = 34 :: encode body ++ [34]) by (rewrite !encode_app; reflexivity).
  rewrite E. unfold unquote. cbn [length]. rewrite app_length. cbn [length].
  pose proof (unquote_body body Q Hb (S (length (encode body) + 1)) ltac:(lia)) as B.
  assert (INJ : forall b', [34] ++ body ++ [34] = [34] ++ b' ++ [34] -> b' = body).
  { intros b' Eb. apply app_inv_head in Eb. now apply app_inv_tail in Eb. }
  destruct (unquote_loop _ _) as [[o rem]|].
  - destruct B as (-> & u & D & _ & ->). split.
    + intros [= <-]. eauto.
    + intros (b' & u' & Eb & D' & ->). apply INJ in Eb. subst b'. now rewrite (denotes_fun _ _ D _ D').
  - split; [discriminate|]. intros (b' & u' & Eb & D' & ->). apply INJ in Eb. subst b'. exfalso. eapply B; eauto.
Qed.

(** The canonical literal. *)
Lemma hex_char_hex v : v < 16 -> hex (hex_char v) /\ hex_num (hex_char v) = v.
Proof. intros H. unfold hex_char, hex, hex_num. destruct (v <? 10) eqn:E. - replace (48 + v <=? 57) with true by lia. lia. - replace (87 + v <=? 57) with false by lia. replace (87 + v <=? 70) with false by lia. lia. Qed.
Lemma quote_text_denotes t : denotes_string (concat (map quote_char t)) t.
Proof.
  induction t as [|c t IH]; [constructor|]. cbn [map concat]. unfold quote_char at 1.
  destruct (c <? 32) eqn:E1.
  - destruct (hex_char_hex (c / 16)) as [A1 B1]; [lia|]. destruct (hex_char_hex (c mod 16)) as [A2 B2]; [lia|].
    pose proof (ds_uni 48 48 (hex_char (c / 16)) (hex_char (c mod 16)) (concat (map quote_char t)) t) as U. cbn zeta in U.
    rewrite B1, B2 in U. change (hex_num 48) with 0 in U. replace (0 * 4096 + 0 * 256 + c / 16 * 16 + c mod 16) with c in U by lia.
    apply U; auto; try (unfold hex; lia). unfold surrogate. lia.
  - destruct (c =? 34) eqn:E2; [replace c with 34 by lia; now apply ds_quote|].
    destruct (c =? 92) eqn:E3; [replace c with 92 by lia; now apply ds_backslash|]. cbn [app]. constructor; auto; lia.
Qed.
Lemma quote_char_scalars c : is_scalar c = true -> scalars (quote_char c).
Proof.
  intros H. unfold quote_char. destruct (c <? 32) eqn:E.
  - apply ascii_scalars. cbn. destruct (hex_char_hex (c / 16)) as [A1 _]; [lia|]. destruct (hex_char_hex (c mod 16)) as [A2 _]; [lia|].
    apply hex_ascii in A1, A2. repeat constructor; auto; lia.
  - destruct (c =? 34); [repeat constructor|]. destruct (c =? 92); repeat constructor. exact H.
Qed.
Lemma quote_text_scalars t : scalars t -> scalars (quote_text t).
Proof.
  intros H. unfold quote_text. apply Forall_app. split; [repeat constructor|]. apply Forall_app. split; [|repeat constructor].
  induction H; [constructor|]. cbn [map concat]. apply Forall_app. split; auto. now apply quote_char_scalars.
Qed.
Lemma quote_text_quoted t : quoted (quote_text t).
Proof. eexists. split; [reflexivity|]. eapply denotes_body, quote_text_denotes. Qed.
Lemma unquote_quote_text t : scalars t -> unquote (encode (quote_text t)) = Some (encode t).
Proof.
  intros H. apply unquote_spec; [apply quote_text_quoted|now apply quote_text_scalars|].
  exists (concat (map quote_char t)), t. split; [reflexivity|]. split; [apply quote_text_denotes|reflexivity].
Qed.
