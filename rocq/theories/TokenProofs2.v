(** Names, quoted literals, regular expressions, operators; positions. *)
From Verif Require Import Bytes Utf8 Utf8Proofs Oracles Ast PegSyntax Grammar Actions Engine EngineBasics CleanEval Lexer GrammarSpec TokenProofs.
From Coq Require Import ZifyBool ZifyN ZifyNat.

(** ** Positions *)
Definition fixr (r : N) : N := if is_scalar r then r else rune_error.
Lemma encode_fixr rs : encode (map fixr rs) = encode rs.
Proof.
  induction rs as [|r rs IH]; [reflexivity|]. cbn [map]. rewrite !encode_cons, IH. f_equal.
  unfold fixr, encode_rune. destruct (is_scalar r) eqn:E; [now rewrite E|reflexivity].
Qed.
Lemma rune_count_encode' rs : rune_count (encode rs) = length rs.
Proof.
  rewrite <- encode_fixr, rune_count_encode; [apply map_length|].
  unfold scalars. apply Forall_map, Forall_forall. intros r _. unfold fixr. destruct (is_scalar r) eqn:E; auto.
Qed.

Lemma width_len l : width l = Z.of_nat (length (encode (rev l))).
Proof.
  induction l as [|x l IH]; [reflexivity|]. cbn [width rev]. rewrite encode_app, app_length, encode_cons, app_length, IH. cbn. lia.
Qed.
Lemma lfs_count l : lfs l = Z.of_nat (count_occ N.eq_dec (rev l) 10).
Proof.
  induction l as [|x l IH]; [reflexivity|]. cbn [lfs rev]. rewrite count_occ_app, IH. cbn [count_occ].
  destruct (N.eq_dec x 10) as [->|]; [rewrite N.eqb_refl; lia|]. rewrite (proj2 (N.eqb_neq x 10)) by auto. lia.
Qed.
Lemma since_last l : since l = Z.of_nat (length (last_line (rev l))).
Proof.
  induction l as [|x l IH]; [reflexivity|]. cbn [since rev]. unfold last_line. rewrite fold_left_app. cbn [fold_left].
  fold (last_line (rev l)). destruct (x =? 10); [reflexivity|]. rewrite app_length, IH. cbn [length]. lia.
Qed.
Lemma pos_at_of c t : hd_nl (crs c) = false -> getpos (pos_at c) (encode t) = pos_of (rev (pre c)) t.
Proof.
  intros H. unfold getpos, pos_at, pos_of. rewrite H. cbn [line col off]. now rewrite rune_count_encode', width_len, lfs_count, since_last.
Qed.

(** ** Names *)
Definition is_name (x : N) : bool :=
  let y := to_lower x in (y =? 95) || (y =? 45) || ((97 <=? y) && (y <=? 122)) || ((48 <=? y) && (y <=? 57)).
Lemma is_name_spec x : is_name x = true <-> name_char x.
Proof. unfold is_name, name_char, to_lower, digit. destruct ((65 <=? x) && (x <=? 90)) eqn:?, (x =? 304) eqn:?, (x =? 8490) eqn:?; lia. Qed.
Definition EName := EClass "[a-z0-9_-]i"%string [95; 45] [(97, 122); (48, 57)] true false.
Lemma class_name k rs : sc (S k) EName rs = class_scan is_name rs.
Proof.
  destruct rs as [|x r]; [reflexivity|]. cbn [sc EName class_scan]. rewrite xorb_false_l. unfold is_name, in_class. cbn [existsb].
  set (y := to_lower x). rewrite !orb_false_r, (N.eqb_sym 95), (N.eqb_sym 45). rewrite !orb_assoc. reflexivity.
Qed.
Definition noname : lang := noh is_name.
Lemma tok_name k : tok (sc (S (S k)) (EPlus EName)) (fun t => Forall name_char t /\ t <> []) noname.
Proof.
  eapply tok_equiv; [apply (tok_plus_class (S k) _ is_name (class_name k))| |auto].
  intros t. cbn. rewrite !Forall_forall. setoid_rewrite is_name_spec. reflexivity.
Qed.

(** ** Repetitions of variable-length items *)
Lemma sstar_sound g (L : lang) : (forall rs t r, g rs = Some (t, r) -> rs = t ++ r) ->
  L [] -> (forall rs t r u, g rs = Some (t, r) -> L u -> L (t ++ u)) ->
  forall k rs t r, sstar g k rs = Some (t, r) -> rs = t ++ r /\ L t /\ g r = None.
Proof.
  intros Hg L0 L1. induction k as [|k IH]; intros rs t r; cbn [sstar]; [discriminate|].
  destruct (g rs) as [[t1 r1]|] eqn:E.
  - destruct (sstar g k r1) as [[t2 r2]|] eqn:E2; [|discriminate]. intros [= <- <-].
    apply IH in E2 as (E2 & H2 & H3). rewrite (Hg _ _ _ E), E2, app_assoc. repeat split; auto. eapply L1; eauto.
  - intros [= <- <-]. auto.
Qed.
Lemma sstar_total g : (forall rs t r, g rs = Some (t, r) -> rs = t ++ r /\ t <> []) ->
  forall k rs, (length rs < k)%nat -> sstar g k rs <> None.
Proof.
  intros Hg. induction k as [|k IH]; intros rs Hk; cbn [sstar]; [lia|].
  destruct (g rs) as [[t1 r1]|] eqn:E; [|discriminate]. destruct (Hg _ _ _ E) as [-> Hn].
  specialize (IH r1). destruct (sstar g k r1) as [[]|]; [discriminate|]. exfalso. apply IH; auto.
  rewrite app_length in Hk. destruct t1; [congruence|]. cbn in Hk. lia.
Qed.

(** ** Quoted literals *)
Definition is_hex (x : N) : bool := ((48 <=? x) && (x <=? 57)) || ((97 <=? x) && (x <=? 102)) || ((65 <=? x) && (x <=? 70)).
Lemma is_hex_spec x : is_hex x = true <-> hex x.
Proof. unfold is_hex, hex. lia. Qed.
Lemma class_hex k rs : sc (S (S k)) (ERule RHexDigit) rs = class_scan is_hex rs.
Proof.
  destruct rs as [|x r]; [reflexivity|]. cbn [sc rules class_scan]. rewrite xorb_false_l. unfold in_class. cbn [existsb].
  rewrite orb_false_r, orb_false_l.
  replace (is_hex x) with ((48 <=? to_lower x) && (to_lower x <=? 57) || (97 <=? to_lower x) && (to_lower x <=? 102)); [reflexivity|].
  unfold is_hex, to_lower. destruct ((65 <=? x) && (x <=? 90)) eqn:?, (x =? 304) eqn:?, (x =? 8490) eqn:?; lia.
Qed.
Definition esc_chars : list N := [34; 92; 98; 102; 110; 114; 116].
Definition qitem (rs : list N) : option (list N * list N) :=
  match rs with
  | [] => None
  | c :: r =>
    if (32 <=? c) && negb (c =? 34) && negb (c =? 92) then Some ([c], r)
    else if c =? 92 then
      match r with
      | [] => None
      | e :: r' =>
        if existsb (fun x => x =? e) esc_chars then Some ([92; e], r')
        else if e =? 117 then
          match r' with
          | h1 :: h2 :: h3 :: h4 :: r'' =>
            if is_hex h1 && is_hex h2 && is_hex h3 && is_hex h4 then Some ([92; 117; h1; h2; h3; h4], r'') else None
          | _ => None
          end
        else None
      end
    else None
  end.
Definition EQItem := EChoice [ESeq [ENot (ERule REscapedChar); EAny]; ESeq [ELit [92] false """\\"""%string; ERule REscapeSequence]].

Lemma class_escaped k rs : sc (S (S k)) (ERule REscapedChar) rs =
  class_scan (fun c => negb ((32 <=? c) && negb (c =? 34) && negb (c =? 92))) rs.
Proof.
  destruct rs as [|x r]; [reflexivity|]. cbn [sc rules class_scan]. rewrite xorb_false_l. unfold in_class. cbn [existsb].
  replace (negb _) with ((34 =? x) || ((92 =? x) || false) || (((0 <=? x) && (x <=? 31)) || false)); [reflexivity|].
  destruct (34 =? x) eqn:?, (92 =? x) eqn:?, (x =? 34) eqn:?, (x =? 92) eqn:?, (32 <=? x) eqn:?, (x <=? 31) eqn:?; cbn; lia.
Qed.
Lemma class_single k rs : sc (S (S k)) (ERule RSingleCharEscape) rs = class_scan (fun c => existsb (fun x => x =? c) esc_chars) rs.
Proof.
  destruct rs as [|x r]; [reflexivity|]. cbn [sc rules class_scan]. rewrite xorb_false_l. unfold in_class. cbn [existsb]. rewrite orb_false_r. reflexivity.
Qed.

Lemma sc_unicode k rs : sc (S (S (S (S k)))) (ERule RUnicodeEscape) rs =
  match rs with
  | e :: h1 :: h2 :: h3 :: h4 :: r => if (e =? 117) && is_hex h1 && is_hex h2 && is_hex h3 && is_hex h4 then Some ([e; h1; h2; h3; h4], r) else None
  | _ => None
  end.
Proof.
  change (sc (S (S (S (S k)))) (ERule RUnicodeEscape) rs) with
    (sseq (sc (S (S k))) [ELit [117] false """u"""%string; ERule RHexDigit; ERule RHexDigit; ERule RHexDigit; ERule RHexDigit] rs).
  cbn [sseq]. change (sc (S (S k)) (ELit [117] false """u"""%string) rs) with (slit false [117] rs).
  destruct rs as [|e rs]; [reflexivity|]. cbn [slit].
  destruct (e =? 117) eqn:Ee; [|destruct rs as [|? [|? [|? [|]]]]; reflexivity].
  destruct rs as [|h1 [|h2 [|h3 [|h4 rs]]]]; repeat (rewrite class_hex; cbn [class_scan]; repeat match goal with |- context [if is_hex ?h then _ else _] => destruct (is_hex h) eqn:?; cbn [andb app] end); first [reflexivity|congruence].
Qed.

Lemma sc_qitem k rs : sc (S (S (S (S (S (S (S (S k)))))))) EQItem rs = qitem rs.
Proof.
  change (sc (S (S (S (S (S (S (S (S k)))))))) EQItem rs) with
    (match sseq (sc (S (S (S (S (S (S k))))))) [ENot (ERule REscapedChar); EAny] rs with Some x => Some x | None =>
       match sseq (sc (S (S (S (S (S (S k))))))) [ELit [92] false """\\"""%string; ERule REscapeSequence] rs with Some x => Some x | None => None end end).
  cbn [sseq].
  change (sc (S (S (S (S (S (S k)))))) (ENot (ERule REscapedChar)) rs) with
    (match sc (S (S (S (S (S k))))) (ERule REscapedChar) rs with Some _ => None | None => Some (@nil N, rs) end).
  rewrite class_escaped. destruct rs as [|c r]; [reflexivity|]. cbn [class_scan qitem].
  destruct ((32 <=? c) && negb (c =? 34) && negb (c =? 92)) eqn:E; cbn [negb]; [reflexivity|].
  change (sc (S (S (S (S (S (S k)))))) (ELit [92] false """\\"""%string) (c :: r)) with (slit false [92] (c :: r)). cbn [slit].
  destruct (N.eqb_spec c 92) as [->|]; [|reflexivity].
  change (sc (S (S (S (S (S (S k)))))) (ERule REscapeSequence) r) with
    (match sc (S (S (S (S k)))) (ERule RSingleCharEscape) r with Some x => Some x | None =>
       match sc (S (S (S (S k)))) (ERule RUnicodeEscape) r with Some x => Some x | None => None end end).
  rewrite class_single. destruct r as [|e r]; [reflexivity|]. cbn [class_scan].
  destruct (existsb _ esc_chars); [reflexivity|].
  rewrite sc_unicode. destruct (N.eqb_spec e 117) as [->|]; [|destruct r as [|? [|? [|? [|]]]]; reflexivity].
  destruct r as [|h1 [|h2 [|h3 [|h4 r]]]]; try reflexivity. cbn [andb].
  destruct (is_hex h1 && is_hex h2 && is_hex h3 && is_hex h4); reflexivity.
Qed.

Lemma qitem_split rs t r : qitem rs = Some (t, r) -> rs = t ++ r /\ t <> [].
Proof.
  destruct rs as [|c rs]; cbn [qitem]; [discriminate|].
  destruct (_ && _ && _); [intros [= <- <-]; split; [reflexivity|discriminate]|].
  destruct (N.eqb_spec c 92) as [->|]; [|discriminate]. destruct rs as [|e rs]; [discriminate|].
  destruct (existsb _ _); [intros [= <- <-]; split; [reflexivity|discriminate]|].
  destruct (N.eqb_spec e 117) as [->|]; [|discriminate]. destruct rs as [|h1 [|h2 [|h3 [|h4 rs]]]]; try discriminate.
  destruct (_ && _); [|discriminate]. intros [= <- <-]; split; [reflexivity|discriminate].
Qed.
Lemma qitem_body rs t r u : qitem rs = Some (t, r) -> quoted_body u -> quoted_body (t ++ u).
Proof.
  intros H Hu. revert H. destruct rs as [|c rs]; cbn [qitem]; [discriminate|].
  destruct (_ && _ && _) eqn:E; [intros [= <- <-]; cbn; apply qb_char; auto; lia|].
  destruct (N.eqb_spec c 92) as [->|]; [|discriminate]. destruct rs as [|e rs]; [discriminate|].
  destruct (existsb _ _) eqn:Ex; [intros [= <- <-]; cbn; apply qb_esc; auto|].
  { apply existsb_exists in Ex as (x & Hx & Ex). apply N.eqb_eq in Ex. subst x. exact Hx. }
  destruct (N.eqb_spec e 117) as [->|]; [|discriminate]. destruct rs as [|h1 [|h2 [|h3 [|h4 rs]]]]; try discriminate.
  destruct (is_hex h1 && is_hex h2 && is_hex h3 && is_hex h4) eqn:Eh; [|discriminate]. intros [= <- <-]. cbn. rewrite !andb_true_iff, !is_hex_spec in Eh. apply qb_uni; tauto.
Qed.

Definition qstar (rs : list N) := sstar qitem (S (length rs)) rs.
Lemma sstar_ext g g' : (forall rs, g rs = g' rs) -> forall k rs, sstar g k rs = sstar g' k rs.
Proof. intros E. induction k as [|k IH]; intros rs; cbn [sstar]; [reflexivity|]. rewrite E. destruct (g' rs) as [[t r]|]; auto. now rewrite IH. Qed.

Lemma sstar_enough g : (forall rs t r, g rs = Some (t, r) -> rs = t ++ r /\ t <> []) ->
  forall k k' rs, (length rs < k)%nat -> (length rs < k')%nat -> sstar g k rs = sstar g k' rs.
Proof.
  intros Hg. induction k as [|k IH]; intros k' rs Hk Hk'; [lia|]. destruct k' as [|k']; [lia|]. cbn [sstar].
  destruct (g rs) as [[t r]|] eqn:E; [|reflexivity]. destruct (Hg _ _ _ E) as [-> Hn].
  rewrite (IH k' r); [reflexivity| |]; rewrite app_length in *; destruct t; try congruence; cbn in *; lia.
Qed.

Lemma qitem_quote r : qitem (34 :: r) = None.
Proof. reflexivity. Qed.
Lemma qstar_complete body r : quoted_body body -> qstar (body ++ 34 :: r) = Some (body, 34 :: r).
Proof.
  unfold qstar. induction 1 as [|c t H1 H2 H3 Ht IH|c t Hc Ht IH|h1 h2 h3 h4 t H1 H2 H3 H4 Ht IH].
  - reflexivity.
  - cbn [app sstar]. 
    replace (qitem (c :: t ++ 34 :: r)) with (Some ([c], t ++ 34 :: r)).
    + rewrite (sstar_enough qitem qitem_split _ (S (length (t ++ 34 :: r)))) by (cbn; lia). rewrite IH. reflexivity.
    + cbn [qitem]. replace (_ && _ && _) with true by lia. reflexivity.
  - cbn [app sstar]. 
    replace (qitem (92 :: c :: t ++ 34 :: r)) with (Some ([92; c], t ++ 34 :: r)).
    + rewrite (sstar_enough qitem qitem_split _ (S (length (t ++ 34 :: r)))) by (cbn; lia). rewrite IH. reflexivity.
    + unfold qitem. change ((32 <=? 92) && negb (92 =? 34) && negb (92 =? 92)) with false. change (92 =? 92) with true. cbv iota.
      replace (existsb _ esc_chars) with true; [reflexivity|]. symmetry. apply existsb_exists. exists c. split; [exact Hc|apply N.eqb_refl].
  - cbn [app sstar].
    replace (qitem (92 :: 117 :: h1 :: h2 :: h3 :: h4 :: t ++ 34 :: r)) with (Some ([92; 117; h1; h2; h3; h4], t ++ 34 :: r)).
    + rewrite (sstar_enough qitem qitem_split _ (S (length (t ++ 34 :: r)))) by (cbn; lia). rewrite IH. reflexivity.
    + apply is_hex_spec in H1, H2, H3, H4. cbn. now rewrite H1, H2, H3, H4.
Qed.
Lemma qstar_sound rs t r : qstar rs = Some (t, r) -> rs = t ++ r /\ quoted_body t.
Proof.
  intros H. destruct (sstar_sound qitem quoted_body) with (k := S (length rs)) (rs := rs) (t := t) (r := r) as (E & Hq & _); auto.
  - intros. now apply qitem_split.
  - constructor.
  - intros. eapply qitem_body; eauto.
Qed.
Lemma qstar_total rs : exists t r, qstar rs = Some (t, r).
Proof. pose proof (sstar_total qitem qitem_split (S (length rs)) rs ltac:(lia)). unfold qstar. destruct (sstar _ _ _) as [[t r]|]; [eauto|congruence]. Qed.


(** ** Regular expressions *)
Definition ritem (rs : list N) : option (list N * list N) :=
  match rs with
  | [] => None
  | c :: r =>
    if negb (c =? 47) && negb (c =? 92) && negb (c =? 10) then Some ([c], r)
    else if c =? 92 then match r with [] => None | e :: r' => if e =? 10 then None else Some ([92; e], r') end
    else None
  end.
Lemma sc_ritem rs : sc 10 (ERule RRegexChar) rs = ritem rs.
Proof.
  destruct rs as [|c r]; [reflexivity|]. cbn [sc rules sseq schoice slit ritem app].
  destruct (N.eqb_spec c 47) as [->|N1]; [reflexivity|]. destruct (N.eqb_spec c 92) as [->|N2].
  - destruct r as [|e r]; [reflexivity|]. cbn. destruct (N.eqb_spec e 10) as [->|N3]; reflexivity.
  - destruct (N.eqb_spec c 10) as [->|N3]; reflexivity.
Qed.
Lemma ritem_split rs t r : ritem rs = Some (t, r) -> rs = t ++ r /\ t <> [].
Proof.
  destruct rs as [|c rs]; cbn [ritem]; [discriminate|].
  destruct (_ && _ && _); [intros [= <- <-]; split; [reflexivity|discriminate]|].
  destruct (N.eqb_spec c 92) as [->|]; [|discriminate]. destruct rs as [|e rs]; [discriminate|].
  destruct (e =? 10); [discriminate|intros [= <- <-]; split; [reflexivity|discriminate]].
Qed.
Lemma ritem_body rs t r u : ritem rs = Some (t, r) -> regex_body u -> regex_body (t ++ u).
Proof.
  intros H Hu. revert H. destruct rs as [|c rs]; cbn [ritem]; [discriminate|].
  destruct (_ && _ && _) eqn:E; [intros [= <- <-]; cbn; apply rb_char; auto; lia|].
  destruct (N.eqb_spec c 92) as [->|]; [|discriminate]. destruct rs as [|e rs]; [discriminate|].
  destruct (e =? 10) eqn:Ex; [discriminate|]. intros [= <- <-]. cbn. apply rb_esc; auto. lia.
Qed.
Definition rstar (rs : list N) := sstar ritem (S (length rs)) rs.
Lemma rstar_complete body r : regex_body body -> rstar (body ++ 47 :: r) = Some (body, 47 :: r).
Proof.
  unfold rstar. induction 1 as [|c t H1 H2 H3 Ht IH|c t Hc Ht IH].
  - reflexivity.
  - cbn [app sstar]. replace (ritem (c :: t ++ 47 :: r)) with (Some ([c], t ++ 47 :: r)).
    + rewrite (sstar_enough ritem ritem_split _ (S (length (t ++ 47 :: r)))) by (cbn; lia). rewrite IH. reflexivity.
    + cbn [ritem]. replace (_ && _ && _) with true by lia. reflexivity.
  - cbn [app sstar]. replace (ritem (92 :: c :: t ++ 47 :: r)) with (Some ([92; c], t ++ 47 :: r)).
    + rewrite (sstar_enough ritem ritem_split _ (S (length (t ++ 47 :: r)))) by (cbn; lia). rewrite IH. reflexivity.
    + cbn. rewrite (proj2 (N.eqb_neq c 10)) by auto. reflexivity.
Qed.
Lemma rstar_sound rs t r : rstar rs = Some (t, r) -> rs = t ++ r /\ regex_body t.
Proof.
  intros H. destruct (sstar_sound ritem regex_body) with (k := S (length rs)) (rs := rs) (t := t) (r := r) as (E & Hq & _); auto.
  - intros. now apply ritem_split.
  - constructor.
  - intros. eapply ritem_body; eauto.
Qed.
Lemma rstar_total rs : exists t r, rstar rs = Some (t, r).
Proof. pose proof (sstar_total ritem ritem_split (S (length rs)) rs ltac:(lia)). unfold rstar. destruct (sstar _ _ _) as [[t r]|]; [eauto|congruence]. Qed.
Lemma sc_star k e rs : sc (S k) (EStar e) rs = sstar (sc k e) (S (length rs)) rs.
Proof. reflexivity. Qed.
