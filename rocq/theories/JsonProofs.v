(** The JSON parser of Json.v accepts exactly the documents of JsonSpec.v. *)
From Verif Require Import Bytes GoStrconv Json JsonSpec.
From Coq Require Import ZifyBool ZifyN ZifyNat.

Lemma is_ws_spec c : is_ws c = true <-> ws_char c.
Proof. unfold is_ws, ws_char. lia. Qed.

Lemma is_digit_spec c : is_digit c = true <-> digit c.
Proof. unfold is_digit, digit. lia. Qed.

Lemma is_hex_spec c : is_hex c = true <-> hexdigit c.
Proof.
  unfold is_hex, hex_val, hexdigit.
  destruct ((48 <=? c) && (c <=? 57)) eqn:A; [split; [lia|auto]|].
  destruct ((97 <=? c) && (c <=? 102)) eqn:B; [split; [lia|auto]|].
  destruct ((65 <=? c) && (c <=? 70)) eqn:C; [split; [lia|auto]|].
  split; [discriminate|lia].
Qed.

Lemma is_esc_spec c : is_esc c = true <-> (In c (b "bfnrt\/") \/ c = 34).
Proof. unfold is_esc. change (b "bfnrt\/") with [98;102;110;114;116;92;47]. cbn. lia. Qed.

Lemma skip_ws_split s : exists w, s = w ++ skip_ws s /\ ws w.
Proof.
  induction s as [|c s (w & E & H)]; cbn.
  - exists []. split; [reflexivity|constructor].
  - destruct (is_ws c) eqn:I.
    + exists (c :: w). split; [cbn; congruence|]. constructor; [now apply is_ws_spec|exact H].
    + exists []. split; [reflexivity|constructor].
Qed.

Lemma skip_ws_app w s : ws w -> skip_ws (w ++ s) = skip_ws s.
Proof.
  induction 1 as [|c w H _ IH]; [reflexivity|].
  cbn. apply is_ws_spec in H. now rewrite H.
Qed.

Lemma skip_ws_stop c s : is_ws c = false -> skip_ws (c :: s) = c :: s.
Proof. intros H. cbn. now rewrite H. Qed.

Lemma skip_ws_all w : ws w -> skip_ws w = [].
Proof. intros H. rewrite <- (app_nil_r w), skip_ws_app by exact H. reflexivity. Qed.

(** ** Strings *)
Lemma scan_string_sound n : forall s a t, (length s <= n)%nat ->
  scan_string s = Some (a, t) -> s = a ++ 34 :: t /\ string_text a.
Proof.
  induction n as [|n IH]; intros s a t L H.
  - destruct s; [discriminate|cbn in L; lia].
  - destruct s as [|c r]; [discriminate|]. cbn in H, L.
    destruct (c =? 34) eqn:Q.
    { injection H as <- <-. apply N.eqb_eq in Q. subst. split; [reflexivity|constructor]. }
    destruct (c =? 92) eqn:B.
    { apply N.eqb_eq in B. subst. destruct r as [|e r1]; [discriminate|].
      destruct (is_esc e) eqn:Es.
      - destruct (scan_string r1) as [[a' t']|] eqn:R; [|discriminate].
        injection H as <- <-. cbn in L. apply IH in R as [-> S0]; [|lia].
        split; [reflexivity|]. apply st_esc; [now apply is_esc_spec|exact S0].
      - destruct (e =? 117) eqn:U; [|discriminate]. apply N.eqb_eq in U. subst.
        destruct r1 as [|h1 [|h2 [|h3 [|h4 r2]]]]; try discriminate.
        destruct (is_hex h1 && is_hex h2 && is_hex h3 && is_hex h4) eqn:Hx; [|discriminate].
        destruct (scan_string r2) as [[a' t']|] eqn:R; [|discriminate].
        injection H as <- <-. cbn in L. apply IH in R as [-> S0]; [|lia].
        apply andb_true_iff in Hx as [Hx H4]. apply andb_true_iff in Hx as [Hx H3].
        apply andb_true_iff in Hx as [H1 H2].
        split; [reflexivity|]. apply st_uni; try now apply is_hex_spec. exact S0. }
    destruct (c <? 32) eqn:C; [discriminate|].
    destruct (scan_string r) as [[a' t']|] eqn:R; [|discriminate].
    injection H as <- <-. apply IH in R as [-> S0]; [|lia].
    split; [reflexivity|]. apply st_char; [lia|lia|lia|exact S0].
Qed.

Lemma scan_string_complete a t : string_text a -> scan_string (a ++ 34 :: t) = Some (a, t).
Proof.
  induction 1 as [|c s H1 H2 H3 _ IH|e s H _ IH|h1 h2 h3 h4 s H1 H2 H3 H4 _ IH].
  - reflexivity.
  - cbn. replace (c =? 34) with false by lia. replace (c =? 92) with false by lia.
    replace (c <? 32) with false by lia. now rewrite IH.
  - cbn. apply is_esc_spec in H. rewrite H. now rewrite IH.
  - cbn. apply is_hex_spec in H1, H2, H3, H4. now rewrite H1, H2, H3, H4, IH.
Qed.

(** ** Numbers *)
Lemma take_digits_sound s ds t : take_digits s = (ds, t) -> s = ds ++ t /\ Forall digit ds.
Proof.
  revert ds t. induction s as [|c s IH]; intros ds t; cbn.
  - intros [= <- <-]. now split.
  - destruct (is_digit c) eqn:D.
    + destruct (take_digits s) as [a u]. intros [= <- <-].
      destruct (IH _ _ eq_refl) as [-> F]. split; [reflexivity|].
      constructor; [now apply is_digit_spec|exact F].
    + intros [= <- <-]. now split.
Qed.

Definition no_digit (t : bytes) : Prop := match t with [] => True | c :: _ => ~ digit c end.

Lemma take_digits_complete ds t : Forall digit ds -> no_digit t -> take_digits (ds ++ t) = (ds, t).
Proof.
  induction 1 as [|c ds H _ IH]; intros N0; cbn.
  - destruct t as [|c t]; [reflexivity|]. cbn. destruct (is_digit c) eqn:D; [|reflexivity].
    apply is_digit_spec in D. contradiction.
  - apply is_digit_spec in H. rewrite H. now rewrite (IH N0).
Qed.

(** A text that does not continue a number. *)
Definition stop (t : bytes) : Prop :=
  match t with [] => True | c :: _ => ~ digit c /\ c <> 46 /\ c <> 101 /\ c <> 69 end.

Lemma stop_no_digit t : stop t -> no_digit t.
Proof. destruct t; cbn; tauto. Qed.

Lemma scan_int_sound s i t : scan_int s = Some (i, t) -> s = i ++ t /\ int_text i.
Proof.
  destruct s as [|c r]; [discriminate|]. unfold scan_int.
  destruct (c =? 48) eqn:Z0.
  - intros [= <- <-]. apply N.eqb_eq in Z0. subst. split; [reflexivity|constructor].
  - destruct (is_digit c) eqn:D; [|discriminate].
    cbn. rewrite D. destruct (take_digits r) as [a u] eqn:E. intros [= <- <-].
    destruct (take_digits_sound _ _ _ E) as [-> F].
    split; [reflexivity|]. apply it_digits; [|exact F].
    apply is_digit_spec in D. unfold digit in D. lia.
Qed.

Lemma scan_int_complete i t : int_text i -> no_digit t -> scan_int (i ++ t) = Some (i, t).
Proof.
  intros [|c ds H F] N0; [reflexivity|].
  cbn. replace (c =? 48) with false by lia.
  replace (is_digit c) with true by (unfold is_digit; lia).
  now rewrite take_digits_complete.
Qed.

Lemma scan_frac_sound s f t : scan_frac s = Some (f, t) -> s = f ++ t /\ frac_text f.
Proof.
  destruct s as [|c r]; cbn.
  - intros [= <- <-]. split; [reflexivity|constructor].
  - destruct (c =? 46) eqn:D.
    + destruct (take_digits r) as [[|d ds] u] eqn:E; [discriminate|].
      intros [= <- <-]. destruct (take_digits_sound _ _ _ E) as [-> F].
      apply N.eqb_eq in D. subst. split; [reflexivity|]. constructor; [exact F|discriminate].
    + intros [= <- <-]. split; [reflexivity|constructor].
Qed.

Lemma scan_frac_complete f t : frac_text f -> no_digit t -> (match t with [] => True | c :: _ => c <> 46 end) ->
  scan_frac (f ++ t) = Some (f, t).
Proof.
  intros [|ds F NE] N0 D; cbn.
  - destruct t as [|c t]; [reflexivity|]. cbn. now replace (c =? 46) with false by lia.
  - rewrite take_digits_complete by assumption. destruct ds; [congruence|reflexivity].
Qed.

Lemma scan_exp_sound s e t : scan_exp s = Some (e, t) -> s = e ++ t /\ exp_text e.
Proof.
  destruct s as [|c r]; cbn -[orb].
  - intros [= <- <-]. split; [reflexivity|constructor].
  - destruct ((c =? 101) || (c =? 69)) eqn:D.
    + assert (exists sg r1, match r with
                       | d :: r' => if (d =? 43) || (d =? 45) then ([d], r') else ([], r)
                       | [] => ([], r)
                       end = (sg, r1) /\ r = sg ++ r1 /\ (sg = [] \/ sg = [43] \/ sg = [45])) as (sg & r1 & -> & -> & Hs).
      { destruct r as [|d r']; [exists [], []; auto|].
        destruct ((d =? 43) || (d =? 45)) eqn:Sg.
        - exists [d], r'. repeat split. assert (d = 43 \/ d = 45) as [-> | ->] by lia; auto.
        - exists [], (d :: r'). auto. }
      destruct (take_digits r1) as [[|d ds] u] eqn:E; [discriminate|].
      intros [= <- <-]. destruct (take_digits_sound _ _ _ E) as [-> F].
      split; [cbn; now rewrite <- app_assoc|].
      apply et_some; [lia|exact Hs|exact F|discriminate].
    + intros [= <- <-]. split; [reflexivity|constructor].
Qed.

Lemma scan_exp_complete e t : exp_text e -> no_digit t ->
  (match t with [] => True | c :: _ => c <> 101 /\ c <> 69 end) -> scan_exp (e ++ t) = Some (e, t).
Proof.
  intros [|x sg ds X Sg F NE] N0 D.
  - destruct t as [|c t]; [reflexivity|]. cbn -[orb].
    now replace ((c =? 101) || (c =? 69)) with false by lia.
  - cbn -[orb app]. rewrite <- app_comm_cons. cbn -[orb app].
    replace ((x =? 101) || (x =? 69)) with true by lia.
    rewrite <- app_assoc.
    destruct Sg as [-> | [-> | ->]].
    + cbn [app]. destruct ds as [|d ds]; [congruence|]. cbn [app].
      replace ((d =? 43) || (d =? 45)) with false
        by (apply Forall_inv in F; unfold digit in F; lia).
      change (d :: ds ++ t) with ((d :: ds) ++ t). now rewrite take_digits_complete.
    + cbn [app]. change ((43 =? 43) || (43 =? 45)) with true. cbn iota.
      rewrite take_digits_complete by assumption. destruct ds; [congruence|reflexivity].
    + cbn [app]. change ((45 =? 43) || (45 =? 45)) with true. cbn iota.
      rewrite take_digits_complete by assumption. destruct ds; [congruence|reflexivity].
Qed.

Lemma scan_number_sound s a t : scan_number s = Some (a, t) -> s = a ++ t /\ number_text a.
Proof.
  unfold scan_number.
  assert (exists sg s1, scan_sign s = (sg, s1) /\ s = sg ++ s1 /\ (sg = [] \/ sg = [45])) as (sg & s1 & -> & -> & Hs).
  { unfold scan_sign. destruct s as [|c r]; [exists [], []; auto|].
    destruct (c =? 45) eqn:D; [|exists [], (c :: r); auto].
    apply N.eqb_eq in D. subst. exists [45], r. auto. }
  destruct (scan_int s1) as [[i s2]|] eqn:I; [|discriminate].
  destruct (scan_frac s2) as [[f s3]|] eqn:F; [|discriminate].
  destruct (scan_exp s3) as [[e s4]|] eqn:E; [|discriminate].
  intros [= <- <-].
  apply scan_int_sound in I as [-> I]. apply scan_frac_sound in F as [-> F].
  apply scan_exp_sound in E as [-> E].
  split; [now rewrite <- !app_assoc|]. now constructor.
Qed.

Lemma int_head i : int_text i -> exists c r, i = c :: r /\ digit c.
Proof. intros [|c ds H F]; [exists 48, []|exists c, ds]; (split; [reflexivity|unfold digit; lia]). Qed.

Lemma scan_number_complete a t : number_text a -> stop t -> scan_number (a ++ t) = Some (a, t).
Proof.
  intros [sg i f e Sg I F E] St. unfold scan_number. rewrite <- !app_assoc.
  pose proof (stop_no_digit _ St) as N0.
  assert (scan_sign (sg ++ i ++ f ++ e ++ t) = (sg, i ++ f ++ e ++ t)) as ->.
  { unfold scan_sign. destruct Sg as [-> | ->]; [|reflexivity]. cbn [app].
    destruct (int_head _ I) as (c & r & -> & D). cbn [app]. unfold digit in D.
    now replace (c =? 45) with false by lia. }
  assert (no_digit (e ++ t)) as NE.
  { destruct E as [|x sg' ds X ? ? ?]; cbn; [exact N0|]. unfold digit. lia. }
  assert (match e ++ t with [] => True | c :: _ => c <> 46 end) as N46.
  { destruct E as [|x sg' ds X ? ? ?]; cbn; [|lia]. destruct t; [exact Logic.I|]. cbn in St. tauto. }
  rewrite scan_int_complete; [|exact I|destruct F as [|ds Fd Fn]; cbn; [exact NE|unfold digit; lia]].
  rewrite scan_frac_complete by assumption.
  rewrite scan_exp_complete; [reflexivity|exact E|exact N0|].
  destruct t; [exact Logic.I|]. cbn in St. tauto.
Qed.

Lemma number_head a : number_text a -> exists c r, a = c :: r /\ (digit c \/ c = 45).
Proof.
  intros [sg i f e Sg I F E]. destruct Sg as [-> | ->].
  - destruct (int_head _ I) as (c & r & -> & D). cbn. eexists _, _. split; [reflexivity|auto].
  - eexists _, _. split; [reflexivity|auto].
Qed.

(** ** Values *)
Definition el_nesting (vs : list json) : nat := fold_right (fun v n => Nat.max (nesting v) n) 0%nat vs.
Definition mb_nesting (ms : list (bytes * json)) : nat :=
  fold_right (fun m n => Nat.max (nesting (snd m)) n) 0%nat ms.

Lemma scan_word_sound w s t : scan_word w s = Some t -> s = w ++ t.
Proof.
  unfold scan_word. destruct (has_prefix w s) eqn:H; [|discriminate].
  intros [= <-]. apply has_prefix_spec in H as (u & ->).
  now rewrite skipn_app, skipn_all, Nat.sub_diag.
Qed.

Lemma scan_word_app w t : scan_word w (w ++ t) = Some t.
Proof.
  unfold scan_word. replace (has_prefix w (w ++ t)) with true.
  - now rewrite skipn_app, skipn_all, Nat.sub_diag.
  - symmetry. apply has_prefix_spec. now exists t.
Qed.

Definition sound_v fuel := forall room s v t, scan_value fuel room s = Some (v, t) ->
  exists a, s = a ++ t /\ value_text a v /\ (nesting v <= room)%nat.
Definition sound_e fuel := forall room s vs t, scan_elements fuel room s = Some (vs, t) ->
  exists a, s = a ++ 93 :: t /\ elements_text a vs /\ (el_nesting vs <= room)%nat.
Definition sound_m fuel := forall room s ms t, scan_members fuel room s = Some (ms, t) ->
  exists a, s = a ++ 125 :: t /\ members_text a ms /\ (mb_nesting ms <= room)%nat.

Lemma elements_ws w a vs : ws w -> elements_text a vs -> elements_text (w ++ a) vs.
Proof.
  intros W H. inversion H; subst.
  - rewrite app_assoc. apply el_one; [apply Forall_app; now split|assumption..].
  - rewrite app_assoc. apply el_more; [apply Forall_app; now split|assumption..].
Qed.

Lemma members_ws w a ms : ws w -> members_text a ms -> members_text (w ++ a) ms.
Proof.
  intros W H. inversion H; subst.
  - rewrite app_assoc. apply mb_one; [apply Forall_app; now split|assumption..].
  - rewrite app_assoc. apply mb_more; [apply Forall_app; now split|assumption..].
Qed.

Lemma scan_sound fuel : sound_v fuel /\ sound_e fuel /\ sound_m fuel.
Proof.
  induction fuel as [|f (IHv & IHe & IHm)].
  { repeat split; intros ? ? ? ? H; discriminate. }
  repeat split.
  - intros room s v t H. destruct s as [|c r]; [discriminate|]. cbn [scan_value] in H.
    destruct (c =? 123) eqn:C1.
    { apply N.eqb_eq in C1. subst. destruct room as [|room]; [discriminate|].
      destruct (skip_ws_split r) as (w & E & W).
      destruct (skip_ws r) as [|d r1]; [discriminate|].
      destruct (d =? 125) eqn:D.
      - injection H as <- <-. apply N.eqb_eq in D. subst.
        exists (123 :: w ++ [125]). split; [cbn; now rewrite <- app_assoc|].
        split; [now apply vt_obj0|cbn; lia].
      - destruct (scan_members f room (d :: r1)) as [[ms t']|] eqn:M; [|discriminate].
        injection H as <- <-. apply IHm in M as (a & E' & M & L).
        exists (123 :: (w ++ a) ++ [125]). split; [cbn; rewrite E, E'; now rewrite <- !app_assoc|].
        split; [apply vt_obj; now apply members_ws|]. cbn. unfold mb_nesting in L. lia. }
    destruct (c =? 91) eqn:C2.
    { apply N.eqb_eq in C2. subst. destruct room as [|room]; [discriminate|].
      destruct (skip_ws_split r) as (w & E & W).
      destruct (skip_ws r) as [|d r1]; [discriminate|].
      destruct (d =? 93) eqn:D.
      - injection H as <- <-. apply N.eqb_eq in D. subst.
        exists (91 :: w ++ [93]). split; [cbn; now rewrite <- app_assoc|].
        split; [now apply vt_arr0|cbn; lia].
      - destruct (scan_elements f room (d :: r1)) as [[vs t']|] eqn:M; [|discriminate].
        injection H as <- <-. apply IHe in M as (a & E' & M & L).
        exists (91 :: (w ++ a) ++ [93]). split; [cbn; rewrite E, E'; now rewrite <- !app_assoc|].
        split; [apply vt_arr; now apply elements_ws|]. cbn. unfold el_nesting in L. lia. }
    destruct (c =? 34) eqn:C3.
    { apply N.eqb_eq in C3. subst. destruct (scan_string r) as [[a t']|] eqn:R; [|discriminate].
      injection H as <- <-. apply (scan_string_sound _ _ _ _ (le_n _)) in R as [-> R].
      exists (34 :: a ++ [34]). split; [cbn; now rewrite <- app_assoc|].
      split; [now apply vt_str|cbn; lia]. }
    destruct (c =? 116) eqn:C4.
    { destruct (scan_word (b "true") (c :: r)) as [t0|] eqn:R; [|discriminate]. injection H as <- <-.
      apply scan_word_sound in R. exists (b "true"%string). split; [exact R|]. split; [constructor|cbn; lia]. }
    destruct (c =? 102) eqn:C5.
    { destruct (scan_word (b "false") (c :: r)) as [t0|] eqn:R; [|discriminate]. injection H as <- <-.
      apply scan_word_sound in R. exists (b "false"%string). split; [exact R|]. split; [constructor|cbn; lia]. }
    destruct (c =? 110) eqn:C6.
    { destruct (scan_word (b "null") (c :: r)) as [t0|] eqn:R; [|discriminate]. injection H as <- <-.
      apply scan_word_sound in R. exists (b "null"%string). split; [exact R|]. split; [constructor|cbn; lia]. }
    destruct (scan_number (c :: r)) as [[a t']|] eqn:R; [|discriminate]. injection H as <- <-.
    apply scan_number_sound in R as [E R]. exists a. split; [exact E|]. split; [now constructor|cbn; lia].
  - intros room s vs t H. cbn in H.
    destruct (scan_value f room s) as [[v t1]|] eqn:V; [|discriminate].
    apply IHv in V as (a & -> & V & L).
    destruct (skip_ws_split t1) as (w & E & W).
    destruct (skip_ws t1) as [|c r]; [discriminate|].
    destruct (c =? 93) eqn:C1.
    { injection H as <- <-. apply N.eqb_eq in C1. subst.
      exists ([] ++ a ++ w). split; [cbn; now rewrite <- app_assoc|].
      split; [apply el_one; [constructor|assumption..]|]. cbn. lia. }
    destruct (c =? 44) eqn:C2; [|discriminate]. apply N.eqb_eq in C2. subst.
    destruct (scan_elements f room (skip_ws r)) as [[vs' t']|] eqn:Es; [|discriminate].
    injection H as <- <-. apply IHe in Es as (a' & E' & Es & L').
    destruct (skip_ws_split r) as (w' & E'' & W').
    exists ([] ++ a ++ w ++ 44 :: (w' ++ a')). split.
    { rewrite E'', E'. cbn. rewrite <- !app_assoc. cbn. now rewrite <- !app_assoc. }
    split; [apply el_more; [constructor|assumption|assumption|now apply elements_ws]|].
    cbn. unfold el_nesting in L'. lia.
  - intros room s ms t H. cbn in H. destruct s as [|q r]; [discriminate|].
    destruct (q =? 34) eqn:Q; [|discriminate]. apply N.eqb_eq in Q. subst.
    destruct (scan_string r) as [[k t0]|] eqn:K; [|discriminate].
    apply (scan_string_sound _ _ _ _ (le_n _)) in K as [-> K].
    destruct (skip_ws_split t0) as (w2 & E2 & W2).
    destruct (skip_ws t0) as [|c t1]; [discriminate|].
    destruct (c =? 58) eqn:C; [|discriminate]. apply N.eqb_eq in C. subst.
    destruct (skip_ws_split t1) as (w3 & E3 & W3).
    destruct (scan_value f room (skip_ws t1)) as [[v t2]|] eqn:V; [|discriminate].
    apply IHv in V as (a & Ea & V & L).
    destruct (skip_ws_split t2) as (w4 & E4 & W4).
    destruct (skip_ws t2) as [|d r']; [discriminate|].
    destruct (d =? 125) eqn:C1.
    { injection H as <- <-. apply N.eqb_eq in C1. subst d.
      exists ([] ++ 34 :: k ++ 34 :: w2 ++ 58 :: w3 ++ a ++ w4). split.
      { rewrite E3, Ea, E4. cbn. repeat (rewrite <- !app_assoc; cbn). reflexivity. }
      split; [apply mb_one; [constructor|assumption..]|]. cbn. lia. }
    destruct (d =? 44) eqn:C2; [|discriminate]. apply N.eqb_eq in C2. subst d.
    destruct (scan_members f room (skip_ws r')) as [[ms' t']|] eqn:Es; [|discriminate].
    injection H as <- <-. apply IHm in Es as (a' & E' & Es & L').
    destruct (skip_ws_split r') as (w' & E'' & W').
    exists ([] ++ 34 :: k ++ 34 :: w2 ++ 58 :: w3 ++ a ++ w4 ++ 44 :: (w' ++ a')). split.
    { rewrite E3, Ea, E4, E'', E'. cbn. repeat (rewrite <- !app_assoc; cbn). reflexivity. }
    split; [apply mb_more; [constructor|try assumption..]; now apply members_ws|].
    cbn. unfold mb_nesting in L'. lia.
Qed.

(** ** Completeness *)
Definition stop_char (c : N) : Prop := c = 44 \/ c = 93 \/ c = 125 \/ ws_char c.

Lemma stop_after_ws w c t : ws w -> c = 44 \/ c = 93 \/ c = 125 -> stop (w ++ c :: t).
Proof.
  intros [|d w' H _] C; cbn; unfold digit; [lia|]. unfold ws_char in H. lia.
Qed.

Lemma stop_ws w : ws w -> stop w.
Proof. intros [|d w' H _]; cbn; [exact I|]. unfold digit. unfold ws_char in H. lia. Qed.

Lemma value_head s v : value_text s v -> exists c r, s = c :: r /\ is_ws c = false /\ c <> 93 /\ c <> 125.
Proof.
  destruct 1; try (eexists _, _; split; [reflexivity|]; unfold is_ws; lia).
  - exists 110, (b "ull"%string). split; [reflexivity|]. unfold is_ws. lia.
  - exists 116, (b "rue"%string). split; [reflexivity|]. unfold is_ws. lia.
  - exists 102, (b "alse"%string). split; [reflexivity|]. unfold is_ws. lia.
  - apply number_head in H as (c & r & -> & D). exists c, r. split; [reflexivity|].
    unfold digit in D. unfold is_ws. lia.
Qed.

Lemma skip_value w s v t : ws w -> value_text s v -> skip_ws (w ++ s ++ t) = s ++ t.
Proof.
  intros W V. rewrite skip_ws_app by exact W.
  destruct (value_head _ _ V) as (c & r & -> & H & _). cbn [app]. now apply skip_ws_stop.
Qed.

Scheme value_ind' := Minimality for value_text Sort Prop
  with elements_ind' := Minimality for elements_text Sort Prop
  with members_ind' := Minimality for members_text Sort Prop.
Combined Scheme json_ind from value_ind', elements_ind', members_ind'.

Definition comp_v s v := forall fuel room t, (length s <= fuel)%nat -> (nesting v <= room)%nat -> stop t ->
  scan_value fuel room (s ++ t) = Some (v, t).
Definition comp_e s vs := forall fuel room t, (S (length s) <= fuel)%nat -> (el_nesting vs <= room)%nat ->
  (exists d u, skip_ws (s ++ 93 :: t) = d :: u /\ d <> 93) /\
  scan_elements fuel room (skip_ws (s ++ 93 :: t)) = Some (vs, t).
Definition comp_m s ms := forall fuel room t, (S (length s) <= fuel)%nat -> (mb_nesting ms <= room)%nat ->
  (exists d u, skip_ws (s ++ 125 :: t) = d :: u /\ d <> 125) /\
  scan_members fuel room (skip_ws (s ++ 125 :: t)) = Some (ms, t).

Lemma scan_complete :
  (forall s v, value_text s v -> comp_v s v) /\
  (forall s vs, elements_text s vs -> comp_e s vs) /\
  (forall s ms, members_text s ms -> comp_m s ms).
Proof.
  apply json_ind.
  - intros fuel room t F L St. destruct fuel; [cbn in F; lia|]. reflexivity.
  - intros fuel room t F L St. destruct fuel; [cbn in F; lia|]. reflexivity.
  - intros fuel room t F L St. destruct fuel; [cbn in F; lia|]. reflexivity.
  - intros s Hn fuel room t F L St. destruct (number_head _ Hn) as (c & r & E & D).
    destruct fuel; [rewrite E in F; cbn in F; lia|].
    pose proof (scan_number_complete _ _ Hn St) as R. rewrite E in *. cbn [app] in *.
    cbn [scan_value]. unfold digit in D.
    replace (c =? 123) with false by lia. replace (c =? 91) with false by lia.
    replace (c =? 34) with false by lia. replace (c =? 116) with false by lia.
    replace (c =? 102) with false by lia. replace (c =? 110) with false by lia.
    now rewrite R.
  - intros s Hs fuel room t F L St. destruct fuel; [cbn in F; lia|].
    cbn [app scan_value]. change (34 =? 123) with false. change (34 =? 91) with false.
    change (34 =? 34) with true. cbv iota. rewrite <- app_assoc. cbn [app].
    now rewrite scan_string_complete.
  - intros w W fuel room t F L St. destruct fuel; [cbn in F; lia|].
    destruct room as [|room]; [cbn in L; lia|].
    cbn [app scan_value]. change (91 =? 123) with false. change (91 =? 91) with true. cbv iota.
    rewrite <- app_assoc, skip_ws_app by exact W. reflexivity.
  - intros s vs _ IH fuel room t F L St. destruct fuel; [cbn in F; lia|].
    destruct room as [|room]; [cbn in L; lia|].
    cbn [app scan_value]. change (91 =? 123) with false. change (91 =? 91) with true. cbv iota.
    rewrite <- app_assoc. cbn [app].
    destruct (IH fuel room t) as [(d & u & E & Nd) R].
    { cbn in F. rewrite app_length in F. cbn in F. lia. }
    { cbn in L. unfold el_nesting. lia. }
    rewrite E in *. replace (d =? 93) with false by lia. now rewrite R.
  - intros w W fuel room t F L St. destruct fuel; [cbn in F; lia|].
    destruct room as [|room]; [cbn in L; lia|].
    cbn [app scan_value]. change (123 =? 123) with true. cbv iota.
    rewrite <- app_assoc, skip_ws_app by exact W. reflexivity.
  - intros s vs _ IH fuel room t F L St. destruct fuel; [cbn in F; lia|].
    destruct room as [|room]; [cbn in L; lia|].
    cbn [app scan_value]. change (123 =? 123) with true. cbv iota.
    rewrite <- app_assoc. cbn [app].
    destruct (IH fuel room t) as [(d & u & E & Nd) R].
    { cbn in F. rewrite app_length in F. cbn in F. lia. }
    { cbn in L. unfold mb_nesting. lia. }
    rewrite E in *. replace (d =? 125) with false by lia. now rewrite R.
  - intros w1 s w2 v W1 V IH W2 fuel room t F L. rewrite !app_length in F.
    rewrite <- !app_assoc. rewrite (skip_value _ _ _ _ W1 V). split.
    { destruct (value_head _ _ V) as (c & r & -> & _ & Nc & _). exists c. eexists. split; [reflexivity|exact Nc]. }
    destruct fuel; [lia|]. cbn [scan_elements].
    rewrite IH; [|lia|cbn in L; lia|apply stop_after_ws; auto].
    rewrite skip_ws_app by exact W2. reflexivity.
  - intros w1 s w2 v u vs W1 V IH W2 _ IH' fuel room t F L.
    rewrite !app_length in F. cbn [length] in F.
    rewrite <- !app_assoc. rewrite (skip_value _ _ _ _ W1 V). split.
    { destruct (value_head _ _ V) as (c & r & -> & _ & Nc & _). exists c. eexists. split; [reflexivity|exact Nc]. }
    destruct fuel; [lia|]. cbn [scan_elements]. cbn in L.
    rewrite IH; [|lia|lia|cbn [app]; apply stop_after_ws; auto].
    rewrite skip_ws_app by exact W2. cbn [app]. rewrite skip_ws_stop by reflexivity.
    change (44 =? 93) with false. change (44 =? 44) with true. cbv iota.
    destruct (IH' fuel room t ltac:(lia) ltac:(unfold el_nesting; lia)) as [_ R]. now rewrite R.
  - intros w1 k w2 w3 s w4 v W1 K W2 W3 V IH W4 fuel room t F L.
    repeat (rewrite app_length in F; cbn [length] in F).
    repeat (rewrite <- !app_assoc; cbn [app]). rewrite skip_ws_app by exact W1.
    rewrite skip_ws_stop by reflexivity. split.
    { eexists _, _. split; [reflexivity|discriminate]. }
    destruct fuel; [lia|]. cbn [scan_members]. change (34 =? 34) with true. cbv iota.
    rewrite scan_string_complete by exact K.
    rewrite skip_ws_app by exact W2. rewrite skip_ws_stop by reflexivity.
    change (58 =? 58) with true. cbv iota.
    rewrite (skip_value _ _ _ _ W3 V).
    rewrite IH; [|lia|cbn in L; lia|apply stop_after_ws; auto].
    rewrite skip_ws_app by exact W4. reflexivity.
  - intros w1 k w2 w3 s w4 v u ms W1 K W2 W3 V IH W4 _ IH' fuel room t F L.
    repeat (rewrite app_length in F; cbn [length] in F).
    repeat (rewrite <- !app_assoc; cbn [app]). rewrite skip_ws_app by exact W1.
    rewrite skip_ws_stop by reflexivity. split.
    { eexists _, _. split; [reflexivity|discriminate]. }
    destruct fuel; [lia|]. cbn [scan_members]. change (34 =? 34) with true. cbv iota.
    rewrite scan_string_complete by exact K.
    rewrite skip_ws_app by exact W2. rewrite skip_ws_stop by reflexivity.
    change (58 =? 58) with true. cbv iota. cbn in L.
    rewrite (skip_value _ _ _ _ W3 V).
    rewrite IH; [|lia|lia|apply stop_after_ws; auto].
    rewrite skip_ws_app by exact W4. rewrite skip_ws_stop by reflexivity.
    change (44 =? 125) with false. change (44 =? 44) with true. cbv iota.
    destruct (IH' fuel room t ltac:(lia) ltac:(unfold mb_nesting; lia)) as [_ R]. now rewrite R.
Qed.

Theorem parse_json_spec s j : parse_json s = Some j <-> document s j.
Proof.
  unfold parse_json, document. fold max_depth. split.
  - intros H. destruct (skip_ws_split s) as (w1 & E1 & W1).
    destruct (scan_value _ _ _) as [[v t]|] eqn:V; [|discriminate].
    destruct (skip_ws_split t) as (w2 & E2 & W2).
    destruct (skip_ws t) eqn:T; [|discriminate]. injection H as <-.
    apply (proj1 (scan_sound _)) in V as (a & Ea & V & L).
    exists w1, a, w2. repeat split; try assumption. rewrite E1, Ea, E2, app_nil_r. reflexivity.
  - intros (w1 & a & w2 & -> & W1 & V & W2 & L).
    rewrite (skip_value _ _ _ _ W1 V).
    rewrite (proj1 scan_complete _ _ V); [| |exact L|now apply stop_ws].
    + now rewrite skip_ws_all.
    + rewrite !app_length. lia.
Qed.

Theorem json_valid_spec s : json_valid s = true <-> exists j, document s j.
Proof.
  unfold json_valid. destruct (parse_json s) as [j|] eqn:P.
  - split; [|reflexivity]. intros _. exists j. now apply parse_json_spec.
  - split; [discriminate|]. intros (j & D). apply parse_json_spec in D. congruence.
Qed.
