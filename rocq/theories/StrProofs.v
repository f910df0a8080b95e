(** The string search of str_matchers.go against the specification. *)
From Verif Require Import Bytes Utf8 Utf8Proofs GoFloat GoTime Oracles Json Values StrMatch MatchSpec.
From Verif Require GrammarFacts.
From Coq Require Import ZifyBool ZifyN ZifyNat.

(** ** Patterns *)
Fixpoint toks_of (s : list N) : list wtok :=
  match s with
  | [] => []
  | c :: r =>
    if c =? 92 then
      match r with
      | d :: r' => if (d =? 63) || (d =? 42) then WLit d :: toks_of r' else WLit c :: toks_of r
      | [] => [WLit c]
      end
    else if c =? 63 then WOne :: toks_of r
    else if c =? 42 then WMany :: toks_of r
    else WLit c :: toks_of r
  end.

Lemma toks_of_pattern n : forall s, (length s <= n)%nat -> pattern s (toks_of s).
Proof.
  induction n as [|n IH]; intros s L.
  { destruct s; [constructor|cbn in L; lia]. }
  destruct s as [|c r]; [constructor|]. cbn [toks_of]. cbn [length] in L.
  destruct (c =? 92) eqn:B.
  { apply N.eqb_eq in B. subst. destruct r as [|d r'].
    - apply pt_back; [discriminate|discriminate|constructor].
    - cbn [length] in L. destruct ((d =? 63) || (d =? 42)) eqn:D.
      + apply pt_esc; [lia|]. apply IH. lia.
      + apply pt_back; [cbn; intros [= E]; lia|cbn; intros [= E]; lia|]. apply IH. cbn [length]. lia. }
  destruct (c =? 63) eqn:C1.
  { apply N.eqb_eq in C1. subst. apply pt_one. apply IH. lia. }
  destruct (c =? 42) eqn:C2.
  { apply N.eqb_eq in C2. subst. apply pt_many. apply IH. lia. }
  apply pt_char; [lia|lia|lia|]. apply IH. lia.
Qed.

Lemma pattern_toks s ts : pattern s ts <-> ts = toks_of s.
Proof.
  split.
  - induction 1 as [|c s ts C _ IH|s ts _ IH|s ts _ IH|s ts H1 H2 _ IH|c s ts C1 C2 C3 _ IH]; cbn [toks_of].
    + reflexivity.
    + change (92 =? 92) with true. cbv iota. replace ((c =? 63) || (c =? 42)) with true by lia. now rewrite IH.
    + now rewrite IH.
    + now rewrite IH.
    + change (92 =? 92) with true. cbv iota. destruct s as [|d s'].
      * now rewrite IH.
      * cbn in H1, H2. replace ((d =? 63) || (d =? 42)) with false; [now rewrite IH|].
        symmetry. apply orb_false_iff. split; apply N.eqb_neq; congruence.
    + replace (c =? 92) with false by lia. replace (c =? 63) with false by lia.
      replace (c =? 42) with false by lia. now rewrite IH.
  - intros ->. apply (toks_of_pattern _ _ (le_n _)).
Qed.

(** ** The generated source *)
Definition render (t : wtok) : list N :=
  match t with
  | WLit c => if is_meta c then [92; c] else [c]
  | WOne => [46]
  | WMany => [46; 42; 63]
  end.
Definition rendered (ts : list wtok) : list N := concat (map render ts).

Lemma is_meta_high c : 128 <= c -> is_meta c = false.
Proof.
  intros H. unfold is_meta. change (b "\.+*?()|[]{}^$") with [92;46;43;42;63;40;41;124;91;93;123;125;94;36].
  cbn. lia.
Qed.

Lemma quote_meta_app x y : quote_meta (x ++ y) = quote_meta x ++ quote_meta y.
Proof. unfold quote_meta. now rewrite map_app, concat_app. Qed.

Lemma quote_meta_high x : Forall (fun c => 128 <= c) x -> quote_meta x = x.
Proof.
  induction 1 as [|c x H _ IH]; [reflexivity|].
  change (quote_meta (c :: x)) with ((if is_meta c then [92; c] else [c]) ++ quote_meta x).
  rewrite is_meta_high, IH by exact H. reflexivity.
Qed.

Lemma quote_meta_rune c : quote_meta (encode_rune c) = encode (render (WLit c)).
Proof.
  destruct (N.lt_ge_cases c 128) as [L|L].
  - rewrite encode_rune_ascii by exact L. cbn [render].
    change (quote_meta [c]) with ((if is_meta c then [92; c] else [c]) ++ []).
    rewrite app_nil_r. symmetry. apply encode_ascii. destruct (is_meta c); repeat constructor; lia.
  - rewrite quote_meta_high by (apply GrammarFacts.encode_rune_high; exact L). cbn [render].
    rewrite is_meta_high by exact L. cbn. now rewrite app_nil_r.
Qed.

Lemma wc_loop_rendered n : forall rs acc, (length rs <= n)%nat ->
  wc_loop rs acc = quote_meta acc ++ encode (rendered (toks_of rs)).
Proof.
  induction n as [|n IH]; intros rs acc L.
  { destruct rs; [cbn; now rewrite app_nil_r|cbn in L; lia]. }
  destruct rs as [|c r]; [cbn; now rewrite app_nil_r|]. cbn [wc_loop toks_of]. cbn [length] in L.
  assert (Hlit : forall d r' a, (length r' <= n)%nat ->
    wc_loop r' (a ++ encode_rune d) = quote_meta a ++ encode (rendered (WLit d :: toks_of r'))).
  { intros d r' a L'. rewrite IH by lia. rewrite quote_meta_app, quote_meta_rune.
    change (rendered (WLit d :: toks_of r')) with (render (WLit d) ++ rendered (toks_of r')).
    now rewrite encode_app, app_assoc. }
  destruct (c =? 92) eqn:B.
  { destruct r as [|d r'].
    - rewrite Hlit by lia. reflexivity.
    - cbn [length] in L. destruct ((d =? 63) || (d =? 42)).
      + apply Hlit. lia.
      + apply Hlit. cbn [length]. lia. }
  destruct (c =? 63) eqn:C1.
  { rewrite IH by lia. reflexivity. }
  destruct (c =? 42) eqn:C2.
  { rewrite IH by lia. reflexivity. }
  apply Hlit. lia.
Qed.

Lemma decode_fuel_scalars n : forall s, scalars (decode_fuel n s).
Proof.
  induction n as [|n IH]; intros s; cbn; [constructor|].
  destruct s as [|c s']; [constructor|].
  destruct (decode_rune (c :: s')) as [r w] eqn:D.
  constructor; [|apply IH].
  destruct (N.eq_dec r rune_error) as [->|N0]; [reflexivity|].
  apply (decode_rune_ok _ _ _ D); congruence.
Qed.
Lemma decode_scalars s : scalars (decode s).
Proof. apply decode_fuel_scalars. Qed.

Lemma toks_scalars n : forall s, (length s <= n)%nat -> scalars s ->
  Forall (fun t => match t with WLit c => is_scalar c = true | _ => True end) (toks_of s).
Proof.
  induction n as [|n IH]; intros s L S0.
  { destruct s; [constructor|cbn in L; lia]. }
  destruct s as [|c r]; [constructor|]. cbn [toks_of]. cbn [length] in L.
  pose proof (Forall_inv S0) as Hc. pose proof (Forall_inv_tail S0) as Hr. cbn in Hc.
  destruct (c =? 92).
  { destruct r as [|d r'].
    - repeat constructor. exact Hc.
    - cbn [length] in L. pose proof (Forall_inv Hr) as Hd. cbn in Hd.
      destruct ((d =? 63) || (d =? 42)).
      + constructor; [exact Hd|]. apply IH; [lia|]. apply (Forall_inv_tail Hr).
      + constructor; [exact Hc|]. apply IH; [cbn [length]; lia|]. exact Hr. }
  destruct (c =? 63); [constructor; [exact I|apply IH; [lia|exact Hr]]|].
  destruct (c =? 42); [constructor; [exact I|apply IH; [lia|exact Hr]]|].
  constructor; [exact Hc|apply IH; [lia|exact Hr]].
Qed.

Lemma rendered_scalars ts :
  Forall (fun t => match t with WLit c => is_scalar c = true | _ => True end) ts -> scalars (rendered ts).
Proof.
  unfold rendered, scalars. induction 1 as [|t ts H _ IH]; [constructor|]. cbn [map concat].
  apply Forall_app. split; [|exact IH]. destruct t as [c| |]; cbn [render].
  - destruct (is_meta c).
    + constructor; [reflexivity|]. constructor; [exact H|constructor].
    + constructor; [exact H|constructor].
  - repeat constructor.
  - repeat constructor.
Qed.

(** ** Compiling it *)
Definition item (t : wtok) : rx_item :=
  match t with WLit c => RChar c | WOne => RAny | WMany => RStar end.

Lemma rendered_head ts rest : hd_error rest <> Some 42 -> hd_error (rendered ts ++ rest) <> Some 42.
Proof.
  destruct ts as [|t ts]; [auto|]. intros _. unfold rendered. cbn [map concat]. destruct t as [c| |]; cbn [render]; try discriminate.
  destruct (is_meta c) eqn:M; cbn; [discriminate|]. intros [= ->]. discriminate.
Qed.

Lemma meta_escape c : is_meta c = true -> (c =? 98) = false /\ (c <? 128) && negb (is_alnum c) = true.
Proof.
  unfold is_meta. change (b "\.+*?()|[]{}^$") with [92;46;43;42;63;40;41;124;91;93;123;125;94;36].
  cbn. unfold is_alnum, is_digit. lia.
Qed.

Lemma plain_special c : is_meta c = false -> rx_special c = false.
Proof.
  unfold is_meta, rx_special. change (b "\.+*?()|[]{}^$") with [92;46;43;42;63;40;41;124;91;93;123;125;94;36].
  cbn. lia.
Qed.

Lemma rx_items_rendered ts rest its : hd_error rest <> Some 42 ->
  rx_items rest = Some its -> rx_items (rendered ts ++ rest) = Some (map item ts ++ its).
Proof.
  intros Hr Hi. induction ts as [|t ts IH]; [exact Hi|].
  change (rendered (t :: ts) ++ rest) with ((render t ++ rendered ts) ++ rest).
  rewrite <- app_assoc. pose proof (rendered_head ts rest Hr) as Hd.
  set (u := rendered ts ++ rest) in *. destruct t as [c| |]; cbn [render map item].
  - destruct (is_meta c) eqn:M.
    + destruct (meta_escape c M) as [E1 E2]. cbn [app rx_items]. change (92 =? 92) with true. cbv iota.
      rewrite E1, E2, IH. reflexivity.
    + cbn [app rx_items].
      replace (c =? 92) with false by (symmetry; apply N.eqb_neq; intros ->; discriminate).
      replace (c =? 46) with false by (symmetry; apply N.eqb_neq; intros ->; discriminate).
      now rewrite (plain_special c M), IH.
  - cbn [app rx_items]. change (46 =? 92) with false. change (46 =? 46) with true. cbv iota.
    destruct u as [|d u'] eqn:U.
    + cbn in IH. injection IH as <-. reflexivity.
    + cbn in Hd. replace (d =? 42) with false by (symmetry; apply N.eqb_neq; congruence).
      now rewrite IH.
  - cbn [app rx_items]. change (46 =? 92) with false. change (46 =? 46) with true.
    change (42 =? 42) with true. change (63 =? 63) with true. cbv iota. now rewrite IH.
Qed.

Section WithOracles.
Context (O : oracles).

Definition bound_items (asc : bool) : list rx_item := if asc then [RBound] else [].

Lemma search_compiles s : rx_compile (search_source O s) =
  let asc := is_ascii (to_lower O s) in
  Some (bound_items asc ++ map item (toks_of (lowered O s)) ++ bound_items asc).
Proof.
  unfold search_source, lowered. set (w := to_lower O s). cbn zeta.
  rewrite (wc_loop_rendered _ _ _ (le_n _)). cbn [quote_meta map concat app].
  set (ts := toks_of (decode w)).
  set (bnd := if is_ascii w then [92; 98] else []).
  replace (if is_ascii w then b "\b" else []) with (encode bnd) by (unfold bnd; destruct (is_ascii w); reflexivity).
  change (quote_meta []) with (@nil N). cbn [app].
  rewrite <- !encode_app. change (b "(?i)") with (encode [40; 63; 105; 41]). rewrite <- encode_app.
  assert (Hsc : scalars (bnd ++ rendered ts ++ bnd)).
  { assert (scalars bnd) by (unfold bnd; destruct (is_ascii w); repeat constructor).
    apply Forall_app. split; [assumption|]. apply Forall_app. split; [|assumption].
    apply rendered_scalars. apply (toks_scalars _ _ (le_n _)). apply decode_scalars. }
  unfold rx_compile. replace (valid_utf8 _) with true.
  2: { symmetry. apply valid_utf8_spec. eexists. split; [|reflexivity].
       apply Forall_app. split; [repeat constructor|exact Hsc]. }
  rewrite encode_app. change (encode [40; 63; 105; 41]) with [40; 63; 105; 41].
  replace (has_prefix (b "(?i)") _) with true.
  2: { symmetry. apply has_prefix_spec. eexists. reflexivity. }
  cbn [andb]. change (skipn 4 ([40; 63; 105; 41] ++ ?x)) with x.
  rewrite decode_encode by exact Hsc.
  assert (Hb : forall its rest, rx_items rest = Some its -> rx_items (bnd ++ rest) = Some (bound_items (is_ascii w) ++ its)).
  { intros its rest H. unfold bnd, bound_items. destruct (is_ascii w); [|exact H].
    cbn [app rx_items]. change (92 =? 92) with true. change (98 =? 98) with true. cbv iota. now rewrite H. }
  apply Hb. apply rx_items_rendered.
  - unfold bnd. destruct (is_ascii w); discriminate.
  - rewrite <- (app_nil_r bnd). rewrite (Hb [] [] eq_refl). now rewrite app_nil_r.
Qed.

(** ** Matching *)
Definition lastp (prev : option N) (seg : list N) : option N := fold_left (fun _ c => Some c) seg prev.

Lemma lastp_app prev x y : lastp prev (x ++ y) = lastp (lastp prev x) y.
Proof. apply fold_left_app. Qed.

Fixpoint star (its : list rx_item) (prev : option N) (t : list N) : bool :=
  rx_here O its prev t ||
  match t with
  | [] => false
  | d :: t' => negb (d =? 10) && star its (Some d) t'
  end.

Lemma rx_here_star its prev t : rx_here O (RStar :: its) prev t = star its prev t.
Proof. cbn [rx_here]. revert prev. induction t as [|d t IH]; intros prev; cbn [star]; [reflexivity|]. now rewrite IH. Qed.

Lemma star_spec its t : forall prev, star its prev t = true <->
  exists u v, t = u ++ v /\ ~ In newline u /\ rx_here O its (lastp prev u) v = true.
Proof.
  induction t as [|d t IH]; intros prev; cbn [star].
  - rewrite orb_false_r. split.
    + intros H. exists [], []. split; [reflexivity|]. split; [intros []|exact H].
    + intros (u & v & E & _ & H). symmetry in E. apply app_eq_nil in E as [-> ->]. exact H.
  - rewrite orb_true_iff, andb_true_iff, IH. split.
    + intros [H | [Hd (u & v & -> & Hn & H)]].
      * exists [], (d :: t). split; [reflexivity|]. split; [intros []|exact H].
      * exists (d :: u), v. split; [reflexivity|]. split; [|exact H].
        intros [E | I]; [|contradiction]. unfold newline in E. subst. discriminate.
    + intros ([|d' u] & v & E & Hn & H).
      * left. cbn in E. subst. exact H.
      * right. injection E as <- ->. split.
        { apply negb_true_iff, N.eqb_neq. intros ->. apply Hn. left. reflexivity. }
        exists u, v. split; [reflexivity|]. split; [|exact H]. intros I. apply Hn. right. exact I.
Qed.

Lemma rx_here_toks ts tail : forall prev t, rx_here O (map item ts ++ tail) prev t = true <->
  exists seg after, t = seg ++ after /\ covers O ts seg /\ rx_here O tail (lastp prev seg) after = true.
Proof.
  induction ts as [|tk ts IH]; intros prev t.
  - cbn [map app]. split.
    + intros H. exists [], t. split; [reflexivity|]. split; [constructor|exact H].
    + intros (seg & after & -> & C & H). inversion C; subst. exact H.
  - destruct tk as [c| |]; cbn [map item app].
    + cbn [rx_here]. destruct t as [|d t].
      { split; [discriminate|]. intros (seg & after & E & C & _). inversion C; subst. discriminate. }
      rewrite andb_true_iff, IH, N.eqb_eq. split.
      * intros (F & seg & after & -> & C & H). exists (d :: seg), after. split; [reflexivity|].
        split; [now constructor|exact H].
      * intros (seg & after & E & C & H). inversion C; subst. injection E as <- ->.
        split; [assumption|]. eauto.
    + cbn [rx_here]. destruct t as [|d t].
      { split; [discriminate|]. intros (seg & after & E & C & _). inversion C; subst. discriminate. }
      rewrite andb_true_iff, IH, negb_true_iff, N.eqb_neq. split.
      * intros (F & seg & after & -> & C & H). exists (d :: seg), after. split; [reflexivity|].
        split; [now constructor|exact H].
      * intros (seg & after & E & C & H). inversion C; subst. injection E as <- ->.
        split; [assumption|]. eauto.
    + rewrite rx_here_star, star_spec. split.
      * intros (u & v & -> & Hn & H). apply IH in H as (seg & after & -> & C & H).
        exists (u ++ seg), after. split; [now rewrite app_assoc|]. split; [now constructor|].
        now rewrite lastp_app.
      * intros (seg & after & -> & C & H). inversion C; subst.
        exists u, (t ++ after). split; [now rewrite <- app_assoc|]. split; [assumption|].
        apply IH. exists t, after. split; [reflexivity|]. split; [assumption|]. now rewrite <- lastp_app.
Qed.

Lemma rx_search_spec its t : forall prev, rx_search O its prev t = true <->
  exists u v, t = u ++ v /\ rx_here O its (lastp prev u) v = true.
Proof.
  induction t as [|d t IH]; intros prev; cbn [rx_search].
  - rewrite orb_false_r. split.
    + intros H. exists [], []. auto.
    + intros (u & v & E & H). symmetry in E. apply app_eq_nil in E as [-> ->]. exact H.
  - rewrite orb_true_iff, IH. split.
    + intros [H | (u & v & -> & H)].
      * exists [], (d :: t). auto.
      * exists (d :: u), v. auto.
    + intros ([|d' u] & v & E & H).
      * left. cbn in E. subst. exact H.
      * right. injection E as <- ->. eauto.
Qed.

Lemma is_word_spec c : is_word c = true <-> word_char c.
Proof. unfold is_word, is_alnum, is_digit, word_char. lia. Qed.

Lemma word_at_last x : word_at (lastp None x) = true <-> ends_in_word x.
Proof.
  unfold ends_in_word. destruct x as [|c x] using rev_ind.
  - cbn. split; [discriminate|]. intros (u & d & E & _). symmetry in E. apply app_eq_nil in E as [_ E]. discriminate.
  - clear IHx. unfold lastp. rewrite fold_left_app. cbn. rewrite is_word_spec. split.
    + intros H. eauto.
    + intros (u & d & E & W). apply app_inj_tail in E as [_ ->]. exact W.
Qed.

Lemma word_at_head y : word_at (hd_error y) = true <-> starts_with_word y.
Proof.
  unfold starts_with_word. destruct y as [|c y]; cbn.
  - split; [discriminate|]. intros (d & u & E & _). discriminate.
  - rewrite is_word_spec. split; [eauto|]. intros (d & u & [= -> ->] & W). exact W.
Qed.

Lemma boundary_spec x y : xorb (word_at (lastp None x)) (word_at (hd_error y)) = true <-> boundary x y.
Proof.
  unfold boundary. rewrite <- word_at_last, <- word_at_head.
  destruct (word_at (lastp None x)), (word_at (hd_error y)); cbn; intuition congruence.
Qed.

Lemma search_spec ts t : rx_search O (map item ts) None t = true <-> substring_search O ts t.
Proof.
  rewrite rx_search_spec. unfold substring_search. split.
  - intros (u & v & -> & H). rewrite <- (app_nil_r (map item ts)) in H.
    apply rx_here_toks in H as (seg & after & -> & C & _). exists u, seg, after. auto.
  - intros (u & seg & after & -> & C). exists u, (seg ++ after). split; [reflexivity|].
    rewrite <- (app_nil_r (map item ts)). apply rx_here_toks. exists seg, after. auto.
Qed.

Lemma word_search_spec ts t :
  rx_search O ([RBound] ++ map item ts ++ [RBound]) None t = true <-> word_search O ts t.
Proof.
  rewrite rx_search_spec. unfold word_search. split.
  - intros (u & v & -> & H). cbn [app rx_here] in H. apply andb_true_iff in H as [B H].
    apply rx_here_toks in H as (seg & after & -> & C & H). cbn [rx_here] in H. rewrite andb_true_r in H.
    exists u, seg, after. rewrite <- lastp_app in H. apply boundary_spec in B, H. auto.
  - intros (u & seg & after & -> & C & B1 & B2). exists u, (seg ++ after). split; [reflexivity|].
    cbn [app rx_here]. apply andb_true_iff. apply boundary_spec in B1, B2. split; [exact B1|].
    apply rx_here_toks. exists seg, after. split; [reflexivity|]. split; [exact C|].
    cbn [rx_here]. rewrite <- lastp_app, B2. reflexivity.
Qed.

Lemma is_ascii_spec s : is_ascii s = true <-> ascii s.
Proof.
  unfold is_ascii, ascii. rewrite forallb_forall, Forall_forall.
  split; intros H c I; specialize (H c I); lia.
Qed.

Lemma has_wildcard_spec s : has_wildcard s = true <-> wildcard s.
Proof.
  unfold has_wildcard, wildcard, has_byte. rewrite orb_true_iff, !existsb_exists. split.
  - intros [(x & I & E) | (x & I & E)]; apply N.eqb_eq in E; subst; auto.
  - intros [I | I]; [left|right]; eexists; (split; [exact I|reflexivity]).
Qed.

(** The matcher made from a string. *)
Lemma string_items_spec s t :
  let asc := is_ascii (to_lower O s) in
  rx_match O (bound_items asc ++ map item (toks_of (lowered O s)) ++ bound_items asc) t = true <->
  exists ts, pattern (lowered O s) ts /\
     (if is_ascii (to_lower O s) then word_search O ts (decode t) else substring_search O ts (decode t)).
Proof.
  cbn zeta. unfold rx_match. destruct (is_ascii (to_lower O s)); cbn [bound_items].
  - rewrite word_search_spec. split.
    + intros H. eexists. split; [apply pattern_toks; reflexivity|exact H].
    + intros (ts & P & H). apply pattern_toks in P. subst. exact H.
  - cbn [app]. rewrite app_nil_r, search_spec. split.
    + intros H. eexists. split; [apply pattern_toks; reflexivity|exact H].
    + intros (ts & P & H). apply pattern_toks in P. subst. exact H.
Qed.
End WithOracles.
