(** The messages of a matcher against the specification (C21). *)
From Verif Require Import Bytes Oracles Ast AstSpec Visitors VisitorProofs ParseQuery QueryMessages Matcher StrMatch MessageSpec MatcherTop Utf8 Utf8Proofs.
From Verif Require GrammarSpec GrammarFacts ValueProofs Prop_Grammar.

(** ** Slashes *)
Lemma trim_left_repeat k u : trim_left_slash (repeat 47 k ++ u) = trim_left_slash u.
Proof. induction k as [|k IH]; [reflexivity|exact IH]. Qed.
Lemma trim_left_id u : (forall v, u <> 47 :: v) -> trim_left_slash u = u.
Proof.
  intros H. destruct u as [|c u]; [reflexivity|]. destruct (N.eq_dec c 47) as [->|N]; [now destruct (H u)|].
  unfold trim_left_slash. destruct c as [|p]; [reflexivity|]. repeat (destruct p as [p|p|]; try reflexivity; try congruence).
Qed.
Lemma trim_left_shape u : exists k, u = repeat 47 k ++ trim_left_slash u /\ forall v, trim_left_slash u <> 47 :: v.
Proof.
  induction u as [|c u (k & E & H)]; [exists 0%nat; split; [reflexivity|discriminate]|].
  destruct (N.eq_dec c 47) as [->|N].
  - exists (S k). cbn [trim_left_slash repeat app]. split; [now f_equal|exact H].
  - exists 0%nat. rewrite trim_left_id by congruence. split; [reflexivity|congruence].
Qed.
Lemma rev_repeat {A} (x : A) k : rev (repeat x k) = repeat x k.
Proof.
  induction k as [|k IH]; [reflexivity|]. cbn [repeat rev]. rewrite IH. clear IH. induction k as [|k IH]; [reflexivity|].
  cbn [repeat app]. now rewrite IH.
Qed.
Lemma bare_trim s : bare s (trim_slash s).
Proof.
  unfold trim_slash. destruct (trim_left_shape s) as (k & E & H). set (u := trim_left_slash s) in *. clearbody u.
  destruct (trim_left_shape (rev u)) as (l & E' & H'). set (w := trim_left_slash (rev u)) in *. clearbody w.
  apply (f_equal (@rev N)) in E'. rewrite rev_involutive, rev_app_distr, rev_repeat in E'.
  exists k, l. split; [now rewrite <- E'|]. split.
  - intros v Ev. rewrite Ev in E'. cbn in E'. eapply H. exact E'.
  - intros v Ev. apply (f_equal (@rev N)) in Ev. rewrite rev_involutive, rev_app_distr in Ev. eapply H'. exact Ev.
Qed.
Lemma bare_unique s t : bare s t -> t = trim_slash s.
Proof.
  intros (k & l & -> & H & H'). unfold trim_slash. rewrite trim_left_repeat.
  destruct t as [|c t].
  - cbn [app]. replace (trim_left_slash (repeat 47 l)) with (@nil N); [reflexivity|].
    rewrite <- (app_nil_r (repeat 47 l)), trim_left_repeat. reflexivity.
  - rewrite (trim_left_id ((c :: t) ++ repeat 47 l)) by (cbn; intros v Ev; injection Ev as -> _; now destruct (H t)).
    rewrite rev_app_distr, rev_repeat, trim_left_repeat, trim_left_id, rev_involutive; [reflexivity|].
    intros v Ev. apply (f_equal (@rev N)) in Ev. rewrite rev_involutive in Ev. cbn [rev] in Ev. eapply H'. exact Ev.
Qed.

(** ** Text of a pattern *)
Lemma has_suffix_spec p s : has_suffix p s = true <-> ends p s.
Proof.
  unfold has_suffix, ends. rewrite has_prefix_spec. split; intros (t & E).
  - exists (rev t). rewrite <- (rev_involutive s), E, rev_app_distr, rev_involutive. reflexivity.
  - exists (rev t). now rewrite E, rev_app_distr.
Qed.
Lemma trim_prefix_spec p t u : t = u /\ ~ starts p t \/ t = p ++ u <-> trim_prefix p t = u.
Proof.
  unfold trim_prefix. destruct (has_prefix p t) eqn:E.
  - apply has_prefix_spec in E as (w & ->). rewrite skipn_app, skipn_all, Nat.sub_diag. cbn. split.
    + intros [(_ & N)|E]; [destruct N; now exists w|now apply app_inv_head in E].
    + intros ->. now right.
  - split.
    + intros [(-> & _)| ->]; [reflexivity|]. enough (has_prefix p (p ++ u) = true) by congruence. apply has_prefix_spec. now exists u.
    + intros ->. left. split; [reflexivity|]. intros St. apply has_prefix_spec in St. congruence.
Qed.
Lemma not_ascii_spec s : is_ascii s = false <-> exists c, In c s /\ 128 <= c.
Proof.
  unfold is_ascii. split.
  - induction s as [|c s IH]; [discriminate|]. cbn. destruct (c <? 128) eqn:E.
    + intros H. destruct (IH H) as (d & I & L). exists d. auto.
    + intros _. exists c. split; [now left|lia].
  - intros (c & I & L). destruct (forallb _ s) eqn:E; [|reflexivity]. rewrite forallb_forall in E. apply E in I. lia.
Qed.

(** ** Parsed patterns *)
Lemma special_one o s : does_something_special (RT o [s]) = match o with OpLiteral | OpStar | OpQuest => false | _ => true end.
Proof. reflexivity. Qed.
Lemma special_many o sub : length sub <> 1%nat -> does_something_special (RT o sub) = existsb does_something_special sub.
Proof. destruct sub as [|x [|y sub]]; cbn; intros; [reflexivity|lia|reflexivity]. Qed.
Fixpoint re_size (r : re_tree) : nat := match r with RT _ sub => S (fold_right (fun x n => re_size x + n)%nat 0%nat sub) end.
Lemma re_size_in x sub : In x sub -> (re_size x <= fold_right (fun x n => re_size x + n)%nat 0%nat sub)%nat.
Proof. induction sub as [|y sub IH]; [easy|]. cbn. intros [->|I]; [lia|]. apply IH in I. lia. Qed.
Lemma special_spec r : does_something_special r = true <-> special r.
Proof.
  remember (re_size r) as n eqn:E. assert (L : (re_size r <= n)%nat) by lia. clear E. revert r L.
  induction n as [|n IH]; intros [o sub] L; [cbn in L; lia|]. cbn [re_size] in L.
  destruct (Nat.eq_dec (length sub) 1) as [E|E].
  - destruct sub as [|x [|]]; try discriminate. rewrite special_one. split.
    + destruct o; intros H; try discriminate; now apply sp_unary.
    + intros H. inversion H; subst; [destruct o; congruence|]. now cbn in *.
  - rewrite special_many, existsb_exists by auto. split.
    + intros (x & I & H). apply sp_sub with x; auto. apply IH; [|exact H]. pose proof (re_size_in _ _ I). lia.
    + intros H. inversion H as [|? ? x _ I Hx]; subst; [cbn in E; lia|]. exists x. split; [exact I|]. apply IH; [|exact Hx].
      pose proof (re_size_in _ _ I). lia.
Qed.
Lemma dot_star_spec r : is_dot_star r = true <-> dot_star r.
Proof.
  split.
  - destruct r as [[] [|[[] l] []]]; cbn; intros; try discriminate; constructor.
  - intros H; now destruct H.
Qed.
Lemma strip_inner p r : inner r (snd (strip_group p r)).
Proof. destruct r as [[] [|s []]]; cbn; try (apply in_none; congruence). apply in_group. Qed.
Lemma inner_fun r x y : inner r x -> inner r y -> x = y.
Proof.
  intros H H'. destruct H as [s|r N]; inversion H' as [s' E|r' N' E]; subst; try reflexivity; exfalso; [now apply (N' s)|now apply (N y)].
Qed.

Lemma when_in c (m m' : message hint) : In m (when c m') <-> c = true /\ m = m'.
Proof. unfold when. destruct c; cbn; intuition congruence. Qed.

(** A block of messages at one position whose ranks are all in [lo, hi). *)
Definition block (p : pos) (lo hi : nat) (ms : list (message hint)) : Prop :=
  (forall m, In m ms -> m_pos m = p) /\ Forall (fun m => lo <= rank (m_text m) < hi)%nat ms /\
  StronglySorted (fun m m' => (rank (m_text m) < rank (m_text m'))%nat) ms.
Lemma block_app p a c d xs ys : block p a c xs -> block p c d ys -> (a <= c)%nat -> (c <= d)%nat -> block p a d (xs ++ ys).
Proof.
  intros (P & F & S1) (P' & F' & S2) L L'. split; [|split].
  - intros m I. apply in_app_iff in I as [I|I]; auto.
  - apply Forall_app. split; eapply Forall_impl; try eassumption; cbn beta; intros; lia.
  - clear P P'. induction S1 as [|x xs S1 IH H]; [exact S2|]. inversion F; subst. cbn [app]. constructor; [auto|].
    apply Forall_app. split; [exact H|]. eapply Forall_impl; [|exact F']. cbn beta in *. intros; lia.
Qed.
Lemma block_when p n c k h : rank h = n -> block p n (S n) (when c (msg k p h)).
Proof.
  intros E. unfold when. destruct c; (split; [|split]); cbn; try easy; try constructor; cbn; try lia; try constructor; try constructor.
  now intros m [<-|[]].
Qed.
Lemma block_nil p a c : block p a c [].
Proof. split; [easy|]. split; constructor. Qed.
Lemma block_widen p a c a' c' xs : block p a c xs -> (a' <= a)%nat -> (c <= c')%nat -> block p a' c' xs.
Proof. intros (P & F & S1) L L'. split; [exact P|]. split; [|exact S1]. eapply Forall_impl; [|exact F]. cbn beta. intros; lia. Qed.

Section WithOracles.
Context (O : oracles).

Lemma block_tree p f r : block p 4 7 (tree_messages p f r).
Proof.
  destruct r as [o sub]. cbn [tree_messages]. apply block_app with 5%nat; [now apply block_when| |lia|lia].
  destruct (Nat.leb 2 (length sub)); [|apply block_nil]. apply block_app with 6%nat; [now apply block_when| |lia|lia].
  destruct (Nat.leb 3 (length sub)); [now apply block_when|apply block_nil].
Qed.
Lemma block_group p r : block p 3 4 (fst (strip_group p r)).
Proof.
  assert (H : forall s, block p 3 4 [msg MHint p (HOuterGroup s)]).
  { intros s. split; [now intros m [<-|[]]|]. split; [repeat constructor|]. constructor; constructor. }
  destruct r as [[] [|s []]]; cbn; try apply block_nil. apply H.
Qed.

Lemma value_messages_block o f v : block (val_pos v) 0 7 (fst (value_messages O o f v)).
Proof.
  destruct v as [z s p|x s p|s p|x p|pat s p|n s p|t d s p]; cbn [value_messages val_pos];
    try (apply block_nil); try (eapply block_widen; [now apply block_when with (n := 0%nat)|lia|lia]).
  pose proof (block_group p) as G. destruct (o_re_parse O pat) as [r|]; cbn [val_string].
  - specialize (G r). destruct (strip_group p r) as [m4 r']. cbn [fst] in *.
    repeat first [apply block_tree | eapply block_app; [first [now apply block_when|exact G]| |lia|lia]].
  - cbn [fst]. eapply block_widen with (a := 0%nat) (c := 3%nat); [|lia|lia].
    eapply block_app with (c := 1%nat); [now apply block_when| |lia|lia].
    eapply block_app with (c := 2%nat); [now apply block_when|now apply block_when|lia|lia].
Qed.

Lemma tree_messages_in p f r m : In m (tree_messages p f r) <->
  (exists subs, r = RT OpAlternate subs /\ ~ special r /\ m = msg MHint p (HAlternation (join (b ".") f))) \/
  (exists k y z subs, r = RT k (y :: z :: subs) /\ dot_star y /\ m = msg MHint p HLeadingDotStar) \/
  (exists k y z subs w, r = RT k (y :: z :: subs ++ [w]) /\ dot_star w /\ m = msg MHint p HTrailingDotStar).
Proof.
  destruct r as [o sub]. cbn [tree_messages]. rewrite in_app_iff, when_in.
  assert (A : (match o with OpAlternate => negb (does_something_special (RT o sub)) | _ => false end) = true /\ m = msg MHint p (HAlternation (join (b ".") f)) <->
    exists subs, RT o sub = RT OpAlternate subs /\ ~ special (RT o sub) /\ m = msg MHint p (HAlternation (join (b ".") f))).
  { split.
    - intros (H & ->). destruct o; try discriminate. exists sub. split; [reflexivity|]. split; [|reflexivity].
      intros Sp. apply special_spec in Sp. rewrite Sp in H. discriminate.
    - intros (subs & [= -> ->] & H & ->). split; [|reflexivity]. destruct (does_something_special _) eqn:E; [|reflexivity].
      now apply special_spec in E. }
  rewrite A. clear A.
  assert (B : In m (if Nat.leb 2 (length sub) then
       when (match sub with s :: _ => is_dot_star s | [] => false end) (msg MHint p HLeadingDotStar) ++
       (if Nat.leb 3 (length sub) then
          when (match rev sub with s :: _ => is_dot_star s | [] => false end) (msg MHint p HTrailingDotStar)
        else []) else []) <->
    (exists k y z subs, RT o sub = RT k (y :: z :: subs) /\ dot_star y /\ m = msg MHint p HLeadingDotStar) \/
    (exists k y z subs w, RT o sub = RT k (y :: z :: subs ++ [w]) /\ dot_star w /\ m = msg MHint p HTrailingDotStar)).
  { destruct sub as [|y [|z sub]].
    - cbn. split; [easy|]. intros [(k & y & z & s & E & _)|(k & y & z & s & w & E & _)]; discriminate.
    - cbn. split; [easy|]. intros [(k & y' & z & s & E & _)|(k & y' & z & s & w & E & _)]; discriminate.
    - cbn [length Nat.leb]. rewrite in_app_iff, when_in. split.
      + intros [(D & ->)|I].
        * left. exists o, y, z, sub. split; [reflexivity|]. split; [now apply dot_star_spec|reflexivity].
        * right. destruct (exists_last (l := y :: z :: sub) ltac:(discriminate)) as (i & w & E). rewrite E, rev_app_distr in I.
          cbn [rev app] in I. destruct sub as [|u sub]; [easy|]. cbn [length Nat.leb] in I. apply when_in in I as (D & ->).
          destruct (exists_last (l := u :: sub) ltac:(discriminate)) as (i' & w' & E'). rewrite E' in *.
          assert (w' = w). { apply (f_equal (@rev re_tree)) in E. cbn [rev] in E. rewrite !rev_app_distr in E. cbn in E. congruence. }
          subst w'. exists o, y, z, i', w. split; [reflexivity|]. split; [now apply dot_star_spec|reflexivity].
      + intros [(k & y' & z' & s & [= -> -> -> ->] & D & ->)|(k & y' & z' & s & w & [= -> -> -> ->] & D & ->)].
        * left. split; [now apply dot_star_spec|reflexivity].
        * right. rewrite app_length. cbn [length]. replace (length s + 1)%nat with (S (length s)) by lia. cbn [Nat.leb].
          apply when_in. cbn [rev]. rewrite rev_app_distr. cbn. split; [now apply dot_star_spec|reflexivity]. }
  rewrite B. reflexivity.
Qed.

Lemma value_messages_gives o f v k h : (match v with ARegex pat _ _ => o_re_parse O pat <> None | _ => True end) ->
  (exists m, In m (fst (value_messages O o f v)) /\ m_type m = k /\ m_text m = h) <-> gives O o f v k h.
Proof.
  intros Ok. destruct v as [z s p|x s p|s p|x p|pat s p|n s p|t d s p]; cbn [value_messages fst];
    try (split; [intros (m & [] & _)|intros G; inversion G; fail]).
  - setoid_rewrite when_in. split.
    + intros (m & (E & ->) & <- & <-). apply g_sim_string. now destruct o.
    + intros G. inversion G; subst. eexists. repeat split.
  - destruct (o_re_parse O pat) as [r|] eqn:Er; [|congruence]. clear Ok. cbn [val_string val_pos].
    pose proof (strip_inner p r) as In'. destruct (strip_group p r) as [m4 r'] eqn:Es. cbn [fst snd] in *. split.
    + intros (m & I & <- & <-). rewrite !in_app_iff, !when_in, tree_messages_in in I.
      destruct I as [(E & ->)|[(E & ->)|[(E & ->)|[I|[(subs & -> & Sp & ->)|[(k & y & z & subs & -> & D & ->)|(k & y & z & subs & w & -> & D & ->)]]]]]];
        cbn [m_type m_text msg].
      * apply g_sim_regex. now destruct o.
      * apply andb_prop in E as (E & A). apply has_prefix_spec in E. apply negb_true_iff, not_ascii_spec in A as (c & I & L).
        eapply g_fold; eauto using bare_trim.
      * eapply g_dots; [apply bare_trim|apply trim_prefix_spec; reflexivity|].
        apply orb_prop in E as [E|E]; [left; now apply has_prefix_spec|right; now apply has_suffix_spec].
      * destruct r as [[] [|x []]]; injection Es as <- <-; try easy. destruct I as [<-|[]]. now apply g_group.
      * eapply g_alternation; eauto.
      * eapply g_leading; eauto.
      * eapply g_trailing; eauto.
    + intros G. inversion G; subst.
      * eexists. rewrite in_app_iff. split; [left; apply when_in; split; reflexivity|]. split; reflexivity.
      * match goal with B : bare _ _ |- _ => apply bare_unique in B; subst end.
        eexists. rewrite !in_app_iff, !when_in. split; [right; left; split; [|reflexivity]|split; reflexivity].
        apply andb_true_intro. split; [now apply has_prefix_spec|]. apply negb_true_iff, not_ascii_spec. eauto.
      * match goal with B : bare _ _ |- _ => apply bare_unique in B; subst t end.
        match goal with B : _ \/ _ = b "(?i)" ++ u |- _ => apply trim_prefix_spec in B; subst u end.
        eexists. rewrite !in_app_iff, !when_in. split; [right; right; left; split; [|reflexivity]|split; reflexivity].
        apply orb_true_iff. match goal with B : starts (b ".*") _ \/ _ |- _ => destruct B end;
          [left; now apply has_prefix_spec|right; now apply has_suffix_spec].
      * match goal with E : o_re_parse O pat = Some _ |- _ => rewrite Er in E; injection E as -> end. injection Es as <- <-.
        eexists. rewrite !in_app_iff. split; [right; right; right; left; left; reflexivity|split; reflexivity].
      * match goal with E : o_re_parse O pat = Some _ |- _ => rewrite Er in E; injection E as -> end.
        match goal with I : inner _ (RT OpAlternate _) |- _ => rewrite (inner_fun _ _ _ In' I) in *; clear I end.
        eexists. rewrite !in_app_iff, tree_messages_in. split; [do 4 right; left; eauto|split; reflexivity].
      * match goal with E : o_re_parse O pat = Some _ |- _ => rewrite Er in E; injection E as -> end.
        match goal with I : inner _ (RT _ _) |- _ => rewrite (inner_fun _ _ _ In' I) in *; clear I end.
        eexists. rewrite !in_app_iff, tree_messages_in. split; [do 5 right; left; do 4 eexists; split; [reflexivity|]; split; [eassumption|reflexivity]|split; reflexivity].
      * match goal with E : o_re_parse O pat = Some _ |- _ => rewrite Er in E; injection E as -> end.
        match goal with I : inner _ (RT _ _) |- _ => rewrite (inner_fun _ _ _ In' I) in *; clear I end.
        eexists. rewrite !in_app_iff, tree_messages_in. split; [do 6 right; do 5 eexists; split; [reflexivity|]; split; [eassumption|reflexivity]|split; reflexivity].
  - setoid_rewrite when_in. split.
    + intros (m & (E & ->) & <- & <-). destruct d; [now destruct o|]. apply g_exact_time. now destruct o.
    + intros G. inversion G; subst. eexists. repeat split.
Qed.

Lemma tree_values_preorder t : flat_map (fun n => match n with NExpr o f vs _ => map (fun v => (o, f, v)) vs | _ => [] end) (preorder t) = tree_values t.
Proof.
  induction t as [l IHl r IHr|l IHl r IHr|e IHe|o f vs p]; cbn [preorder flat_map tree_values app].
  - now rewrite flat_map_app, IHl, IHr.
  - now rewrite flat_map_app, IHl, IHr.
  - exact IHe.
  - apply app_nil_r.
Qed.

Lemma in_preorder x t : In x (preorder t) -> subnode x t.
Proof.
  induction t as [l IHl r IHr|l IHl r IHr|e IHe|o f vs p]; cbn [preorder]; intros [<-|I]; try apply sub_refl; try easy.
  - apply in_app_iff in I as [I|I]; [now apply sub_and_l, IHl|now apply sub_and_r, IHr].
  - apply in_app_iff in I as [I|I]; [now apply sub_or_l, IHl|now apply sub_or_r, IHr].
  - now apply sub_not, IHe.
Qed.

Lemma messages_blocks q t : parse_plain O q = QOk t -> exists blocks, flat_map (node_msgs O) (preorder t) = concat blocks /\
  Forall2 (messages_for O) (tree_values t) blocks.
Proof.
  intros P. rewrite <- tree_values_preorder.
  assert (R : forall x o f vs p, In x (preorder t) -> x = NExpr o f vs p -> forall v, In v vs ->
    match v with ARegex pat _ _ => o_re_parse O pat <> None | _ => True end).
  { intros x o f vs p I -> v Iv. apply in_preorder in I. destruct (Prop_Grammar.C06_literal_positions O q t o f vs p v P I Iv) as (a & own & c & _ & L & _).
    destruct v; auto. exact (literal_regex O _ _ _ _ _ L). }
  induction (preorder t) as [|x l IH].
  - exists []. split; [reflexivity|constructor].
  - destruct IH as (bl & E & F). { intros; eapply R; eauto. now right. }
    destruct x as [l' r'|l' r'|e|o f vs p]; try (exists bl; split; [exact E|exact F]).
    specialize (R _ o f vs p (or_introl eq_refl) eq_refl).
    exists (map (fun v => fst (value_messages O o f v)) vs ++ bl). cbn [flat_map node_msgs]. split.
    + rewrite values_messages_ok by exact R. cbn [fst]. now rewrite concat_app, E, flat_map_concat_map.
    + apply Forall2_app; [|exact F]. clear E F. induction vs as [|v vs IHv]; [constructor|]. cbn [map]. constructor.
      * destruct (value_messages_block o f v) as (B1 & _ & B3). split; [exact B1|]. split; [|exact B3].
        intros k h. apply value_messages_gives. apply R. now left.
      * apply IHv. intros; apply R. now right.
Qed.

(** ** Positions increase from left to right *)
Definition span (lo hi : nat) (l : list Z) : Prop :=
  StronglySorted Z.lt l /\ Forall (fun x => Z.of_nat lo <= x < Z.of_nat hi)%Z l.
Lemma span_nil lo hi : span lo hi [].
Proof. split; constructor. Qed.
Lemma span_app a c d e xs ys : span a c xs -> span d e ys -> (c <= d)%nat -> (a <= d)%nat -> (c <= e)%nat -> span a e (xs ++ ys).
Proof.
  intros (S1 & F1) (S2 & F2) L L' L2. split.
  - induction S1 as [|x xs S1 IH H]; [exact S2|]. inversion F1; subst. cbn [app]. constructor; [auto|].
    apply Forall_app. split; [exact H|]. eapply Forall_impl; [|exact F2]. cbn beta in *. intros; lia.
  - apply Forall_app. split; eapply Forall_impl; try eassumption; cbn beta; intros; lia.
Qed.
Lemma span_widen a c a' c' l : span a c l -> (a' <= a)%nat -> (c <= c')%nat -> span a' c' l.
Proof. intros (S1 & F) L L'. split; [exact S1|]. eapply Forall_impl; [|exact F]. cbn beta. intros; lia. Qed.

Definition off (v : aval) : Z := p_off (val_pos v).
Definition len (t : list N) : nat := length (encode t).
Lemma len_app x y : len (x ++ y) = (len x + len y)%nat.
Proof. unfold len. now rewrite encode_app, app_length. Qed.
Lemma encode_rune_pos c : (0 < length (encode_rune c))%nat.
Proof. pose proof (encode_rune_len c). lia. Qed.
Lemma literal_len t p v : GrammarSpec.literal O t p v -> (0 < len t)%nat.
Proof.
  intros L. apply ValueProofs.literal_hd in L as (x & u & -> & _). unfold len. rewrite encode_cons, app_length.
  pose proof (encode_rune_pos x). lia.
Qed.
Lemma literal_span pre t v : GrammarSpec.literal O t (GrammarSpec.pos_of pre t) v -> span (len pre) (len (pre ++ t)) [off v].
Proof.
  intros L. pose proof (literal_len _ _ _ L). apply GrammarFacts.literal_pos in L. unfold off. rewrite L. cbn [p_off GrammarSpec.pos_of].
  rewrite len_app. split; [repeat constructor|]. constructor; [|constructor]. unfold len in *. lia.
Qed.
Lemma more_values_span pre t vs : GrammarSpec.more_values O pre t vs -> span (len pre) (len (pre ++ t)) (map off vs).
Proof.
  induction 1 as [pre w1 w2 t v W1 W2 L|pre w1 w2 t v u vs W1 W2 L M IH]; apply literal_span in L; cbn [map].
  - eapply span_widen; [exact L| |]; rewrite !len_app; lia.
  - change (off v :: map off vs) with ([off v] ++ map off vs). eapply span_app.
    + eapply span_widen; [exact L| |apply Nat.le_refl]. rewrite !len_app; lia.
    + eapply span_widen; [exact IH|apply Nat.le_refl|]. rewrite !len_app. lia.
    + rewrite !len_app; lia.
    + rewrite !len_app; lia.
    + rewrite !len_app; lia.
Qed.
Lemma values_span pre t vs : GrammarSpec.values O pre t vs -> span (len pre) (len (pre ++ t)) (map off vs).
Proof.
  intros H. destruct H as [pre t v L|pre w1 t v u vs w2 W1 W2 L M].
  - now apply literal_span.
  - apply literal_span in L. apply more_values_span in M. cbn [map]. change (off v :: map off vs) with ([off v] ++ map off vs).
    eapply span_app; [eapply span_widen; [exact L| |apply Nat.le_refl]|eapply span_widen; [exact M|apply Nat.le_refl|]| | |]; rewrite !len_app; lia.
Qed.

Lemma derives_span l pre t n : GrammarSpec.derives O l pre t n -> span (len pre) (len (pre ++ t)) (map (fun x => off (snd x)) (tree_values n)).
Proof.
  induction 1; cbn [tree_values]; rewrite ?map_app, ?map_map; cbn [snd]; try assumption.
  - eapply span_app; [exact IHderives1|eapply span_widen; [exact IHderives2|apply Nat.le_refl|]| | |]; rewrite !len_app; lia.
  - eapply span_app; [exact IHderives1|eapply span_widen; [exact IHderives2|apply Nat.le_refl|]| | |]; rewrite !len_app; lia.
  - eapply span_widen; [exact IHderives| |]; rewrite !len_app; lia.
  - eapply span_widen; [exact IHderives| |]; rewrite !len_app; lia.
  - apply span_nil.
  - match goal with V : GrammarSpec.values _ _ _ _ |- _ => apply values_span in V; eapply span_widen; [exact V| |] end; subst t; rewrite !len_app; lia.
Qed.

Lemma tree_values_offsets q t : parse_plain O q = QOk t -> StronglySorted Z.lt (map (fun x => off (snd x)) (tree_values t)).
Proof.
  intros P. apply Prop_Grammar.C03_language in P as (text & _ & _ & (w1 & a & w2 & _ & _ & _ & D) & _). now apply derives_span in D as (S1 & _).
Qed.

Lemma messages_sorted xs blocks : Forall2 (messages_for O) xs blocks -> StronglySorted Z.lt (map (fun x => off (snd x)) xs) ->
  StronglySorted (fun m m' => (p_off (m_pos m) <= p_off (m_pos m'))%Z) (concat blocks).
Proof.
  intros F. induction F as [|[[o f] v] ms xs bl H F IH]; intros S1; [constructor|]. cbn [map snd] in S1.
  apply StronglySorted_inv in S1 as (S1 & Lt). specialize (IH S1). cbn [concat].
  assert (Later : forall m, In m (concat bl) -> (off v < p_off (m_pos m))%Z).
  { clear IH S1 H. intros m I. revert Lt m I. induction F as [|[[o' f'] v'] ms' xs bl H F IH]; intros Lt m I; [easy|].
    cbn [map snd concat] in *. inversion Lt; subst. apply in_app_iff in I as [I|I]; [|now apply IH].
    destruct H as (H & _). rewrite (H m I). assumption. }
  destruct H as (Hp & _). clear Lt F S1. induction ms as [|m ms IHm]; [exact IH|]. cbn [app]. constructor.
  - apply IHm. intros; apply Hp. now right.
  - apply Forall_forall. intros m' I. rewrite (Hp m) by now left. apply in_app_iff in I as [I|I].
    + rewrite (Hp m') by now right. apply Z.le_refl.
    + apply Later in I. unfold off in I. lia.
Qed.
End WithOracles.
