(** Layouts of the same tokens are read alike; rendered trees are read back. *)
From Verif Require Import Bytes Utf8 Utf8Proofs GoStrconv GoFloat GoTime GoNet Oracles Ast AstSpec GrammarSpec GrammarFacts Layout.

Section L.
Context (O : oracles).

Lemma literal_move t p v q : literal O t p v -> literal O t q (set_pos q v).
Proof.
  destruct 1 as [t s p Q U|t v p R N|t v p R N|t v p R N|t v p R N|t v p R N|p|p].
  - now apply lit_string.
  - apply lit_regex; auto. unfold new_regexp_val in *. destruct (o_re_parse O _); [|discriminate]. now injection N as <-.
  - apply lit_time; auto. unfold new_time_val in *. destruct (Nat.eqb _ _).
    + destruct (parse_date _); [|discriminate]. now injection N as <-.
    + destruct (parse_rfc3339 _); [|discriminate]. now injection N as <-.
  - apply lit_ip; auto. unfold new_net_val in *. cbn zeta in *. destruct (parse_prefix _ _); [|discriminate]. now injection N as <-.
  - apply lit_float; auto. unfold new_float_val in *. destruct (parse_float _ _) as [g|]; [|discriminate].
    destruct g; try discriminate; now injection N as <-.
  - apply lit_int; auto. unfold new_int_val in *. destruct (parse_int _); [|discriminate]. now injection N as <-.
  - apply lit_true.
  - apply lit_false.
Qed.
Lemma set_pos_pos p v : val_pos v = p -> set_pos p v = v.
Proof. destruct v; cbn; now intros ->. Qed.
Lemma set_pos_set p q v : set_pos p (set_pos q v) = set_pos p v.
Proof. now destruct v. Qed.
Lemma literal_noposition t v : literal O t no_position v -> set_pos no_position v = v.
Proof. intros L. apply set_pos_pos. eapply literal_pos; eauto. Qed.

Lemma commas_values vs u : commas vs u -> forall xs pre, vs <> [] -> Forall2 (fun t v => literal O t no_position v) vs xs ->
  exists ys, more_values O pre u ys /\ map (set_pos no_position) ys = xs.
Proof.
  induction 1 as [|w1 w2 v vs t W1 W2 C IH]; [congruence|]. intros xs pre _ F. inversion F as [|? x ? xs' L F']; subst.
  pose proof (literal_move _ _ _ (pos_of (pre ++ w1 ++ tx "," ++ w2) v) L) as L'.
  destruct vs as [|v' vs].
  - inversion F'; subst. inversion C; subst. eexists. split; [rewrite app_nil_r; now apply mv_last; eauto|].
    cbn. now rewrite set_pos_set, (literal_noposition _ _ L).
  - destruct (IH xs' (pre ++ w1 ++ tx "," ++ w2 ++ v)) as (ys & M & E); auto; [discriminate|].
    eexists. split; [eapply mv_cons; eauto|]. cbn. now rewrite set_pos_set, (literal_noposition _ _ L), E.
Qed.

Lemma layout_derives l k n : tokens_tree O l k n -> forall pre t, layout k t -> exists m, derives O l pre t m /\ strip m = n.
Proof.
  induction 1; intros pre u L.
  - inversion L; subst. destruct (IHtokens_tree1 pre a) as (m1 & D1 & <-); auto.
    destruct (IHtokens_tree2 (pre ++ a ++ w1 ++ tx "OR" ++ w2) c) as (m2 & D2 & <-); auto.
    exists (NOr m1 m2). split; auto. now apply d_or.
  - destruct (IHtokens_tree pre u) as (m & D & E); auto. exists m. split; auto. now apply d_or1.
  - inversion L; subst. destruct (IHtokens_tree1 pre a) as (m1 & D1 & <-); auto.
    destruct (IHtokens_tree2 (pre ++ a ++ w1 ++ tx "AND" ++ w2) c) as (m2 & D2 & <-); auto.
    exists (NAnd m1 m2). split; auto. now apply d_and.
  - destruct (IHtokens_tree pre u) as (m & D & E); auto. exists m. split; auto. now apply d_and1.
  - inversion L; subst.
    + destruct (IHtokens_tree (pre ++ tx "NOT" ++ w0) a) as (m & D & <-); auto.
      exists (NNot m). split; auto. apply d_not; auto. now constructor.
    + destruct (IHtokens_tree (pre ++ tx "!" ++ w0) a) as (m & D & <-); auto.
      exists (NNot m). split; auto. apply d_not; auto. now constructor.
  - destruct (IHtokens_tree pre u) as (m & D & E); auto. exists m. split; auto. now apply d_not1.
  - inversion L; subst. destruct (IHtokens_tree (pre ++ tx "(" ++ w1) a) as (m & D & <-); auto.
    exists m. split; auto. now apply d_paren.
  - inversion L; subst. eexists. split; [apply d_noarg; eassumption|reflexivity].
  - inversion L; subst. pose proof (literal_move _ _ _ (pos_of (pre ++ f ++ w1 ++ tx ":" ++ w2 ++ k ++ w3) t) H1) as L'.
    eexists. split; [eapply d_values; [eassumption..|apply vs_one; exact L']|]. cbn. now rewrite set_pos_set, (literal_noposition _ _ H1).
  - inversion L; subst.
    destruct (commas_values _ _ H13 vs ((pre ++ f ++ w1 ++ tx ":" ++ w2 ++ k ++ w3) ++ tx "(" ++ w4 ++ t)) as (ys & M & E); auto.
    pose proof (literal_move _ _ _ (pos_of ((pre ++ f ++ w1 ++ tx ":" ++ w2 ++ k ++ w3) ++ tx "(" ++ w4) t) H1) as L'.
    eexists. split; [eapply d_values; [eassumption..|eapply vs_many; [assumption|assumption|exact L'|exact M]]|]. cbn. now rewrite set_pos_set, (literal_noposition _ _ H1), E.
Qed.

Lemma literal_forget t p v : literal O t p v -> literal O t no_position (set_pos no_position v).
Proof. apply literal_move. Qed.
Lemma more_values_tokens pre u vs : more_values O pre u vs ->
  exists ts, ts <> [] /\ commas ts u /\ Forall2 (fun t v => literal O t no_position v) ts (map (set_pos no_position) vs).
Proof.
  induction 1 as [pre w1 w2 t v W1 W2 L|pre w1 w2 t v u vs W1 W2 L M (ts & N & C & F)].
  - exists [t]. split; [discriminate|]. split.
    + rewrite <- (app_nil_r t) at 2. repeat constructor; auto.
    + constructor; [|constructor]. eapply literal_forget; eauto.
  - exists (t :: ts). split; [discriminate|]. split; [now constructor|]. cbn. constructor; auto. eapply literal_forget; eauto.
Qed.

Lemma derives_tokens l pre t n : derives O l pre t n -> exists k, tokens_tree O l k (strip n) /\ layout k t.
Proof.
  induction 1.
  - destruct IHderives1 as (k1 & T1 & L1), IHderives2 as (k2 & T2 & L2). exists (TOr k1 k2). split; [now constructor|now constructor].
  - destruct IHderives as (k & T & L). exists k. split; auto. now apply tt_or1.
  - destruct IHderives1 as (k1 & T1 & L1), IHderives2 as (k2 & T2 & L2). exists (TAnd k1 k2). split; [now constructor|now constructor].
  - destruct IHderives as (k & T & L). exists k. split; auto. now apply tt_and1.
  - destruct IHderives as (k & T & L). destruct H as [w W|w W]; eexists (TNot _ k); (split; [now constructor|now constructor]).
  - destruct IHderives as (k & T & L). exists k. split; auto. now apply tt_not1.
  - destruct IHderives as (k & T & L). exists (TParen k). split; now constructor.
  - exists (TNoArg f k). split; [now constructor|now constructor].
  - destruct H4 as [pre0 t0 v L|pre0 w1' t0 v u vs w2' W1 W2 L M].
    + exists (TOne f k t0). split; [|now constructor]. constructor; auto. eapply literal_forget; eauto.
    + destruct (more_values_tokens _ _ _ M) as (ts & N & C & F). exists (TMany f k t0 ts). split.
      * constructor; auto. eapply literal_forget; eauto.
      * now constructor.
Qed.

(** ** The operator checks do not look at positions. *)
Lemma val_string_set p v : val_string O (set_pos p v) = val_string O v.
Proof. now destruct v. Qed.
Lemma orderable_set p v : orderable (set_pos p v) <-> orderable v.
Proof. destruct v; cbn; split; intros H; inversion H; constructor. Qed.
Lemma simable_set p v : simable (set_pos p v) <-> simable v.
Proof. destruct v; cbn; split; intros H; inversion H; constructor. Qed.
Lemma map_one {A B} (f : A -> B) l y : map f l = [y] <-> exists x, l = [x] /\ y = f x.
Proof. split; [|intros (x & -> & ->); reflexivity]. destruct l as [|x [|]]; cbn; intros [= <-]. eauto. Qed.
Lemma map_two {A B} (f : A -> B) l y z : map f l = [y; z] <-> exists x w, l = [x; w] /\ y = f x /\ z = f w.
Proof. split; [|intros (x & w & -> & -> & ->); reflexivity]. destruct l as [|x [|w [|]]]; cbn; intros [= <- <-]. eauto 6. Qed.
Lemma map_nil_iff {A B} (f : A -> B) l : map f l = [] <-> l = [].
Proof. destruct l; cbn; split; congruence. Qed.
Lemma args_ok_set p o vs : args_ok o (map (set_pos p) vs) <-> args_ok o vs.
Proof.
  destruct o; cbn; try (rewrite map_nil_iff; tauto).
  1-4: split; [intros (v & E & H); apply map_one in E as (x & -> & ->); exists x; split; auto; now apply orderable_set in H|
    intros (v & -> & H); exists (set_pos p v); split; auto; now apply orderable_set].
  - split; [intros (v & w & E & H1 & H2); apply map_two in E as (x & y & -> & -> & ->); exists x, y; apply orderable_set in H1, H2; auto|].
    intros (v & w & -> & H1 & H2). exists (set_pos p v), (set_pos p w). repeat split; now apply orderable_set.
  - rewrite map_nil_iff. split; intros [H1 H2]; split; auto.
    + intros v I. apply (simable_set p), H2, in_map, I.
    + intros v I. apply in_map_iff in I as (x & <- & I). now apply simable_set, H2.
Qed.
Lemma distinct_ok_set p o vs : distinct_ok O o (map (set_pos p) vs) <-> distinct_ok O o vs.
Proof.
  unfold distinct_ok. split; intros [H1 H2]; split.
  - intros i j v w Hi Hj E. apply (map_nth_error (set_pos p)) in Hi, Hj. eapply H1; eauto. now rewrite !val_string_set.
  - intros E (v & Iv & Ev) (w & Iw & Ew). apply (in_map (set_pos p)) in Iv, Iw. apply H2; auto; [exists (set_pos p v)|exists (set_pos p w)]; split; auto; now rewrite val_string_set.
  - intros i j v w Hi Hj E. rewrite nth_error_map in Hi, Hj.
    destruct (nth_error vs i) as [v'|] eqn:Ei; [|discriminate]. destruct (nth_error vs j) as [w'|] eqn:Ej; [|discriminate].
    injection Hi as <-. injection Hj as <-. rewrite !val_string_set in E. eauto.
  - intros E (v & Iv & Ev) (w & Iw & Ew). apply in_map_iff in Iv as (v' & <- & Iv). apply in_map_iff in Iw as (w' & <- & Iw).
    rewrite val_string_set in Ev, Ew. apply H2; eauto.
Qed.
Lemma denotes_num_set p v x : denotes_num (set_pos p v) x <-> denotes_num v x.
Proof. destruct v; cbn; split; intros H; inversion H; subst; constructor. Qed.
Lemma range_ok_set p v w : range_ok (set_pos p v) (set_pos p w) <-> range_ok v w.
Proof.
  split; intros H.
  - inversion H as [? ? x y Hx Hy L E1 E2|t d s q t' d' s' q' L E1 E2|? x t d s q Hx L E1 E2]; subst.
    + apply denotes_num_set in Hx, Hy. eapply range_num; eauto.
    + destruct v; try discriminate. destruct w; try discriminate. cbn in *. injection E1 as -> -> ->. injection E2 as -> -> ->. now apply range_time.
    + apply denotes_num_set in Hx. destruct w; try discriminate. cbn in *. injection E2 as -> -> ->. eapply range_mixed; eauto.
  - destruct H as [? ? x y Hx Hy L|t d s q t' d' s' q' L|? x t d s q Hx L].
    + eapply range_num; eauto; now apply denotes_num_set.
    + now apply range_time.
    + eapply range_mixed; eauto. now apply denotes_num_set.
Qed.

Lemma subnode_strip x n : subnode x n -> subnode (strip x) (strip n).
Proof. induction 1; cbn; auto using sub_refl, sub_and_l, sub_and_r, sub_or_l, sub_or_r, sub_not. Qed.
Lemma subnode_strip_inv y n : subnode y (strip n) -> exists x, subnode x n /\ y = strip x.
Proof.
  induction n as [l IHl r IHr|l IHl r IHr|e IH|o f vs p]; cbn; intros H; inversion H; subst;
    try (eexists; split; [apply sub_refl|reflexivity]).
  - destruct IHl as (x & S & ->); auto. eexists; split; [now apply sub_and_l; eauto|auto].
  - destruct IHr as (x & S & ->); auto. eexists; split; [now apply sub_and_r; eauto|auto].
  - destruct IHl as (x & S & ->); auto. eexists; split; [now apply sub_or_l; eauto|auto].
  - destruct IHr as (x & S & ->); auto. eexists; split; [now apply sub_or_r; eauto|auto].
  - destruct IH as (x & S & ->); auto. eexists; split; [now apply sub_not; eauto|auto].
Qed.

Lemma checked_strip n : checked O (strip n) <-> checked O n.
Proof.
  split; intros H o f vs p S.
  - apply subnode_strip in S. cbn in S. destruct (H _ _ _ _ S) as (A & D & R).
    split; [now apply args_ok_set in A|]. split; [now apply distinct_ok_set in D|].
    intros B. destruct (R B) as (v & w & E & R'). apply map_two in E as (x & y & -> & -> & ->). exists x, y. split; auto. now apply range_ok_set in R'.
  - apply subnode_strip_inv in S as (x & S & E). destruct x as [| | |o' f' vs' p']; try discriminate. cbn in E. injection E as <- <- -> _.
    destruct (H _ _ _ _ S) as (A & D & R).
    split; [now apply args_ok_set|]. split; [now apply distinct_ok_set|].
    intros B. destruct (R B) as (v & w & -> & R'). exists (set_pos no_position v), (set_pos no_position w). split; auto. now apply range_ok_set.
Qed.

(** ** Code points *)
Fixpoint tok_scalars (k : tokens) : Prop :=
  match k with
  | TOr l r | TAnd l r => tok_scalars l /\ tok_scalars r
  | TNot _ e | TParen e => tok_scalars e
  | TNoArg f k => scalars f /\ scalars k
  | TOne f k v => scalars f /\ scalars k /\ scalars v
  | TMany f k v vs => scalars f /\ scalars k /\ scalars v /\ Forall scalars vs
  end.
Lemma scalars_app x y : scalars (x ++ y) <-> scalars x /\ scalars y.
Proof. apply Forall_app. Qed.
Lemma ws_scalars w : ws w -> scalars w.
Proof. intros H. eapply Forall_impl; [|exact H]. intros c [->|[->|[->| ->]]]; reflexivity. Qed.
Lemma tx_scalars s : forallb (fun c => c <? 128) (tx s) = true -> scalars (tx s).
Proof. intros H. apply ascii_scalars, Forall_forall. intros c I. rewrite forallb_forall in H. apply N.ltb_lt, H, I. Qed.
Lemma commas_scalars vs t : commas vs t -> (scalars t <-> Forall scalars vs).
Proof.
  induction 1 as [|w1 w2 v vs t W1 W2 C IH].
  - split; constructor.
  - rewrite !scalars_app, IH. pose proof (ws_scalars _ W1). pose proof (ws_scalars _ W2).
    assert (scalars (tx ",")) by (apply tx_scalars; reflexivity).
    split; [intros (_ & _ & _ & A & B); constructor; auto|intros F; inversion F; subst; tauto].
Qed.
Lemma layout_scalars k t : layout k t -> (scalars t <-> tok_scalars k).
Proof.
  induction 1; cbn [tok_scalars]; repeat match goal with H : ws1 _ |- _ => destruct H end;
    repeat match goal with H : ws ?w |- _ => apply ws_scalars in H end;
    rewrite ?scalars_app;
    try match goal with H : commas _ _ |- _ => rewrite (commas_scalars _ _ H) end;
    try rewrite IHlayout1, IHlayout2; try rewrite IHlayout;
    repeat match goal with |- context [scalars (tx ?s)] =>
      let H := fresh in assert (H : scalars (tx s)) by (apply tx_scalars; reflexivity); revert H; generalize (scalars (tx s)); intros ? H end;
    tauto.
Qed.

(** ** Rendering *)
Section R.
Context (sf : list bytes -> text) (sv : aval -> text).
Definition toks_expr (o : op) (f : list bytes) (vs : list aval) : tokens :=
  match vs with
  | [] => TNoArg (sf f) (render_op o)
  | [v] => TOne (sf f) (render_op o) (sv v)
  | v :: r => TMany (sf f) (render_op o) (sv v) (map sv r)
  end.
Definition wrap (y : bool) (k : tokens) := if y then TParen k else k.
Fixpoint toks (l : level) (n : node) : tokens :=
  match n with
  | NOr x y => wrap (match l with LOr => false | _ => true end) (TOr (toks LAnd x) (toks LOr y))
  | NAnd x y => wrap (match l with LOr | LAnd => false | _ => true end) (TAnd (toks LNot x) (toks LAnd y))
  | NNot x => wrap (match l with LCmp => true | _ => false end) (TNot true (toks LCmp x))
  | NExpr o f vs _ => toks_expr o f vs
  end.
Lemma ws_one : ws1 [32].
Proof. split; [|discriminate]. constructor; [now left|constructor]. Qed.
Lemma wrap_layout y k t : layout k t -> layout (wrap y k) (paren y t).
Proof.
  intros L. destruct y; auto. cbn [wrap paren]. change (tx "(" ++ t ++ tx ")") with (tx "(" ++ [] ++ t ++ [] ++ tx ")").
  constructor; auto; constructor.
Qed.
Lemma commas_text_ok r : commas (map sv r) (commas_text sv r).
Proof.
  induction r as [|v r IH]; [constructor|]. cbn [map commas_text].
  change (tx ", " ++ sv v ++ commas_text sv r) with ([] ++ tx "," ++ [32] ++ sv v ++ commas_text sv r).
  constructor; auto; [constructor|apply ws_one].
Qed.
Lemma toks_layout n : forall l, layout (toks l n) (render sf sv l n).
Proof.
  induction n as [x IHx y IHy|x IHx y IHy|x IH|o f vs p]; intros l; cbn [toks render].
  - apply wrap_layout. change (tx " AND ") with ([32] ++ tx "AND" ++ [32]). rewrite <- !app_assoc. constructor; auto using ws_one.
  - apply wrap_layout. change (tx " OR ") with ([32] ++ tx "OR" ++ [32]). rewrite <- !app_assoc. constructor; auto using ws_one.
  - apply wrap_layout. change (tx "NOT ") with (tx "NOT" ++ [32]). constructor; auto using ws_one.
  - unfold toks_expr. destruct vs as [|v [|w r]].
    + rewrite app_nil_r. change (layout (TNoArg (sf f) (render_op o)) (sf f ++ [] ++ tx ":" ++ [] ++ render_op o)). repeat constructor.
    + change (layout (TOne (sf f) (render_op o) (sv v)) (sf f ++ [] ++ tx ":" ++ [] ++ render_op o ++ [] ++ sv v)). repeat constructor.
    + change (layout (TMany (sf f) (render_op o) (sv v) (map sv (w :: r)))
        (sf f ++ [] ++ tx ":" ++ [] ++ render_op o ++ [] ++ tx "(" ++ [] ++ sv v ++ commas_text sv (w :: r) ++ [] ++ tx ")")).
      constructor; try constructor; try discriminate. apply (commas_text_ok (w :: r)).
Qed.

(** Every path and value of the tree has a spelling. *)
Definition spelled (n : node) : Prop :=
  forall o f vs p, subnode (NExpr o f vs p) n ->
    field (sf f) f /\ forall v, In v vs -> literal O (sv v) no_position (set_pos no_position v).

Lemma comp_op_render o : o <> EXS -> o <> NUL -> comp_op (render_op o) o.
Proof. destruct o; try congruence; constructor. Qed.
Lemma toks_expr_tree o f vs p : field (sf f) f -> (forall v, In v vs -> literal O (sv v) no_position (set_pos no_position v)) ->
  args_ok o vs -> tokens_tree O LCmp (toks_expr o f vs) (strip (NExpr o f vs p)).
Proof.
  intros F L A. cbn [strip]. unfold toks_expr. destruct vs as [|v [|w r]]; cbn [map].
  - apply tt_noarg; auto. destruct o; cbn in A; try (constructor; fail);
      try (destruct A as (? & [=] & _)); try (destruct A as (? & ? & [=] & _)); try congruence; destruct A; congruence.
  - apply tt_one; auto.
    + apply comp_op_render; intros ->; discriminate.
    + apply L. now left.
  - apply tt_many; auto.
    + apply comp_op_render; intros ->; discriminate.
    + apply L. now left.
    + assert (L' : forall v, In v (w :: r) -> literal O (sv v) no_position (set_pos no_position v)) by (intros; apply L; now right).
      clear - L'. change (sv w :: map sv r) with (map sv (w :: r)). change (set_pos no_position w :: map (set_pos no_position) r) with (map (set_pos no_position) (w :: r)).
      induction (w :: r); constructor; [apply L'; now left|apply IHl; intros; apply L'; now right].
Qed.
Lemma up_or k x : tokens_tree O LCmp k x -> forall l, tokens_tree O l k x.
Proof. intros H []; auto using tt_or1, tt_and1, tt_not1. Qed.
Lemma wrap_or l k x : tokens_tree O LOr k x -> tokens_tree O l (wrap (match l with LOr => false | _ => true end) k) x.
Proof. intros H. destruct l; cbn; auto; apply up_or; now constructor. Qed.
Lemma wrap_and l k x : tokens_tree O LAnd k x -> tokens_tree O l (wrap (match l with LOr | LAnd => false | _ => true end) k) x.
Proof. intros H. destruct l; cbn; auto using tt_or1; apply up_or; now constructor; apply tt_or1. Qed.
Lemma wrap_not l k x : tokens_tree O LNot k x -> tokens_tree O l (wrap (match l with LCmp => true | _ => false end) k) x.
Proof. intros H. destruct l; cbn; auto using tt_or1, tt_and1; apply up_or; now constructor; apply tt_or1, tt_and1. Qed.
Lemma toks_tree n : spelled n -> checked O n -> forall l, tokens_tree O l (toks l n) (strip n).
Proof.
  induction n as [x IHx y IHy|x IHx y IHy|x IH|o f vs p]; intros S C l; cbn [toks].
  - apply wrap_and. cbn [strip]. apply tt_and; [apply IHx|apply IHy];
      [intros o f vs p H; apply (S o f vs p)|intros o f vs p H; apply (C o f vs p)|intros o f vs p H; apply (S o f vs p)|intros o f vs p H; apply (C o f vs p)];
      auto using sub_and_l, sub_and_r.
  - apply wrap_or. cbn [strip]. apply tt_or; [apply IHx|apply IHy];
      [intros o f vs p H; apply (S o f vs p)|intros o f vs p H; apply (C o f vs p)|intros o f vs p H; apply (S o f vs p)|intros o f vs p H; apply (C o f vs p)];
      auto using sub_or_l, sub_or_r.
  - apply wrap_not. cbn [strip]. apply tt_not, IH;
      [intros o f vs p H; apply (S o f vs p)|intros o f vs p H; apply (C o f vs p)]; auto using sub_not.
  - apply up_or. destruct (S o f vs p) as [F L]; [constructor|]. destruct (C o f vs p) as [A _]; [constructor|]. now apply toks_expr_tree.
Qed.
End R.
End L.
