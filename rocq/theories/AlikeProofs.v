(** Trees that mean the same give the same answers. *)
From Verif Require Import Bytes Utf8 GoFloat GoTime GoNet Oracles Ast AstSpec Json Values StrMatch Matcher MatchSpec MatchProofs StrProofs AlikeSpec.
From Coq Require Import ZifyBool ZifyN ZifyNat.

Section WithOracles.
Context (O : oracles).

(** ** Expressions *)
Definition eqf (e e' : fexpr) : Prop := forall vs, matches O e vs = matches O e' vs.
Lemma any_res_ext f g vs : (forall v, f v = g v) -> any_res f vs = any_res g vs.
Proof. intros E. induction vs as [|v vs IH]; cbn; [reflexivity|]. now rewrite E, IH. Qed.

Lemma compare_zero x s s' : SFcompare x (S754_zero s) = SFcompare x (S754_zero s').
Proof. now destruct x. Qed.
Lemma same_double_op o f d d' e e' : same_double d d' -> same_double e e' -> float_op o f d e = float_op o f d' e'.
Proof.
  intros D E. destruct D as [d|s s'], E as [e|t t']; try reflexivity; destruct o; cbn; try reflexivity;
    unfold f_eq, f_lt, f_le, f_gt, f_ge; try rewrite (compare_zero f s s'); try rewrite (compare_zero f t t'); reflexivity.
Qed.
Lemma eqf_float o d d' e e' : same_double d d' -> same_double e e' -> eqf (FFloat o d e) (FFloat o d' e').
Proof. intros D E vs. cbn. apply any_res_ext. intros v. destruct (get_number_val O v); [|reflexivity]. now apply same_double_op. Qed.

(** A boolean test that never panics *)
Definition tame (e : fexpr) : Prop := forall vs, exists a, matches O e vs = Ok a.
Lemma any_res_tame f vs : (forall v, exists a, f v = Ok a) -> exists a, any_res f vs = Ok a.
Proof.
  intros T. induction vs as [|v vs IH]; cbn; [eauto|]. destruct (T v) as (a & ->). cbn. destruct a; eauto.
Qed.

Lemma eq_matcher_tame v : exists e, eq_matcher O v = Ok e /\ tame e.
Proof.
  assert (W : forall g v, exists a, match get_string_val O v with Some s => Ok (g s) | None => Ok false end = Ok a)
    by (intros g w; destruct (get_string_val O w); eauto).
  destruct v as [z s p|f s p|s p|x p|r s p|n s p|t day s p]; cbn [eq_matcher].
  1-2: eexists; split; [reflexivity|]; intros vs; apply any_res_tame; intros w; destruct (get_number_val O w); cbn; eauto.
  - unfold string_matcher. destruct (_ && _).
    + eexists. split; [reflexivity|]. intros vs. apply any_res_tame. intros w. apply W.
    + rewrite search_compiles. eexists. split; [reflexivity|]. intros vs. apply any_res_tame. intros w. apply W.
  - eexists. split; [reflexivity|]. intros vs. apply any_res_tame. intros w. destruct (get_bool_val w); eauto.
  - eexists. split; [reflexivity|]. intros vs. apply any_res_tame. intros w. apply W.
  - eexists. split; [reflexivity|]. intros vs. apply any_res_tame. intros w. apply W.
  - destruct day; (eexists; split; [reflexivity|]; intros vs; apply any_res_tame; intros w; destruct (get_datetime_val O w); cbn; eauto).
Qed.

(** ** Lists *)
Lemma eq_matchers_all vs : exists es, eq_matchers O vs = Ok es /\ Forall2 (fun v e => eq_matcher O v = Ok e) vs es /\ Forall tame es.
Proof.
  induction vs as [|v vs (es & E & F & T)]; cbn; [exists []; auto|]. destruct (eq_matcher_tame v) as (e & Ee & Te). rewrite Ee, E. cbn.
  exists (e :: es). auto.
Qed.
Lemma any_expr_tame es vs : Forall tame es -> exists a, any_expr O es vs = Ok a /\ (a = true <-> exists e, In e es /\ matches O e vs = Ok true).
Proof.
  intros T. induction T as [|e es Te T (a & E & H)]; cbn; [exists false; split; [reflexivity|split; [discriminate|intros (? & [] & _)]]|].
  destruct (Te vs) as (x & Ex). rewrite Ex. cbn. destruct x.
  - exists true. split; [reflexivity|]. split; [intros _; eauto|reflexivity].
  - exists a. split; [exact E|]. rewrite H. split; [intros (e' & I & M); eauto|]. intros (e' & [<-|I] & M); [congruence|eauto].
Qed.

Lemma lower_same c d : same_letter_ascii c d -> lower_ascii c = lower_ascii d.
Proof.
  unfold lower_ascii. intros [->|[[L ->]|[L ->]]]; [reflexivity| |].
  - replace ((65 <=? c) && (c <=? 90)) with true by lia. now replace ((65 <=? c + 32) && (c + 32 <=? 90)) with false by lia.
  - replace ((65 <=? d) && (d <=? 90)) with true by lia. now replace ((65 <=? d + 32) && (d + 32 <=? 90)) with false by lia.
Qed.
Lemma case_ascii s s' : Forall (fun c => c < 128) s -> Forall2 same_letter_ascii s s' -> is_ascii s = true /\ is_ascii s' = true /\ map lower_ascii s = map lower_ascii s'.
Proof.
  intros A F. induction F as [|c d s s' L F IH]; [auto|]. inversion A; subst. destruct (IH H2) as (I1 & I2 & I3). unfold is_ascii in *. cbn [forallb map]. rewrite I1, I2, I3, (lower_same c d L).
  split; [lia|]. split; [|reflexivity]. destruct L as [->|[[L ->]|[L ->]]]; lia.
Qed.
Lemma case_matcher s s' : Forall (fun c => c < 128) s -> Forall2 same_letter_ascii s s' -> string_matcher O s = string_matcher O s'.
Proof.
  intros A F. destruct (case_ascii s s' A F) as (I1 & I2 & I3). unfold string_matcher, search_source, to_lower. now rewrite I1, I2, I3.
Qed.

Lemma alike_eq v w e e' : alike_val O v w -> eq_matcher O v = Ok e -> eq_matcher O w = Ok e' -> eqf e e'.
Proof.
  intros A E E'. destruct A as [v w d d' Sv Sw D|s p p'|s s' p p' As F|x p p'|r r' s s' p p' Er|n s s' p p'|t day s s' p p'].
  - assert (G : forall v d, stands_for v d -> eq_matcher O v = Ok (FFloat EQ d f_zero)) by (intros ? ? []; reflexivity).
    rewrite (G v d Sv) in E. rewrite (G w d' Sw) in E'. injection E as <-. injection E' as <-. apply eqf_float; [exact D|constructor].
  - cbn in *. intros vs. congruence.
  - cbn in *. rewrite (case_matcher s s' As F) in E. intros vs. congruence.
  - cbn in *. intros vs. congruence.
  - cbn in *. injection E as <-. injection E' as <-. intros vs. cbn. apply any_res_ext. intros v. destruct (get_string_val O v); [|reflexivity]. now rewrite Er.
  - cbn in *. intros vs. congruence.
  - cbn in *. intros vs. destruct day; congruence.
Qed.

Lemma list_result vs js : vs <> [] -> exists es a, build_exprs O EQ vs = Ok es /\ any_expr O es js = Ok a /\
  (a = true <-> exists v e, In v vs /\ eq_matcher O v = Ok e /\ matches O e js = Ok true).
Proof.
  intros Ne. destruct (eq_matchers_all vs) as (es & E & F & T). destruct (any_expr_tame es js T) as (a & Ea & H).
  exists es, a. split; [cbn; destruct vs; [congruence|exact E]|]. split; [exact Ea|]. rewrite H. clear -F. split.
  - intros (e & I & M). induction F as [|v e0 vs es Ev F IH]; [destruct I|]. destruct I as [->|I]; [exists v, e; split; [now left|auto]|].
    destruct (IH I) as (w & e' & Iw & R). exists w, e'. split; [now right|exact R].
  - intros (v & e & I & Ev & M). exists e. split; [|exact M]. clear -F I Ev. induction F as [|v0 e0 vs es Ev0 F IH]; [destruct I|]. destruct I as [->|I]; [left; congruence|right; auto].
Qed.

(** ** Comparisons *)
Lemma list_alike vs ws js : covers O vs ws -> covers O ws vs -> vs <> [] -> ws <> [] ->
  exists es es', build_exprs O EQ vs = Ok es /\ build_exprs O EQ ws = Ok es' /\ any_expr O es js = any_expr O es' js.
Proof.
  intros C C' N N'. destruct (list_result vs js N) as (es & a & E & A & H). destruct (list_result ws js N') as (es' & a' & E' & A' & H').
  exists es, es'. split; [exact E|]. split; [exact E'|]. rewrite A, A'. f_equal.
  assert (G : forall vs ws, covers O vs ws -> (exists v e, In v vs /\ eq_matcher O v = Ok e /\ matches O e js = Ok true) ->
    exists v e, In v ws /\ eq_matcher O v = Ok e /\ matches O e js = Ok true).
  { intros xs ys Cv (v & e & I & Ev & M). destruct (Cv v I) as (w & Iw & Al). destruct (eq_matcher_tame w) as (e' & Ew & _).
    exists w, e'. split; [exact Iw|]. split; [exact Ew|]. rewrite <- (alike_eq v w e e' Al Ev Ew js). exact M. }
  destruct a, a'; try reflexivity.
  - symmetry. apply H', (G vs ws C), H. reflexivity.
  - apply H, (G ws vs C'), H'. reflexivity.
Qed.

Lemma numeric_alike o v w : alike_val O v w ->
  match expr_numeric o [v], expr_numeric o [w] with Ok e, Ok e' => eqf e e' | Panic, Panic => True | _, _ => False end.
Proof.
  intros A. destruct A as [v w d d' Sv Sw D|s p p'|s s' p p' As F|x p p'|r r' s s' p p' Er|n s s' p p'|t day s s' p p']; cbn; auto; [|intros vs; reflexivity].
  assert (G : forall v d, stands_for v d -> expr_numeric o [v] = Ok (FFloat o d f_zero)) by (intros ? ? []; reflexivity).
  cbn in G. rewrite (G v d Sv), (G w d' Sw). apply eqf_float; [exact D|constructor].
Qed.
Lemma between_num_alike v w : alike_val O v w -> same_double (between_num v) (between_num w).
Proof.
  intros A. destruct A as [v w d d' Sv Sw D|s p p'|s s' p p' As F|x p p'|r r' s s' p p' Er|n s s' p p'|t day s s' p p']; try constructor.
  assert (G : forall v d, stands_for v d -> between_num v = d) by (intros ? ? []; reflexivity). now rewrite (G v d Sv), (G w d' Sw).
Qed.
Lemma between_alike v w v' w' : alike_val O v v' -> alike_val O w w' ->
  match expr_between [v; w], expr_between [v'; w'] with Ok e, Ok e' => eqf e e' | Panic, Panic => True | _, _ => False end.
Proof.
  intros A B. pose proof (between_num_alike v v' A) as Na. pose proof (between_num_alike w w' B) as Nb. cbn.
  destruct A as [v v' d d' Sv Sw D|s p p'|s s' p p' As F|x p p'|r r' s s' p p' Er|n s s' p p'|t day s s' p p']; auto.
  - destruct Sv, Sw; now apply eqf_float.
  - destruct B as [v v' d d' Sv Sw D|? ? ?|? ? ? ? ? ?|? ? ?|? ? ? ? ? ? ?|? ? ? ? ?|? ? ? ? ? ?]; auto; [destruct Sv, Sw; auto|]. intros vs. reflexivity.
Qed.

Definition builds (t : node) : Prop := exists m, build O t = Ok m.
Definition den (t : node) (root : json) : res bool := bind (build O t) (fun m => ev O m root).

Lemma builds_and l r : builds (NAnd l r) <-> builds l /\ builds r.
Proof. unfold builds. cbn. destruct (build O l), (build O r); cbn; split; try (intros (m & E); discriminate); try (intros [(? & ?) (? & ?)]; discriminate); eauto. Qed.
Lemma builds_or l r : builds (NOr l r) <-> builds l /\ builds r.
Proof. unfold builds. cbn. destruct (build O l), (build O r); cbn; split; try (intros (m & E); discriminate); try (intros [(? & ?) (? & ?)]; discriminate); eauto. Qed.
Lemma builds_not e : builds (NNot e) <-> builds e.
Proof. unfold builds. cbn. destruct (build O e); cbn; split; try (intros (m & E); discriminate); eauto. Qed.
Lemma den_and l r j : builds l -> builds r -> den (NAnd l r) j = bind (den l j) (fun a => if a then den r j else Ok false).
Proof. intros (m & E) (m' & E'). unfold den. cbn. now rewrite E, E'. Qed.
Lemma den_or l r j : builds l -> builds r -> den (NOr l r) j = bind (den l j) (fun a => if a then Ok true else den r j).
Proof. intros (m & E) (m' & E'). unfold den. cbn. now rewrite E, E'. Qed.
Lemma den_not e j : builds e -> den (NNot e) j = bind (den e j) (fun a => Ok (negb a)).
Proof. intros (m & E). unfold den. cbn. now rewrite E. Qed.

Lemma builds_expr o f vs p : builds (NExpr o f vs p) <-> exists es, build_exprs O o vs = Ok es.
Proof. unfold builds. cbn. destruct (build_exprs O o vs); cbn; split; intros (? & E); try discriminate; eauto. Qed.
Lemma den_expr o f vs p es j : build_exprs O o vs = Ok es -> den (NExpr o f vs p) j = expr_result O f es j.
Proof. intros E. unfold den. cbn. now rewrite E. Qed.

Lemma expr_result_ext f es es' j : (forall vs, any_expr O es vs = any_expr O es' vs) -> expr_result O f es j = expr_result O f es' j.
Proof. intros E. unfold expr_result. destruct (get_field f j) as [[|v vs]|]; cbn; auto. Qed.

Definition same (t u : node) : Prop := (builds t <-> builds u) /\ (builds t -> forall j, den t j = den u j).

(** One comparison against another, given the expressions *)
Lemma same_expr o o' f vs ws p p' :
  match build_exprs O o vs, build_exprs O o' ws with
  | Ok es, Ok es' => forall js, any_expr O es js = any_expr O es' js
  | Panic, Panic => True
  | _, _ => False
  end -> same (NExpr o f vs p) (NExpr o' f ws p').
Proof.
  intros H. split.
  - rewrite !builds_expr. destruct (build_exprs O o vs), (build_exprs O o' ws); try contradiction; split; intros (? & E); try discriminate; eauto.
  - rewrite builds_expr. intros (es & E) j. rewrite E in H. destruct (build_exprs O o' ws) as [es'|] eqn:E'; [|contradiction].
    rewrite (den_expr _ _ _ _ _ _ E), (den_expr _ _ _ _ _ _ E'). now apply expr_result_ext.
Qed.
Lemma any_one e js : any_expr O [e] js = matches O e js.
Proof. cbn. destruct (matches O e js) as [[]|]; reflexivity. Qed.
Lemma same_one o o' f vs ws p p' e e' : build_exprs O o vs = Ok [e] -> build_exprs O o' ws = Ok [e'] -> eqf e e' -> same (NExpr o f vs p) (NExpr o' f ws p').
Proof. intros E E' Q. apply same_expr. rewrite E, E'. intros js. rewrite !any_one. apply Q. Qed.

Lemma same_list o f vs ws p p' : In o [EQ; SIM] -> covers O vs ws -> covers O ws vs -> same (NExpr o f vs p) (NExpr o f ws p').
Proof.
  intros Io C C'. apply same_expr. assert (Eb : forall l, build_exprs O o l = build_exprs O EQ l) by (destruct Io as [<-|[<-|[]]]; reflexivity). rewrite !Eb. destruct vs as [|v vs], ws as [|w ws].
  - exact Logic.I.
  - destruct (C' w (or_introl eq_refl)) as (? & [] & _).
  - destruct (C v (or_introl eq_refl)) as (? & [] & _).
  - destruct (list_alike _ _ [] C C') as (es & es' & E & E' & _); [discriminate..|]. rewrite E, E'. intros js.
    destruct (list_alike _ _ js C C') as (es1 & es1' & E1 & E1' & R); [discriminate..|]. congruence.
Qed.
Lemma forall2_covers vs ws : Forall2 (alike_val O) vs ws -> covers O vs ws.
Proof. intros F. induction F as [|v w vs ws A F IH]; [intros x []|]. intros x [<-|I]; [exists w; split; [now left|exact A]|]. destruct (IH x I) as (y & Iy & Ay). exists y. split; [now right|exact Ay]. Qed.
Lemma same_double_sym d d' : same_double d d' -> same_double d' d.
Proof. intros []; constructor. Qed.
Lemma alike_val_sym v w : alike_val O v w -> alike_val O w v.
Proof.
  intros []; try (now constructor).
  - eapply av_number; [eassumption..|]. now apply same_double_sym.
  - apply av_case.
    + destruct (case_ascii s s') as (_ & I2 & _); auto. unfold is_ascii in I2. rewrite forallb_forall in I2. apply Forall_forall. intros c Ic. specialize (I2 c Ic). lia.
    + clear H. induction H0 as [|c d s s' L F IH]; constructor; auto. destruct L as [->|[L|L]]; [now left|right; now right|right; now left].
Qed.
Lemma forall2_sym vs ws : Forall2 (alike_val O) vs ws -> Forall2 (alike_val O) ws vs.
Proof. induction 1; constructor; auto using alike_val_sym. Qed.

Lemma same_values o f vs ws p p' : Forall2 (alike_val O) vs ws -> same (NExpr o f vs p) (NExpr o f ws p').
Proof.
  intros F. assert (Eq : forall o', In o' [EQ; SIM] -> same (NExpr o' f vs p) (NExpr o' f ws p')) by (intros o' I; apply same_list; [exact I| |]; apply forall2_covers; auto using forall2_sym).
  assert (Num : forall o', In o' [LT; LTE; GT; GTE] -> same (NExpr o' f vs p) (NExpr o' f ws p')).
  { intros o' I. apply same_expr. assert (Eb : forall l, build_exprs O o' l = bind (expr_numeric o' l) (fun e => Ok [e])) by (destruct I as [<-|[<-|[<-|[<-|[]]]]]; reflexivity).
    rewrite !Eb. destruct F as [|v w vs ws A [|v' w' vs' ws' A' F]]; [exact Logic.I| |].
    - pose proof (numeric_alike o' v w A) as H. destruct (expr_numeric o' [v]), (expr_numeric o' [w]); cbn [bind]; try contradiction; auto. intros js. rewrite !any_one. apply H.
    - destruct v, w; exact Logic.I. }
  destruct o.
  all: try (apply Num; cbn; tauto).
  all: try (apply Eq; cbn; tauto).
  all: try (apply same_expr; cbn [build_exprs]; intros js; reflexivity).
  apply same_expr. cbn [build_exprs]. destruct F as [|v w vs ws A [|v' w' vs' ws' A' [|v'' w'' vs2 ws2 A'' F]]]; try exact Logic.I.
  pose proof (between_alike v v' w w' A A') as H. destruct (expr_between [v; v']), (expr_between [w; w']); cbn [bind]; try contradiction; auto. intros js. rewrite !any_one. apply H.
Qed.

Lemma same_split f vs ws p p' p'' : vs <> [] -> ws <> [] -> same (NExpr EQ f (vs ++ ws) p) (NOr (NExpr EQ f vs p') (NExpr EQ f ws p'')).
Proof.
  intros N N'. assert (N2 : vs ++ ws <> []) by (destruct vs; [congruence|discriminate]).
  assert (Bv : forall p, builds (NExpr EQ f vs p)) by (intros x; apply builds_expr; destruct (list_result vs [] N) as (es & a & E & _); eauto).
  assert (Bw : forall p, builds (NExpr EQ f ws p)) by (intros x; apply builds_expr; destruct (list_result ws [] N') as (es & a & E & _); eauto).
  assert (B2 : forall p, builds (NExpr EQ f (vs ++ ws) p)) by (intros x; apply builds_expr; destruct (list_result _ [] N2) as (es & a & E & _); eauto).
  split; [rewrite builds_or; split; auto|]. intros _ j. rewrite den_or by auto.
  specialize (Bv p'). specialize (Bw p''). specialize (B2 p). apply builds_expr in Bv as (es & E). apply builds_expr in Bw as (es' & E'). apply builds_expr in B2 as (es2 & E2).
  rewrite (den_expr _ _ _ _ _ _ E), (den_expr _ _ _ _ _ _ E'), (den_expr _ _ _ _ _ _ E2). unfold expr_result.
  destruct (get_field f j) as [[|v0 js0]|]; cbn [bind]; auto. set (js := v0 :: js0).
  destruct (list_result vs js N) as (? & a & X & A & H). destruct (list_result ws js N') as (? & a' & X' & A' & H'). destruct (list_result _ js N2) as (? & a2 & X2 & A2 & H2).
  rewrite E in X. rewrite E' in X'. rewrite E2 in X2. injection X as <-. injection X' as <-. injection X2 as <-. rewrite A, A', A2. cbn [bind].
  assert (Hb : a2 = a || a').
  { apply Bool.eq_iff_eq_true. rewrite orb_true_iff, H, H', H2. split.
    - intros (v & e & I & R). apply in_app_or in I as [I|I]; eauto.
    - intros [(v & e & I & R)|(v & e & I & R)]; exists v, e; (split; [apply in_or_app; auto|exact R]). }
  rewrite Hb. destruct a, a'; reflexivity.
Qed.

Lemma wrap_sub x y : wrap64 (wrap64 x - y) = wrap64 (x - y).
Proof.
  unfold wrap64. set (M := 18446744073709551616%Z). set (h := 9223372036854775808%Z).
  replace ((x + h) mod M - h - y + h)%Z with ((x + h) mod M - y)%Z by lia. replace (x - y + h)%Z with (x + h - y)%Z by lia. now rewrite Zminus_mod_idemp_l.
Qed.
Lemma same_day f t u s s1 s2 p p' p1 p2 d1 d2 : i_sec u = (i_sec t + 86399)%Z -> i_nsec t = 0%Z -> i_nsec u = 999999999%Z ->
  same (NExpr EQ f [ATime t true s p] p') (NExpr BET f [ATime t d1 s1 p1; ATime u d2 s2 p2] p').
Proof.
  intros E1 E2 E3. eapply same_one; [reflexivity|reflexivity|]. intros js.
  replace (unix_nano u) with (wrap64 (unix_nano (instant_add t 86400) - 1)); [reflexivity|].
  unfold unix_nano. rewrite wrap_sub. f_equal. unfold exact_nanos, instant_add. cbn [i_sec i_nsec]. rewrite E1, E2, E3. lia.
Qed.

(** ** Evaluation without panics *)
Lemma ev_plain t m j : plain_paths t -> build O t = Ok m -> exists a, ev O m j = Ok a.
Proof.
  intros P. revert m. induction P as [l r Pl IHl Pr IHr|l r Pl IHl Pr IHr|e Pe IHe|o f vs p Pf]; intros m B; cbn in B.
  - destruct (build O l) as [x|]; [|discriminate]. destruct (build O r) as [y|]; [|discriminate]. injection B as <-. cbn.
    destruct (IHl x eq_refl) as (a & ->). destruct (IHr y eq_refl) as (c & ->). destruct a; cbn; eauto.
  - destruct (build O l) as [x|]; [|discriminate]. destruct (build O r) as [y|]; [|discriminate]. injection B as <-. cbn.
    destruct (IHl x eq_refl) as (a & ->). destruct (IHr y eq_refl) as (c & ->). destruct a; cbn; eauto.
  - destruct (build O e) as [x|]; [|discriminate]. injection B as <-. cbn. destruct (IHe x eq_refl) as (a & ->). cbn. eauto.
  - destruct (build_exprs O o vs) as [es|] eqn:E; [|discriminate]. injection B as <-. cbn [ev]. unfold expr_result.
    destruct (get_field_safe f j) as (js & ->); [destruct f as [|[|c k] f]; cbn in *; auto; contradiction|]. cbn [bind]. destruct js as [|v js]; [eauto|]. set (xs := v :: js).
    assert (T : Forall (tame) es); [|destruct (any_expr_tame es xs T) as (a & -> & _); eauto].
    assert (Tf : forall o d e, In o [LT; LTE; GT; GTE; BET] -> tame (FFloat o d e)).
    { intros o' d e I vs'. cbn. apply any_res_tame. intros w. destruct (get_number_val O w); [|eauto]. destruct I as [<-|[<-|[<-|[<-|[<-|[]]]]]]; cbn; eauto. }
    assert (Td : forall o d e, In o [LT; LTE; GT; GTE; BET] -> tame (FDate o d e)).
    { intros o' d e I vs'. cbn. apply any_res_tame. intros w. destruct (get_datetime_val O w); [|eauto]. destruct I as [<-|[<-|[<-|[<-|[<-|[]]]]]]; cbn; eauto. }
    assert (Nu : forall o, In o [LT; LTE; GT; GTE] -> bind (expr_numeric o vs) (fun e => Ok [e]) = Ok es -> Forall (tame) es).
    { intros o' I. destruct vs as [|[] [|]]; cbn; try discriminate; intros [= <-]; repeat constructor; (apply Tf || apply Td); cbn in *; tauto. }
    assert (Qu : expr_eq O vs = Ok es -> Forall (tame) es).
    { intros X. destruct (eq_matchers_all vs) as (es' & E' & _ & T). unfold expr_eq in X. destruct vs; [discriminate|]. replace es with es' by congruence. exact T. }
    destruct o; cbn [build_exprs] in E; try (refine (Nu _ _ E); cbn; tauto); try exact (Qu E).
    all: try (injection E as <-; apply Forall_cons; [intros ?; cbn; eauto|apply Forall_nil]; fail).
    destruct vs as [|v1 [|v2 [|]]]; cbn in E; try discriminate. destruct v1; cbn in E; try discriminate.
      1-2: injection E as <-; repeat constructor; apply Tf; cbn; tauto.
      destruct v2; cbn in E; try discriminate. injection E as <-. repeat constructor. apply Td. cbn. tauto.
Qed.
Lemma den_plain t j : plain_paths t -> builds t -> exists a, den t j = Ok a.
Proof. intros P (m & B). unfold den. rewrite B. cbn. exact (ev_plain t m j P B). Qed.

(** ** Trees *)
Theorem alike_same t u : alike O t u -> same t u.
Proof.
  intros A. induction A.
  - split; [tauto|auto].
  - destruct IHA as [B D]. split; [tauto|]. intros Bt j. symmetry. apply D. tauto.
  - destruct IHA1 as [B1 D1], IHA2 as [B2 D2]. split; [tauto|]. intros Bt j. rewrite D1 by exact Bt. apply D2. tauto.
  - destruct IHA1 as [B1 D1], IHA2 as [B2 D2]. split; [rewrite !builds_and; tauto|]. rewrite builds_and. intros [X Y] j. rewrite !den_and by tauto. now rewrite D1, D2.
  - destruct IHA1 as [B1 D1], IHA2 as [B2 D2]. split; [rewrite !builds_or; tauto|]. rewrite builds_or. intros [X Y] j. rewrite !den_or by tauto. now rewrite D1, D2.
  - destruct IHA as [B D]. split; [rewrite !builds_not; tauto|]. rewrite builds_not. intros X j. rewrite !den_not by tauto. now rewrite D.
  - now apply same_values.
  - apply same_list; auto. cbn. tauto.
  - apply same_expr. cbn. destruct (expr_eq O vs); auto.
  - now apply same_split.
  - apply same_expr. cbn [build_exprs]. intros js. reflexivity.
  - now apply same_day.
  - split; [rewrite !builds_not; tauto|]. rewrite !builds_not. intros X j. rewrite !den_not by (rewrite ?builds_not; tauto). destruct (den t j) as [[]|]; reflexivity.
  - split; [rewrite !builds_and; tauto|]. rewrite !builds_and. intros X j. rewrite !den_and by (rewrite ?builds_and; tauto). destruct (den t j) as [[]|]; reflexivity.
  - split; [rewrite !builds_or; tauto|]. rewrite !builds_or. intros X j. rewrite !den_or by (rewrite ?builds_or; tauto). destruct (den t j) as [[]|]; reflexivity.
  - split; [rewrite !builds_and; tauto|]. rewrite !builds_and. intros X j. rewrite !den_and by tauto. destruct (den t j) as [[]|]; reflexivity.
  - split; [rewrite !builds_or; tauto|]. rewrite !builds_or. intros X j. rewrite !den_or by tauto. destruct (den t j) as [[]|]; reflexivity.
  - split; [rewrite !builds_or, !builds_not, builds_and; tauto|]. rewrite builds_not, builds_and. intros X j.
    rewrite den_not, den_and, den_or, !den_not by (rewrite ?builds_not, ?builds_and; tauto). destruct (den t j) as [[]|]; cbn; try reflexivity; destruct (den u j) as [[]|]; reflexivity.
  - split; [rewrite !builds_or, !builds_and, builds_or; tauto|]. rewrite builds_and, builds_or. intros X j.
    rewrite den_and, !den_or, !den_and by (rewrite ?builds_or, ?builds_and; tauto). destruct (den t j) as [[]|]; cbn; try reflexivity; destruct (den u j) as [[]|]; cbn; try reflexivity; destruct (den v j) as [[]|]; reflexivity.
  - split; [rewrite !builds_and, !builds_or, builds_and; tauto|]. rewrite builds_or, builds_and. intros X j.
    rewrite den_or, !den_and, !den_or by (rewrite ?builds_or, ?builds_and; tauto). destruct (den t j) as [[]|]; cbn; try reflexivity; destruct (den u j) as [[]|]; cbn; try reflexivity; destruct (den v j) as [[]|]; reflexivity.
  - split; [rewrite !builds_and; tauto|]. rewrite !builds_and. intros [X Y] j. rewrite !den_and by tauto.
    destruct (den_plain t j) as (a & Ea), (den_plain u j) as (c & Ec); auto. rewrite Ea, Ec. destruct a, c; reflexivity.
  - split; [rewrite !builds_or; tauto|]. rewrite !builds_or. intros [X Y] j. rewrite !den_or by tauto.
    destruct (den_plain t j) as (a & Ea), (den_plain u j) as (c & Ec); auto. rewrite Ea, Ec. destruct a, c; reflexivity.
Qed.
End WithOracles.
