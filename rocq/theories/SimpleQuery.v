(** Queries of one comparison on the field a. *)
From Verif Require Import Bytes Utf8 Utf8Proofs GoStrconv Oracles Ast AstSpec GrammarSpec GrammarFacts PegSyntax Engine ParserTop ParseQuery Prop_Grammar LiteralSpec LiteralProofs.
From Coq Require Import ZifyBool ZifyN ZifyNat.

Section S.
Context (O : oracles).

Lemma field_a : field (tx "a") [b "a"].
Proof.
  exists [b "a"]. split; [|reflexivity]. apply pcs_one. change (b "a") with (encode (tx "a")). apply pc_plain; [|discriminate].
  constructor; [left; cbn; lia|constructor].
Qed.
Lemma checked_eq1 f v p : checked O (NExpr EQ f [v] p).
Proof.
  intros o f' vs p' S. inversion S; subst. split; [discriminate|]. split; [|discriminate]. split.
  - intros i j x y Hi Hj _. destruct i as [|[|]], j as [|[|]]; cbn in *; congruence.
  - intros _ (x & [<-|[]] & E1) (y & [<-|[]] & E2). rewrite E1 in E2. discriminate.
Qed.
Lemma checked_exs f p : checked O (NExpr EXS f [] p).
Proof.
  intros o f' vs p' S. inversion S; subst. split; [reflexivity|]. split; [|discriminate].
  split; [intros [|i] j v w E; discriminate|discriminate].
Qed.

Lemma accept_one f l t v : field f l -> scalars f -> scalars t -> literal O t (pos_of (f ++ tx ":") t) v ->
  parse_plain O (encode (f ++ tx ":" ++ t)) = QOk (NExpr EQ l [v] (pos_of [] (f ++ tx ":" ++ t))).
Proof.
  intros F Sf St L. apply C03_language. exists (f ++ tx ":" ++ t). split; [|split; [auto|split; [|apply checked_eq1]]].
  - repeat (apply Forall_app; split; auto). repeat constructor.
  - exists [], (f ++ tx ":" ++ t), []. rewrite app_nil_r. split; auto. split; [constructor|]. split; [constructor|].
    apply d_or1, d_and1, d_not1.
    change (f ++ tx ":" ++ t) with (f ++ [] ++ tx ":" ++ [] ++ [] ++ [] ++ t).
    apply d_values with (o := EQ); try (constructor; fail); auto. apply vs_one. exact L.
Qed.
Lemma accept_exists f l : field f l -> scalars f ->
  parse_plain O (encode (f ++ tx ":exists")) = QOk (NExpr EXS l [] (pos_of [] (f ++ tx ":exists"))).
Proof.
  intros F Sf. apply C03_language. exists (f ++ tx ":exists"). split; [|split; [auto|split; [|apply checked_exs]]].
  - apply Forall_app; split; auto. repeat constructor.
  - exists [], (f ++ tx ":exists"), []. rewrite app_nil_r. split; auto. split; [constructor|]. split; [constructor|].
    apply d_or1, d_and1, d_not1.
    change (f ++ tx ":exists") with (f ++ [] ++ tx ":" ++ [] ++ tx "exists").
    apply d_noarg; auto; constructor.
Qed.

(** Texts without white space and parentheses. *)
Definition plain (c : N) : Prop := ~ ws_char c /\ c <> 40.
Lemma plain_nows w : Forall plain w -> ws w -> w = [].
Proof. intros P W. destruct w as [|c w]; auto. inversion P; inversion W; subst. unfold plain in *. tauto. Qed.
Lemma plain_no40 t : ~ Forall plain (tx "(" ++ t).
Proof. intros P. inversion P as [|? ? H]; subst. destruct H as [_ H]. now apply H. Qed.

Lemma derives_plain l pre t x : derives O l pre t x -> Forall plain t -> hd 0 t <> 33 ->
  exists o f vs, x = NExpr o f vs (pos_of pre t) /\ comparison O pre t o f vs.
Proof.
  induction 1 as [pre a w1 w2 c x y W1 W2 D1 IH1 D2 IH2|pre a x D IH|pre a w1 w2 c x y W1 W2 D1 IH1 D2 IH2|pre a x D IH|pre n a x Nt D IH|pre a x D IH|
    pre w1 w2 a x W1 W2 D IH|pre f l w1 w2 k o F W1 W2 K t|pre f l w1 w2 k o w3 v vs F W1 W2 K W3 V t]; intros P H.
  - exfalso. rewrite !Forall_app in P. destruct W1 as [W1 N1]. apply N1. apply plain_nows; tauto.
  - auto.
  - exfalso. rewrite !Forall_app in P. destruct W1 as [W1 N1]. apply N1. apply plain_nows; tauto.
  - auto.
  - exfalso. destruct Nt as [w [W Nw]|w W].
    + rewrite !Forall_app in P. apply Nw. apply plain_nows; tauto.
    + apply H. reflexivity.
  - auto.
  - exfalso. now apply plain_no40 in P.
  - do 3 eexists. split; [reflexivity|]. now apply cmp_noarg.
  - do 3 eexists. split; [reflexivity|]. now apply cmp_values.
Qed.

Lemma name58 : ~ name_char 58.
Proof. unfold name_char, digit. lia. Qed.
Lemma field_a_inv f l r s : field f l -> f ++ 58 :: r = 97 :: 58 :: s -> f = tx "a" /\ l = [b "a"] /\ r = s.
Proof.
  intros (l0 & P & ->) E.
  assert (Q : forall t x, piece t x -> forall r', t ++ r' = 97 :: 58 :: s -> t = [97] /\ x = b "a" /\ r' = 58 :: s).
  { intros t x C r' E'. destruct C as [t x (u & -> & _) _|t N Nt|]; cbn in E'; try discriminate.
    destruct t as [|c [|d t]]; [congruence| |].
    - cbn in E'. injection E' as -> ->. repeat split.
    - cbn in E'. injection E' as -> -> _. inversion N as [|? ? _ N']; inversion N' as [|? ? N'' _]; subst. now apply name58 in N''. }
  destruct P as [t x C|t x u l C D].
  - destruct (Q t x C (58 :: r) E) as (-> & -> & [= ->]). repeat split; reflexivity.
  - rewrite <- app_assoc in E. destruct (Q t x C _ E) as (_ & _ & E'). cbn in E'. discriminate.
Qed.

(** A comparison a:t with a plain text t. *)
Lemma query_a_inv t x : Forall plain t -> query O (tx "a:" ++ t) x ->
  (exists o p, noarg_op t o /\ x = NExpr o [b "a"] [] p) \/
  (exists k v o vs p, t = k ++ v /\ comp_op k o /\ literal O v (pos_of (tx "a:" ++ k) v) vs /\ x = NExpr o [b "a"] [vs] p).
Proof.
  intros P (w1 & a & w2 & E & W1 & W2 & D).
  assert (PT : Forall plain (tx "a:" ++ t)).
  { apply Forall_app. split; auto. repeat constructor; unfold ws_char; try (cbn; lia). }
  rewrite E, !Forall_app in PT. destruct PT as (P1 & Pa & P2). apply plain_nows in P1, P2; auto. subst w1 w2. cbn [app] in E. rewrite app_nil_r in E.
  subst a. destruct (derives_plain _ _ _ _ D Pa) as (o & f & vs & -> & C); [cbn; lia|].
  remember (tx "a:" ++ t) as at_ eqn:Ea.
  destruct C as [f l w1 w2 k o F V1 V2 K|f l w1 w2 k o w3 v vs F V1 V2 K V3 V].
  - rewrite !Forall_app in Pa. destruct Pa as (_ & Q1 & _ & Q2 & _). apply plain_nows in Q1, Q2; auto. subst w1 w2.
    cbn [app] in Ea. destruct (field_a_inv _ _ _ _ F Ea) as (-> & -> & ->). left. eauto.
  - rewrite !Forall_app in Pa. destruct Pa as (_ & Q1 & _ & Q2 & _ & Q3 & Qv). apply plain_nows in Q1, Q2, Q3; auto. subst w1 w2 w3.
    cbn [app] in Ea. destruct (field_a_inv _ _ _ _ F Ea) as (-> & -> & <-). right.
    cbn [app] in V. rewrite app_nil_r in V. inversion V as [? ? y L|? u1 t' y u vs' u2 U1 U2 L M]; subst.
    + exists k, v, o, y, (pos_of [] (tx "a" ++ [] ++ tx ":" ++ [] ++ k ++ [] ++ v)). repeat split; auto.
    + exfalso. now apply plain_no40 in Qv.
Qed.
Lemma parse_a_inv t x : Forall plain t -> scalars t -> parse_plain O (encode (tx "a:" ++ t)) = QOk x ->
  (exists o p, noarg_op t o /\ x = NExpr o [b "a"] [] p) \/
  (exists k v o vs p, t = k ++ v /\ comp_op k o /\ literal O v (pos_of (tx "a:" ++ k) v) vs /\ x = NExpr o [b "a"] [vs] p).
Proof.
  intros P S H. apply C03_language in H as (rs & Hs & E & Q & _). apply encode_inj in E; auto.
  - subst rs. now apply query_a_inv.
  - apply Forall_app. split; auto. repeat constructor.
Qed.
Lemma comp_op_hd k o v c : comp_op k o -> hd 0 (k ++ v) = c -> c <> 60 -> c <> 62 -> c <> 126 -> k = [] /\ o = EQ.
Proof. destruct 1; cbn; intros; try congruence; auto. Qed.
Lemma noarg_hd k o : noarg_op k o -> hd 0 k = 101 \/ hd 0 k = 110.
Proof. destruct 1; auto. Qed.
(** A literal that starts with a digit or a minus sign. *)
Lemma parse_a_number t x : Forall plain t -> scalars t -> (hd 0 t = 45 \/ digit (hd 0 t)) -> parse_plain O (encode (tx "a:" ++ t)) = QOk x ->
  exists v p, literal O t (pos_of (tx "a:") t) v /\ x = NExpr EQ [b "a"] [v] p.
Proof.
  intros P S H Q. apply parse_a_inv in Q as [(o & p & N & _)|(k & v & o & vs & p & -> & K & L & ->)]; auto.
  - apply noarg_hd in N. unfold digit in H. lia.
  - destruct (comp_op_hd k o v _ K eq_refl) as [-> ->]; try (unfold digit in H; lia). eauto.
Qed.
End S.

(** ** The kind of a literal by its first character *)
Lemma literal_quote O t p v : literal O t p v -> hd 0 t = 34 -> exists s, quoted t /\ unquote (encode t) = Some s /\ v = AStr s p.
Proof.
  intros L H0.
  inversion L as [t' s' p1 Q' U'|t' v' p1 R N|t' v' p1 R N|t' v' p1 R N|t' v' p1 R N|t' v' p1 R N|p1 E1|p1 E1]; subst p1; try subst t'; eauto; exfalso.
  - apply regex_hd in R. lia.
  - destruct R as [(d & s & x & E & Dd & _)|Dd].
    + pose proof (date_prefix_hd d (s ++ x) Dd) as H. rewrite <- E, H0 in H. unfold digit in H. lia.
    + pose proof (date_prefix_hd t [] Dd) as H. rewrite app_nil_r, H0 in H. unfold digit in H. lia.
  - destruct R as (o1 & o2 & o3 & o4 & m & E & [O1 _] & _). pose proof (digits1_hd o1 (tx "." ++ o2 ++ tx "." ++ o3 ++ tx "." ++ o4 ++ m) O1) as H.
    rewrite <- E, H0 in H. unfold digit in H. lia.
  - destruct R as (s & d & e & E & [->| ->] & Dd & _); [|rewrite E in H0; discriminate].
    pose proof (digits1_hd d (tx "." ++ e) Dd) as H. cbn [app] in E. rewrite <- E, H0 in H. unfold digit in H. lia.
  - apply int_lit_cases in R as [(d & E & _)|[_ (c & d & E & Hc)]]; rewrite E in H0; cbn in H0; [discriminate|]. subst c. unfold digit in Hc. lia.
  - subst. discriminate.
  - subst. discriminate.
Qed.
Lemma literal_slash O t p v : literal O t p v -> hd 0 t = 47 -> regex_lit t /\ new_regexp_val O (Actions.unescape_slash (encode t)) p = Some v.
Proof.
  intros L H0.
  inversion L as [t' s' p1 Q' U'|t' v' p1 R N|t' v' p1 R N|t' v' p1 R N|t' v' p1 R N|t' v' p1 R N|p1 E1|p1 E1]; subst p1; try subst t'; eauto; exfalso.
  - apply quoted_hd in Q'. lia.
  - destruct R as [(d & s & x & E & Dd & _)|Dd].
    + pose proof (date_prefix_hd d (s ++ x) Dd) as H. rewrite <- E, H0 in H. unfold digit in H. lia.
    + pose proof (date_prefix_hd t [] Dd) as H. rewrite app_nil_r, H0 in H. unfold digit in H. lia.
  - destruct R as (o1 & o2 & o3 & o4 & m & E & [O1 _] & _). pose proof (digits1_hd o1 (tx "." ++ o2 ++ tx "." ++ o3 ++ tx "." ++ o4 ++ m) O1) as H.
    rewrite <- E, H0 in H. unfold digit in H. lia.
  - destruct R as (s & d & e & E & [->| ->] & Dd & _); [|rewrite E in H0; discriminate].
    pose proof (digits1_hd d (tx "." ++ e) Dd) as H. cbn [app] in E. rewrite <- E, H0 in H. unfold digit in H. lia.
  - apply int_lit_cases in R as [(d & E & _)|[_ (c & d & E & Hc)]]; rewrite E in H0; cbn in H0; [discriminate|]. subst c. unfold digit in Hc. lia.
  - subst. discriminate.
  - subst. discriminate.
Qed.
