(** The recognisers of Lexer.v against the token definitions of GrammarSpec.v. *)
From Verif Require Import Bytes Utf8 Utf8Proofs Oracles Ast PegSyntax Grammar Actions Engine EngineBasics CleanEval Lexer GrammarSpec.
From Coq Require Import ZifyBool ZifyN ZifyNat.

Definition lang := list N -> Prop.

(** [tok g L F]: what [g] splits off is in [L], and a word of [L] followed by a text in [F]
    is split off. *)
Definition tok (g : scanner) (L F : lang) : Prop :=
  (forall rs t r, g rs = Some (t, r) -> rs = t ++ r /\ L t) /\
  (forall t r, L t -> F r -> g (t ++ r) = Some (t, r)).
Definition cat (L1 L2 : lang) : lang := fun t => exists x y, t = x ++ y /\ L1 x /\ L2 y.
Definition any : lang := fun _ => True.

Lemma tok_equiv g (L L' F F' : lang) : tok g L F -> (forall t, L t <-> L' t) -> (forall r, F' r -> F r) -> tok g L' F'.
Proof. intros [H1 H2] E EF. split; [intros rs t r H; apply H1 in H; rewrite <- E; auto|intros t r Ht Hr; apply H2; [now apply E|auto]]. Qed.

Lemma tok_ext g g' L F : (forall rs, g rs = g' rs) -> tok g L F -> tok g' L F.
Proof. intros E [H1 H2]. split; intros; rewrite <- E in *; auto. Qed.

Lemma tok_nil f (F : lang) : tok (sseq f []) (fun t => t = []) F.
Proof. split; [intros rs t r [= <- <-]; auto|intros t r -> _; reflexivity]. Qed.

Lemma tok_cons f e es (L1 F1 L2 F2 : lang) : tok (f e) L1 F1 -> tok (sseq f es) L2 F2 ->
  (forall t r, L2 t -> F2 r -> F1 (t ++ r)) -> tok (sseq f (e :: es)) (cat L1 L2) F2.
Proof.
  intros [A1 A2] [B1 B2] C. split.
  - intros rs t r. cbn [sseq]. destruct (f e rs) as [[t1 r1]|] eqn:E1; [|discriminate].
    destruct (A1 _ _ _ E1) as [-> H1].
    fold (sseq f es). destruct (sseq f es r1) as [[t2 r2]|] eqn:E2; [|discriminate].
    destruct (B1 _ _ _ E2) as [-> H2].
    intros [= <- <-]. rewrite app_assoc. split; auto. exists t1, t2. auto.
  - intros t r (x & y & -> & Hx & Hy) Hr. cbn [sseq]. rewrite <- app_assoc, A2 by auto.
    now rewrite B2.
Qed.

Lemma tok_choice2 f e1 e2 (L1 L2 F1 F2 F : lang) : tok (f e1) L1 F1 -> tok (f e2) L2 F2 ->
  (forall r, F r -> F1 r) -> (forall r, F r -> F2 r) ->
  (forall t r t' r', L2 t -> F r -> L1 t' -> t ++ r = t' ++ r' -> t = t') ->
  tok (schoice f [e1; e2]) (fun t => L1 t \/ L2 t) F.
Proof.
  intros [A1 A2] [B1 B2] HF1 HF2 C. split.
  - intros rs t r. cbn [schoice]. destruct (f e1 rs) as [[t1 r1]|] eqn:E1.
    + intros [= <- <-]. apply A1 in E1 as []. auto.
    + destruct (f e2 rs) as [[t2 r2]|] eqn:E2; [|discriminate]. intros [= <- <-]. apply B1 in E2 as []. auto.
  - intros t r [Ht|Ht] Hr; cbn [schoice].
    + now rewrite A2 by auto.
    + destruct (f e1 (t ++ r)) as [[t1 r1]|] eqn:E1.
      * destruct (A1 _ _ _ E1) as [E H1]. assert (t = t1) by (eapply C; eauto). subst t1.
        apply app_inv_head in E. now subst.
      * now rewrite B2 by auto.
Qed.

Lemma tok_lit w : tok (slit false w) (fun t => t = w) any.
Proof.
  split.
  - induction w as [|x w IH]; cbn [slit]; intros rs t r; [intros [= <- <-]; auto|].
    destruct rs as [|y rs]; [discriminate|]. destruct (N.eqb_spec y x) as [->|]; [|discriminate].
    destruct (slit false w rs) as [[t' r']|] eqn:E; [|discriminate]. intros [= <- <-].
    destruct (IH _ _ _ E) as [-> ->]. auto.
  - intros t r -> _. induction w as [|x w IH]; cbn [slit app]; [reflexivity|].
    rewrite N.eqb_refl, IH. reflexivity.
Qed.

(** Maximal runs. *)
Fixpoint span (p : N -> bool) (rs : list N) : list N * list N :=
  match rs with
  | x :: r => if p x then let (a, t) := span p r in (x :: a, t) else ([], rs)
  | [] => ([], [])
  end.
Definition noh (p : N -> bool) : lang := fun r => match r with x :: _ => p x = false | [] => True end.

Lemma span_spec p rs : rs = fst (span p rs) ++ snd (span p rs) /\ Forall (fun x => p x = true) (fst (span p rs)) /\ noh p (snd (span p rs)).
Proof.
  induction rs as [|x r IH]; cbn; [repeat split; constructor|].
  destruct (p x) eqn:E; [|cbn; auto]. destruct (span p r) as [a t]; cbn in *.
  destruct IH as (-> & H1 & H2). repeat split; auto.
Qed.
Lemma span_app p t r : Forall (fun x => p x = true) t -> noh p r -> span p (t ++ r) = (t, r).
Proof.
  induction 1 as [|x t Hx _ IH]; intros Hr; cbn.
  - destruct r as [|y r]; [reflexivity|]. cbn in *. now rewrite Hr.
  - now rewrite Hx, IH.
Qed.
(** Two runs of digits that are both maximal are equal. *)
Lemma span_unique p t r t' r' : Forall (fun x => p x = true) t -> Forall (fun x => p x = true) t' ->
  noh p r -> noh p r' -> t ++ r = t' ++ r' -> t = t' /\ r = r'.
Proof.
  intros A B C D E. assert (X : span p (t ++ r) = span p (t' ++ r')) by now rewrite E.
  rewrite !span_app in X by auto. now injection X.
Qed.

Definition class_scan (p : N -> bool) : scanner := fun rs => match rs with [] => None | x :: r => if p x then Some ([x], r) else None end.

Lemma sstar_span g p : (forall rs, g rs = class_scan p rs) -> forall k rs, (length rs < k)%nat -> sstar g k rs = Some (span p rs).
Proof.
  intros Hg. induction k as [|k IH]; intros rs Hk; [lia|]. cbn [sstar]. rewrite Hg. destruct rs as [|x r]; cbn; [reflexivity|].
  destruct (p x); [|reflexivity]. rewrite IH by (cbn in Hk; lia). destruct (span p r); reflexivity.
Qed.

Lemma tok_star_class k e p : (forall rs, sc k e rs = class_scan p rs) ->
  tok (sc (S k) (EStar e)) (Forall (fun x => p x = true)) (noh p).
Proof.
  intros Hg. split.
  - intros rs t r. cbn [sc]. rewrite (sstar_span _ p Hg) by lia. intros [= H].
    pose proof (span_spec p rs) as (S1 & S2 & _). rewrite H in *. auto.
  - intros t r Ht Hr. cbn [sc]. rewrite (sstar_span _ p Hg) by lia. f_equal. now apply span_app.
Qed.

Lemma tok_plus_class k e p : (forall rs, sc k e rs = class_scan p rs) ->
  tok (sc (S k) (EPlus e)) (fun t => Forall (fun x => p x = true) t /\ t <> []) (noh p).
Proof.
  intros Hg. split.
  - intros rs t r. cbn [sc]. rewrite (sstar_span _ p Hg) by lia.
    pose proof (span_spec p rs) as (S1 & S2 & _). destruct (span p rs) as [[|x a] y]; [discriminate|]. intros [= <- <-].
    repeat split; auto. discriminate.
  - intros t r [Ht Hn] Hr. cbn [sc]. rewrite (sstar_span _ p Hg) by lia. rewrite span_app by auto.
    destruct t; [congruence|reflexivity].
Qed.

Lemma tok_class g p : (forall rs, g rs = class_scan p rs) -> tok g (fun t => exists x, t = [x] /\ p x = true) any.
Proof.
  intros Hg. split.
  - intros rs t r. rewrite Hg. destruct rs as [|x rs]; cbn; [discriminate|]. destruct (p x) eqn:E; [|discriminate].
    intros [= <- <-]. split; eauto.
  - intros t r (x & -> & Hx) _. rewrite Hg. cbn. now rewrite Hx.
Qed.

Lemma tok_opt k e (L F F0 : lang) : tok (sc k e) L F -> (forall r, F0 r -> F r) ->
  (forall r, F0 r -> sc k e r = None) -> tok (sc (S k) (EOpt e)) (fun t => t = [] \/ L t) F0.
Proof.
  intros [A1 A2] C D. split.
  - intros rs t r. cbn [sc]. destruct (sc k e rs) as [[t1 r1]|] eqn:E.
    + intros [= <- <-]. apply A1 in E as []. auto.
    + intros [= <- <-]. auto.
  - intros t r [->|Ht] Hr; cbn [sc].
    + cbn [app]. now rewrite D.
    + now rewrite A2 by auto.
Qed.

Lemma tok_rule k r L F : tok (sc k (rules r)) L F -> tok (sc (S k) (ERule r)) L F.
Proof. intros H. exact H. Qed.
Lemma tok_seq k es L F : tok (sseq (sc k) es) L F -> tok (sc (S k) (ESeq es)) L F.
Proof. intros H. exact H. Qed.
Lemma tok_choice k es L F : tok (schoice (sc k) es) L F -> tok (sc (S k) (EChoice es)) L F.
Proof. intros H. exact H. Qed.

(** ** Characters *)
Definition is_dig (x : N) : bool := (48 <=? x) && (x <=? 57).
Definition is_ws (x : N) : bool := (x =? 32) || (x =? 10) || (x =? 9) || (x =? 13).
Definition EDig := EClass "[0-9]"%string [] [(48, 57)] false false.

Lemma is_dig_spec x : is_dig x = true <-> digit x.
Proof. unfold is_dig, digit. lia. Qed.
Lemma is_ws_spec x : is_ws x = true <-> ws_char x.
Proof. unfold is_ws, ws_char. lia. Qed.
Lemma digs_spec t : Forall (fun x => is_dig x = true) t <-> digits t.
Proof. unfold digits. rewrite !Forall_forall. setoid_rewrite is_dig_spec. tauto. Qed.
Lemma wss_spec t : Forall (fun x => is_ws x = true) t <-> ws t.
Proof. unfold ws. rewrite !Forall_forall. setoid_rewrite is_ws_spec. tauto. Qed.

Lemma class_dig k rs : sc (S k) EDig rs = class_scan is_dig rs.
Proof. destruct rs as [|x r]; [reflexivity|]. cbn. unfold is_dig. rewrite orb_false_r. destruct (_ && _); reflexivity. Qed.
Lemma class_ws k rs : sc (S k) (EClass "[ \n\t\r]"%string [32; 10; 9; 13] [] false false) rs = class_scan is_ws rs.
Proof.
  destruct rs as [|x r]; [reflexivity|]. cbn [sc class_scan]. unfold is_ws.
  replace (xorb false _) with ((x =? 32) || (x =? 10) || (x =? 9) || (x =? 13)); [reflexivity|].
  unfold in_class. cbn [existsb]. rewrite xorb_false_l, !orb_false_r, !orb_assoc. rewrite (N.eqb_sym x 32), (N.eqb_sym x 10), (N.eqb_sym x 9), (N.eqb_sym x 13). reflexivity.
Qed.

Definition nodig : lang := noh is_dig.
Definition nows : lang := noh is_ws.
Definition nohd (c : N) : lang := fun r => match r with x :: _ => x <> c | [] => True end.

Lemma tok_ws k : tok (sc (S (S (S k))) (ERule R_ws)) ws nows.
Proof.
  apply tok_rule. eapply tok_equiv; [apply (tok_star_class (S k) _ is_ws (class_ws k))|apply wss_spec|auto].
Qed.
Lemma tok_space k : tok (sc (S (S (S k))) (ERule Rspace)) ws1 nows.
Proof.
  apply tok_rule. eapply tok_equiv; [apply (tok_plus_class (S k) _ is_ws (class_ws k))| |auto].
  intros t. cbn. rewrite wss_spec. reflexivity.
Qed.

Lemma tok_digits1 k : tok (sc (S (S k)) (EPlus EDig)) digits1 nodig.
Proof.
  eapply tok_equiv; [apply (tok_plus_class (S k) _ is_dig (class_dig k))| |auto].
  intros t. cbn. rewrite digs_spec. reflexivity.
Qed.
Lemma tok_dig k : tok (sc (S k) EDig) (ndigits 1) any.
Proof.
  eapply tok_equiv; [apply (tok_class _ is_dig (class_dig k))| |auto].
  intros t. split.
  - intros (x & -> & H). apply is_dig_spec in H. split; [constructor; auto; constructor|reflexivity].
  - intros [H1 H2]. destruct t as [|x [|]]; try discriminate. exists x. split; auto. apply is_dig_spec. now inversion H1.
Qed.

Lemma ndigits0 t : t = [] <-> ndigits 0 t.
Proof. split; [intros ->; split; [constructor|reflexivity]|intros [_ H]; now destruct t]. Qed.

Lemma tok_seq_digs k n es (L F : lang) : tok (sseq (sc (S k)) es) L F ->
  tok (sseq (sc (S k)) (repeat EDig n ++ es)) (cat (ndigits n) L) F.
Proof.
  intros H. induction n as [|n IH]; cbn [repeat app].
  - eapply tok_equiv; [exact H| |auto]. intros t. split; [intros; exists [], t; repeat split; auto; constructor|].
    intros (x & y & -> & Hx & Hy). apply ndigits0 in Hx. now subst.
  - eapply tok_equiv; [eapply tok_cons; [apply tok_dig|exact IH|unfold any; auto]| |auto].
    intros t. split.
    + intros (x & y & -> & Hx & y1 & y2 & -> & Hy & Hz). exists (x ++ y1), y2. rewrite app_assoc. repeat split; auto.
      * destruct Hx, Hy. apply Forall_app; auto.
      * destruct Hx, Hy. rewrite app_length. lia.
    + intros (x & y & -> & [Hx1 Hx2] & Hy). destruct x as [|c x]; [discriminate|]. inversion Hx1; subst.
      exists [c], (x ++ y). split; auto. split; [split; [constructor; auto; constructor|reflexivity]|].
      exists x, y. split; auto. split; [|auto]. split; auto.
Qed.

Lemma cat_nil_r L t : cat L (fun t => t = []) t <-> L t.
Proof.
  split; [intros (x & y & -> & H & ->); now rewrite app_nil_r|].
  intros H. exists t, []. now rewrite app_nil_r.
Qed.
Lemma cat_nil_e L t : cat L (fun t => t = []) t -> L t.
Proof. intros H. now apply cat_nil_r. Qed.
Lemma cat_intro (L1 L2 : lang) x y : L1 x -> L2 y -> cat L1 L2 (x ++ y).
Proof. intros. exists x, y. auto. Qed.

Lemma tok_digit2 k : tok (sc (S (S (S k))) (ERule RDigit2)) (ndigits 2) any.
Proof.
  apply tok_rule, tok_seq. change (tok (sseq (sc (S k)) (repeat EDig 2 ++ [])) (ndigits 2) any).
  eapply tok_equiv; [apply tok_seq_digs, (tok_nil _ any)|apply cat_nil_r|auto].
Qed.
Lemma tok_digit4 k : tok (sc (S (S (S k))) (ERule RDigit4)) (ndigits 4) any.
Proof.
  apply tok_rule, tok_seq. change (tok (sseq (sc (S k)) (repeat EDig 4 ++ [])) (ndigits 4) any).
  eapply tok_equiv; [apply tok_seq_digs, (tok_nil _ any)|apply cat_nil_r|auto].
Qed.

Lemma tok_elit k w s : tok (sc (S k) (ELit w false s)) (fun t => t = w) any.
Proof. apply tok_lit. Qed.

Ltac lc := eapply tok_cons; [apply tok_elit| |unfold any; auto].

Lemma tok_fullDate k : tok (sc (S (S (S (S (S (S k)))))) (ERule RfullDate)) date_lit any.
Proof.
  apply tok_rule, tok_seq.
  eapply tok_equiv.
  - eapply tok_cons; [apply tok_rule, (tok_digit4 k)| |unfold any; auto]. lc.
    eapply tok_cons; [apply tok_rule, (tok_digit2 k)| |unfold any; auto]. lc.
    eapply tok_cons; [apply tok_rule, (tok_digit2 k)|apply (tok_nil _ any)|unfold any; auto].
  - intros t. unfold date_lit. split.
    + intros (y & t1 & -> & Hy & s1 & t2 & -> & -> & m & t3 & -> & Hm & s2 & t4 & -> & -> & d & t5 & -> & Hd & ->).
      exists y, m, d. rewrite app_nil_r. auto.
    + intros (y & m & d & -> & Hy & Hm & Hd). repeat (apply cat_intro; auto). now apply cat_nil_r.
  - auto.
Qed.

(** First characters *)
Lemma digit_noh d : digit d -> is_dig d = true. Proof. apply is_dig_spec. Qed.
Definition hd_is (p : N -> Prop) : lang := fun r => match r with x :: _ => p x | [] => False end.

Lemma opt_lit_none k w s c r : nohd c r -> sc (S k) (ELit (c :: w) false s) r = None.
Proof.
  intros H. change (slit false (c :: w) r = None). destruct r as [|x r]; [reflexivity|]. cbn [slit].
  cbn in H. now rewrite (proj2 (N.eqb_neq x c)).
Qed.

Lemma tok_sign k s : tok (sc (S (S k)) (EOpt (ELit [45] false s))) sign (nohd 45).
Proof.
  eapply tok_opt; [apply tok_elit|unfold any; auto|]. intros r Hr. now apply opt_lit_none.
Qed.

Lemma digits_hd t : digits1 t -> forall r, nohd 45 (t ++ r) /\ hd_is digit (t ++ r).
Proof. intros [H Hn] r. destruct t as [|x t]; [congruence|]. inversion H; subst. cbn. unfold digit in *. split; [lia|auto]. Qed.

Lemma lit_nodig c w r : is_dig c = false -> nodig ((c :: w) ++ r).
Proof. intros H. exact H. Qed.


Ltac ndone := let t := fresh in let r := fresh in let H := fresh in intros t r -> H; exact H.

Lemma tok_last_digits k : tok (sseq (sc (S (S k))) [EPlus EDig]) digits1 nodig.
Proof.
  eapply tok_equiv; [eapply tok_cons; [apply tok_digits1|apply (tok_nil _ nodig)|ndone]|apply cat_nil_r|auto].
Qed.

Definition EMinus := EOpt (ELit [45] false """-"""%string).
Definition EDot := ELit [46] false """."""%string.
Definition int_expr := ESeq [EMinus; EPlus EDig].
Lemma tok_int k : tok (sc (S (S (S k))) int_expr) int_lit nodig.
Proof.
  apply tok_seq. eapply tok_equiv; [eapply tok_cons; [apply tok_sign|apply tok_last_digits|]| |auto].
  - intros t r Ht Hr. now apply digits_hd.
  - intros t. unfold int_lit. split.
    + intros (s & t1 & -> & Hs & Ht). eauto.
    + intros (s & d & -> & Hs & Hd). apply cat_intro; auto.
Qed.

Definition float_expr := ESeq [EMinus; EPlus EDig; EDot; EPlus EDig].
Lemma tok_float k : tok (sc (S (S (S k))) float_expr) float_lit nodig.
Proof.
  apply tok_seq. eapply tok_equiv; [eapply tok_cons; [apply tok_sign|eapply tok_cons; [apply tok_digits1|eapply tok_cons; [apply tok_elit|apply tok_last_digits|unfold any; auto]|]|]| |auto].
  - intros t r (x & y & -> & -> & _) _. now apply lit_nodig.
  - intros t r (x & y & -> & Hx & _) _. rewrite <- app_assoc. now apply digits_hd.
  - intros t. unfold float_lit. split.
    + intros (s & t1 & -> & Hs & d & t2 & -> & Hd & dot & e & -> & -> & He). exists s, d, e. auto.
    + intros (s & d & e & -> & Hs & Hd & He). repeat (apply cat_intro; auto).
Qed.

(** Optional digit *)
Lemma sc_dig_none k r : nodig r -> sc (S k) EDig r = None.
Proof. intros H. rewrite class_dig. destruct r as [|x r]; [reflexivity|]. cbn in *. now rewrite H. Qed.
Lemma tok_opt_dig k : tok (sc (S (S k)) (EOpt EDig)) (fun t => t = [] \/ ndigits 1 t) nodig.
Proof. eapply tok_opt; [apply tok_dig|unfold any; auto|]. intros. now apply sc_dig_none. Qed.

Lemma len1 {A} (t : list A) : length t = 1%nat -> exists x, t = [x].
Proof. destruct t as [|x [|]]; try discriminate. eauto. Qed.

(** One to [n]+1 digits, greedily. *)
Definition upto (n : nat) : lang := fun t => digits t /\ (length t <= n)%nat.
Lemma tok_opt_digs k n : tok (sseq (sc (S (S k))) (repeat (EOpt EDig) n)) (upto n) nodig.
Proof.
  induction n as [|n IH]; cbn [repeat].
  - eapply tok_equiv; [apply (tok_nil _ nodig)| |auto]. intros t. unfold upto. split.
    + intros ->. split; [constructor|cbn; lia].
    + intros [_ H]. destruct t; [auto|cbn in H; lia].
  - pose proof (tok_opt_dig k) as [A1 A2]. destruct IH as [B1 B2]. split.
    + intros rs t r. cbn [sseq]. destruct (sc _ (EOpt EDig) rs) as [[t1 r1]|] eqn:E1; [|discriminate].
      destruct (A1 _ _ _ E1) as [-> H1].
      fold (sseq (sc (S (S k)))). destruct (sseq _ (repeat (EOpt EDig) n) r1) as [[t2 r2]|] eqn:E2; [|discriminate].
      destruct (B1 _ _ _ E2) as [-> [H2 H3]].
      intros [= <- <-]. rewrite app_assoc. split; auto. split.
      * apply Forall_app. split; auto. destruct H1 as [->|[H1 _]]; [constructor|auto].
      * rewrite app_length. destruct H1 as [->|[_ ->]]; cbn; lia.
    + intros t r [Ht Hl] Hr. cbn [sseq]. destruct t as [|x t].
      * cbn [app]. pose proof (A2 [] r (or_introl eq_refl) Hr) as E. cbn [app] in E. rewrite E.
        specialize (B2 [] r). cbn [app] in B2. rewrite B2; auto. split; [constructor|cbn; lia].
      * inversion Ht; subst.
        assert (E : sc (S (S k)) (EOpt EDig) ((x :: t) ++ r) = Some ([x], t ++ r)).
        { change (match sc (S k) EDig (x :: t ++ r) with Some y => Some y | None => Some ([], x :: t ++ r) end = Some ([x], t ++ r)).
          rewrite class_dig. cbn. now rewrite digit_noh. }
        rewrite E. rewrite B2; auto. split; auto. cbn in Hl. lia.
Qed.

Lemma tok_octet k : tok (sc (S (S (S (S k)))) (ERule ROctet)) octet nodig.
Proof.
  apply tok_rule, tok_seq. eapply tok_equiv; [eapply tok_cons; [apply tok_dig|apply (tok_opt_digs k 2)|unfold any; auto]| |auto].
  intros t. unfold octet. split.
  - intros (x & y & -> & [Hx Lx] & [Hy Ly]). destruct (len1 _ Lx) as [c ->]. repeat split; [apply Forall_app; auto|discriminate|cbn; lia].
  - intros [[H Hn] Hl]. destruct t as [|x t]; [congruence|]. inversion H; subst. change (x :: t) with ([x] ++ t).
    apply cat_intro; [split; [constructor; [assumption|constructor]|reflexivity]|split; [auto|cbn in Hl; lia]].
Qed.
Lemma tok_cidr1 k : tok (sc (S (S (S (S k)))) (ERule RCIDRBlock)) (fun t => exists d, t = tx "/" ++ d /\ digits1 d /\ (length d <= 2)%nat) nodig.
Proof.
  apply tok_rule, tok_seq. eapply tok_equiv; [eapply tok_cons; [apply tok_elit|eapply tok_cons; [apply tok_dig|apply (tok_opt_digs k 1)|unfold any; auto]|unfold any; auto]| |auto].
  intros t. split.
  - intros (s & t1 & -> & -> & x & y & -> & [Hx Lx] & [Hy Ly]). destruct (len1 _ Lx) as [c ->].
    exists ([c] ++ y). repeat split; [apply Forall_app; auto|discriminate|cbn; lia].
  - intros (d & -> & [H Hn] & Hl). apply cat_intro; auto.
    destruct d as [|x t]; [congruence|]. inversion H; subst. change (x :: t) with ([x] ++ t).
    apply cat_intro; [split; [constructor; [assumption|constructor]|reflexivity]|split; [auto|cbn in Hl; lia]].
Qed.
Definition nocidr : lang := fun r => nodig r /\ nohd 47 r.
Lemma tok_cidr k : tok (sc (S (S (S (S (S k))))) (EOpt (ERule RCIDRBlock))) cidr nocidr.
Proof.
  eapply tok_opt; [apply tok_cidr1|intros r [H _]; exact H|].
  intros r [_ H]. change (sseq (sc (S (S k))) [ELit [47] false """/"""%string; EDig; EOpt EDig] r = None).
  cbn [sseq]. now rewrite opt_lit_none.
Qed.

Definition ip_expr := ESeq [ERule ROctet; EDot; ERule ROctet; EDot; ERule ROctet; EDot; ERule ROctet; EOpt (ERule RCIDRBlock)].
Lemma tok_ip k : tok (sc (S (S (S (S (S (S k)))))) ip_expr) ip_lit nocidr.
Proof.
  apply tok_seq.
  assert (D : forall (L : lang) t r, cat (fun t => t = tx ".") L t -> any r -> nodig (t ++ r)).
  { intros L t r (x & y & -> & -> & _) _. now apply lit_nodig. }
  assert (T4 : tok (sseq (sc (S (S (S (S (S k)))))) [ERule ROctet; EOpt (ERule RCIDRBlock)]) (cat octet cidr) nocidr).
  { eapply tok_equiv; [eapply tok_cons; [apply tok_octet|eapply tok_cons; [apply tok_cidr|apply (tok_nil _ nocidr)|ndone]|]| |auto].
    - intros t r Ht [Hr _]. apply cat_nil_e in Ht. destruct Ht as [->|(d & -> & _)]; [exact Hr|reflexivity].
    - intros t. split; intros (x & y & -> & Hx & Hy); apply cat_intro; auto; now apply cat_nil_r. }
  eapply tok_equiv.
  - eapply tok_cons; [apply tok_octet|eapply tok_cons; [apply tok_elit|eapply tok_cons; [apply tok_octet|eapply tok_cons; [apply tok_elit|eapply tok_cons; [apply tok_octet|eapply tok_cons; [apply tok_elit|exact T4|unfold any; auto]|intros t r Ht _; exact (D _ t r Ht I)]|unfold any; auto]|intros t r Ht _; exact (D _ t r Ht I)]|unfold any; auto]|intros t r Ht _; exact (D _ t r Ht I)].
  - intros t. unfold ip_lit. split.
    + intros (o1 & t1 & -> & H1 & s1 & t2 & -> & -> & o2 & t3 & -> & H2 & s2 & t4 & -> & -> & o3 & t5 & -> & H3 & s3 & t6 & -> & -> & o4 & m & -> & H4 & Hm).
      exists o1, o2, o3, o4, m. auto 10.
    + intros (o1 & o2 & o3 & o4 & m & -> & H1 & H2 & H3 & H4 & Hm). repeat (apply cat_intro; auto).
  - auto.
Qed.

(** Time *)
Lemma tok_secfrac1 k : tok (sc (S (S (S (S k)))) (ERule RtimeSecfrac)) (fun t => exists d, t = tx "." ++ d /\ digits1 d) nodig.
Proof.
  apply tok_rule, tok_seq. eapply tok_equiv; [eapply tok_cons; [apply tok_elit|apply tok_last_digits|unfold any; auto]| |auto].
  intros t. split.
  - intros (s & d & -> & -> & H). eauto.
  - intros (d & -> & H). apply cat_intro; auto.
Qed.
Definition nofrac : lang := fun r => nodig r /\ nohd 46 r.
Lemma tok_secfrac k : tok (sc (S (S (S (S (S k))))) (EOpt (ERule RtimeSecfrac))) secfrac nofrac.
Proof.
  eapply tok_opt; [apply tok_secfrac1|intros r [H _]; exact H|].
  intros r [_ H]. change (sseq (sc (S (S k))) [EDot; EPlus EDig] r = None).
  cbn [sseq]. unfold EDot. now rewrite opt_lit_none.
Qed.


Lemma tok_lit_ic k u l s : l = u + 32 -> 65 <= u <= 90 -> l <> 105 -> l <> 107 ->
  tok (sc (S k) (ELit [l] true s)) (fun t => t = [u] \/ t = [l]) any.
Proof.
  intros -> Hu H1 H2.
  assert (E : forall x, to_lower x = u + 32 <-> x = u \/ x = u + 32).
  { intros x. unfold to_lower. destruct ((65 <=? x) && (x <=? 90)) eqn:?; [lia|]. destruct (x =? 304) eqn:?; [lia|].
    destruct (x =? 8490) eqn:?; lia. }
  split.
  - intros rs t r. change (sc (S k) (ELit [u + 32] true s) rs) with (slit true [u + 32] rs). cbn [slit].
    destruct rs as [|x rs]; [discriminate|]. destruct (N.eqb_spec (to_lower x) (u + 32)) as [E1|]; [|discriminate].
    intros [= <- <-]. split; auto. apply E in E1 as [->| ->]; auto.
  - intros t r Ht _. change (slit true [u + 32] (t ++ r) = Some (t, r)).
    destruct Ht as [-> | ->]; cbn [slit app]; rewrite (proj2 (E _)) by auto; now rewrite N.eqb_refl.
Qed.

Lemma tok_sep k : tok (sc (S (S k)) (EChoice [ELit [116] true """T""i"%string; ELit [32] false """ """%string]))
  (fun t => t = tx "T" \/ t = tx "t" \/ t = tx " ") any.
Proof.
  apply tok_choice. eapply tok_equiv; [eapply (tok_choice2 _ _ _ _ _ any any any); [apply (tok_lit_ic k 84); lia|apply tok_elit|unfold any; auto|unfold any; auto|]| |auto].
  - intros t r t' r' -> _ [-> | ->]; discriminate.
  - intros t. cbn. tauto.
Qed.

Lemma tok_numoffset k : tok (sc (S (S (S (S (S (S k)))))) (ERule RtimeNumoffset))
  (fun t => exists s h m, t = s ++ h ++ tx ":" ++ m /\ (s = tx "+" \/ s = tx "-") /\ ndigits 2 h /\ ndigits 2 m) any.
Proof.
  apply tok_rule, tok_seq. eapply tok_equiv.
  - eapply tok_cons; [apply tok_choice; eapply (tok_choice2 _ _ _ _ _ any any any); [apply tok_elit|apply tok_elit|auto|auto|]| |unfold any; auto].
    + intros t r t' r' -> _ ->; discriminate.
    + eapply tok_cons; [apply tok_rule, (tok_digit2 k)| |unfold any; auto]. lc.
      eapply tok_cons; [apply tok_rule, (tok_digit2 k)|apply (tok_nil _ any)|unfold any; auto].
  - intros t. split.
    + intros (s & t1 & -> & Hs & h & t2 & -> & Hh & c & t3 & -> & -> & Hm). apply cat_nil_e in Hm. exists s, h, t3. auto.
    + intros (s & h & m & -> & Hs & Hh & Hm). repeat (apply cat_intro; auto). now apply cat_nil_r.
  - auto.
Qed.
Lemma tok_zone k : tok (sc (S (S (S (S (S (S (S (S k)))))))) (ERule RtimeOffset)) zone any.
Proof.
  apply tok_rule, tok_choice. eapply tok_equiv; [eapply (tok_choice2 _ _ _ _ _ any any any); [apply (tok_lit_ic _ 90); lia|apply tok_numoffset|unfold any; auto|unfold any; auto|]| |auto].
  - intros t r t' r' (s & h & m & -> & [-> | ->] & _) _ [-> | ->]; discriminate.
  - intros t. unfold zone. cbn. tauto.
Qed.
Lemma zone_nofrac z r : zone z -> nofrac (z ++ r).
Proof. intros [-> |[-> |(s & h & m & -> & [-> | ->] & _)]]; cbn; split; try reflexivity; discriminate. Qed.
Lemma secfrac_nodig f r : secfrac f -> nofrac r -> nodig (f ++ r).
Proof. intros [-> |(d & -> & _)] [H _]; [exact H|reflexivity]. Qed.

Lemma tok_partialTime k : tok (sc (S (S (S (S (S (S (S k))))))) (ERule RpartialTime))
  (fun t => exists h m s f, t = h ++ tx ":" ++ m ++ tx ":" ++ s ++ f /\ ndigits 2 h /\ ndigits 2 m /\ ndigits 2 s /\ secfrac f) nofrac.
Proof.
  apply tok_rule, tok_seq. eapply tok_equiv.
  - eapply tok_cons; [apply tok_rule, tok_digit2| |unfold any; auto]. lc.
    eapply tok_cons; [apply tok_rule, tok_digit2| |unfold any; auto]. lc.
    eapply tok_cons; [apply tok_rule, tok_digit2| |unfold any; auto].
    eapply tok_cons; [apply tok_secfrac|apply (tok_nil _ nofrac)|ndone].
  - intros t. split.
    + intros (h & t1 & -> & Hh & s1 & t2 & -> & -> & m & t3 & -> & Hm & s2 & t4 & -> & -> & s & t5 & -> & Hs & Hf). apply cat_nil_e in Hf.
      exists h, m, s, t5. auto 10.
    + intros (h & m & s & f & -> & Hh & Hm & Hs & Hf). repeat (apply cat_intro; auto). now apply cat_nil_r.
  - auto.
Qed.
Lemma tok_fullTime k : tok (sc (S (S (S (S (S (S (S (S (S (S k)))))))))) (ERule RfullTime)) time_lit any.
Proof.
  apply tok_rule, tok_seq. eapply tok_equiv.
  - eapply tok_cons; [apply tok_partialTime|eapply tok_cons; [apply tok_zone|apply (tok_nil _ any)|unfold any; auto]|].
    intros t r Hz _. apply cat_nil_e in Hz. now apply zone_nofrac.
  - intros t. unfold time_lit. split.
    + intros (t1 & z & -> & (h & m & s & f & -> & Hh & Hm & Hs & Hf) & Hz). apply cat_nil_e in Hz.
      exists h, m, s, f, z. rewrite <- !app_assoc. auto 10.
    + intros (h & m & s & f & z & -> & Hh & Hm & Hs & Hf & Hz). 
      replace (h ++ tx ":" ++ m ++ tx ":" ++ s ++ f ++ z) with ((h ++ tx ":" ++ m ++ tx ":" ++ s ++ f) ++ z) by (rewrite <- !app_assoc; reflexivity).
      apply cat_intro; [exists h, m, s, f; auto 10|now apply cat_nil_r].
  - auto.
Qed.
Lemma tok_dateTime k : tok (sc (S (S (S (S (S (S (S (S (S (S (S (S k)))))))))))) (ERule RdateTime)) datetime_lit any.
Proof.
  apply tok_rule, tok_seq. eapply tok_equiv.
  - eapply tok_cons; [apply tok_fullDate| |unfold any; auto].
    eapply tok_cons; [apply tok_sep| |unfold any; auto].
    eapply tok_cons; [apply tok_fullTime|apply (tok_nil _ any)|unfold any; auto].
  - intros t. unfold datetime_lit. split.
    + intros (d & t1 & -> & Hd & s & t2 & -> & Hs & Hu). apply cat_nil_e in Hu. exists d, s, t2. auto.
    + intros (d & s & u & -> & Hd & Hs & Hu). repeat (apply cat_intro; auto). now apply cat_nil_r.
  - auto.
Qed.

(** What can follow a literal inside a query: white space, then the end, a closing parenthesis,
    a comma, or (after at least one white space character) a connective. *)
Definition ends : lang := fun r => match r with [] => True | x :: _ => x = 44 \/ x = 41 end.
Definition follow : lang := fun r => exists w r', r = w ++ r' /\ ws w /\ (ends r' \/ (w <> [] /\ hd_is (fun x => x = 65 \/ x = 79) r')).

Lemma follow_hd r : follow r -> match r with [] => True | x :: _ => ws_char x \/ x = 44 \/ x = 41 end.
Proof.
  intros (w & r' & -> & Hw & H). destruct w as [|x w]; cbn.
  - destruct H as [H|[H _]]; [|congruence]. destruct r'; cbn in *; tauto.
  - inversion Hw; auto.
Qed.
Lemma follow_nodig r : follow r -> nodig r.
Proof. intros H. apply follow_hd in H. destruct r as [|x r]; cbn; auto. unfold is_dig, ws_char in *. lia. Qed.
Lemma follow_nohd r c : follow r -> ~ ws_char c -> c <> 44 -> c <> 41 -> nohd c r.
Proof. intros H Hc H1 H2. apply follow_hd in H. destruct r as [|x r]; cbn; auto. intros ->. tauto. Qed.
Lemma follow_nocidr r : follow r -> nocidr r.
Proof. intros H. split; [now apply follow_nodig|]. apply follow_nohd; auto; unfold ws_char; lia. Qed.

Lemma date_len d : date_lit d -> length d = 10%nat.
Proof.
  intros (y & m & d' & -> & [_ H1] & [_ H2] & [_ H3]). rewrite !app_length, H1, H2, H3. reflexivity.
Qed.
Lemma app_same_len {A} (x y x' y' : list A) : x ++ y = x' ++ y' -> length x = length x' -> x = x' /\ y = y'.
Proof.
  revert x'. induction x as [|a x IH]; intros [|a' x'] E L; try discriminate; auto.
  cbn in *. injection E as -> E. injection L as L. destruct (IH _ E L) as [-> ->]. auto.
Qed.

Lemma time_hd u r : time_lit u -> hd_is digit (u ++ r).
Proof.
  intros (h & m & s & f & z & -> & [H1 H2] & _). destruct h as [|x h]; [discriminate|]. now inversion H1.
Qed.

Definition ts_expr := EChoice [ERule RdateTime; ERule RfullDate].
Lemma tok_ts k : tok (sc (S (S (S (S (S (S (S (S (S (S (S (S (S k))))))))))))) ts_expr) timestamp_lit follow.
Proof.
  apply tok_choice. eapply (tok_choice2 _ _ _ _ _ any any); [apply tok_dateTime|apply tok_fullDate|unfold any; auto|unfold any; auto|].
  intros t r t' r' Ht Hr (d & s & u & -> & Hd & Hs & Hu) E. exfalso.
  rewrite <- app_assoc in E. apply app_same_len in E as [<- E]; [|now rewrite !date_len].
  rewrite <- app_assoc in E. pose proof (time_hd u r' Hu) as HT.
  pose proof (follow_hd _ Hr) as Hh.
  assert (Hsp : s = tx " ").
  { rewrite E in Hh. destruct Hs as [-> |[-> | ->]]; auto; exfalso; cbn in Hh; unfold ws_char in Hh; lia. }
  clear Hh. destruct Hr as (w & r1 & -> & Hw & H).
  subst s. destruct w as [|x w]; cbn in E.
  - destruct r1 as [|y r1]; [discriminate|]. cbn in *. destruct H as [H|[H _]]; [|congruence]. injection E as -> _. lia.
  - injection E as -> E. destruct w as [|y w]; cbn in E; rewrite <- E in HT.
    + destruct r1 as [|y r1]; cbn in *; [tauto|]. unfold digit in *. destruct H as [H|[_ H]]; lia.
    + cbn in HT. inversion Hw; subst. inversion H3; subst. unfold ws_char, digit in *. lia.
Qed.

(** Booleans *)
Definition bool_expr := EChoice [ELit [102; 97; 108; 115; 101] false """false"""%string; ELit [116; 114; 117; 101] false """true"""%string].
Lemma tok_bool k : tok (sc (S (S k)) bool_expr) (fun t => t = tx "false" \/ t = tx "true") any.
Proof.
  apply tok_choice. eapply (tok_choice2 _ _ _ _ _ any any any); [apply tok_elit|apply tok_elit|auto|auto|].
  intros t r t' r' -> _ ->; discriminate.
Qed.
