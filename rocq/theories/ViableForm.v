(** The context-free language of the grammar consists of texts of the form of a query. *)
From Verif Require Import Bytes Utf8 PegSyntax Grammar Engine GrammarSpec ShapeSpec Viable.
From Coq Require Import ZifyBool ZifyN ZifyNat.

Lemma L_ruleE r w : L (ERule r) w -> L (rules r) w.
Proof. inversion 1; auto. Qed.
Lemma L_actionE a e w : L (EAction a e) w -> instead a w \/ (is_value8 a = false /\ L e w).
Proof. inversion 1; auto. Qed.
Lemma L_throwE l w : L (EThrow l) w -> exists c, throws l c = true /\ closes c w.
Proof. inversion 1; eauto. Qed.
Lemma L_labelE l e w : L (ELabel l e) w -> L e w.
Proof. inversion 1; auto. Qed.
Lemma L_optE e w : L (EOpt e) w -> w = [] \/ L e w.
Proof. inversion 1; auto. Qed.
Lemma L_recE e r ls w : L (ERecover e r ls) w -> L e w.
Proof. inversion 1; auto. Qed.
Lemma L_choiceE es w : L (EChoice es) w -> exists e, In e es /\ L e w.
Proof. inversion 1; eauto. Qed.
Lemma L_litE s ic want w : L (ELit s ic want) w -> map (lower_if ic) w = s.
Proof. inversion 1; auto. Qed.
Lemma L_litE0 s want w : L (ELit s false want) w -> w = s.
Proof. intros H. apply L_litE in H. subst. induction w as [|c w IH]; [reflexivity|]. cbn. now rewrite <- IH. Qed.
Lemma L_classE v chars ranges ic invd w : L (EClass v chars ranges ic invd) w ->
  exists c, w = [c] /\ xorb invd (in_class chars ranges (lower_if ic c)) = true.
Proof. inversion 1; eauto. Qed.
Lemma L_notE e w : L (ENot e) w -> w = [].
Proof. inversion 1; auto. Qed.
Lemma L_seqE es w : not_any es = None -> L (ESeq es) w -> Ls es w.
Proof. intros E. inversion 1; subst; auto. discriminate. Qed.
Lemma L_notanyE e w : L (ESeq [ENot e; EAny]) w -> exists c, w = [c] /\ flatm 10 e c = false.
Proof. inversion 1; subst; [discriminate|eauto]. Qed.
Lemma Ls_consE e es w : Ls (e :: es) w -> exists w1 w2, w = w1 ++ w2 /\ L e w1 /\ Ls es w2.
Proof. inversion 1; subst; eauto. Qed.
Lemma Ls_nilE w : Ls [] w -> w = [].
Proof. inversion 1; auto. Qed.
Lemma L_plusE e w : L (EPlus e) w -> exists w1 w2, w = w1 ++ w2 /\ L e w1 /\ L (EStar e) w2.
Proof. inversion 1; subst; eauto. Qed.
Lemma L_star_ind (e : expr) (P : list N -> Prop) : P [] -> (forall w1 w2, L e w1 -> L (EStar e) w2 -> P w2 -> P (w1 ++ w2)) ->
  forall w, L (EStar e) w -> P w.
Proof.
  intros H0 H1. enough (forall x w, L x w -> x = EStar e -> P w) by eauto.
  fix IH 3. intros x w [ | | | | | | | | | | | e' w1 w2 L1 L2 | | | | | | ] E; try discriminate E; injection E as ->.
  - exact H0.
  - apply H1; auto. eapply IH; eauto.
Qed.

Ltac linv1 :=
  match goal with
  | H : L (ERule _) _ |- _ => apply L_ruleE in H; cbn [rules] in H
  | H : L (EAction _ _) _ |- _ => apply L_actionE in H as [[]|[_ H]]
  | H : L (ELabel _ _) _ |- _ => apply L_labelE in H
  | H : L (ERecover _ _ _) _ |- _ => apply L_recE in H
  | H : L (ELit _ false _) _ |- _ => apply L_litE0 in H; subst
  | H : L (ENot _) _ |- _ => apply L_notE in H; subst
  | H : L (ESeq _) _ |- _ => apply L_seqE in H; [|reflexivity]
  | H : Ls (_ :: _) _ |- _ => let w1 := fresh "w" in let w2 := fresh "w" in let H1 := fresh "H" in apply Ls_consE in H as (w1 & w2 & -> & H1 & H)
  | H : Ls [] _ |- _ => apply Ls_nilE in H; subst
  end.
Ltac linv := repeat linv1.
Ltac lchoice H := apply L_choiceE in H; let e := fresh "e" in let Hi := fresh "Hi" in destruct H as (e & Hi & H); cbn [In] in Hi.

(** White space *)
Lemma ws_class c : in_class [32; 10; 9; 13] [] c = true -> ws_char c.
Proof.
  unfold in_class, ws_char. cbn [existsb]. rewrite orb_false_r, !orb_true_iff, !N.eqb_eq. intuition congruence.
Qed.
Lemma star_class v chars ranges ic invd (P : N -> Prop) w :
  (forall c, xorb invd (in_class chars ranges (lower_if ic c)) = true -> P c) ->
  L (EStar (EClass v chars ranges ic invd)) w -> Forall P w.
Proof.
  intros H. apply L_star_ind; [constructor|]. intros w1 w2 H1 _ H2. apply L_classE in H1 as (c & -> & H1). constructor; auto.
Qed.
Lemma plus_class v chars ranges ic invd (P : N -> Prop) w :
  (forall c, xorb invd (in_class chars ranges (lower_if ic c)) = true -> P c) ->
  L (EPlus (EClass v chars ranges ic invd)) w -> Forall P w /\ w <> [].
Proof.
  intros H H1. apply L_plusE in H1 as (w1 & w2 & -> & H1 & H2). apply L_classE in H1 as (c & -> & H1).
  split; [|discriminate]. constructor; auto. eapply star_class; eauto.
Qed.
Lemma form_ws w : L (ERule R_ws) w -> ws w.
Proof. intros H. linv. eapply star_class; [|exact H]. intros c Hc. rewrite xorb_false_l in Hc. now apply ws_class. Qed.
Lemma form_space w : L (ERule Rspace) w -> ws1 w.
Proof. intros H. linv. eapply plus_class; [|exact H]. intros c Hc. rewrite xorb_false_l in Hc. now apply ws_class. Qed.

(** Digits *)
Lemma dig_class c : xorb false (in_class [] [(48, 57)] (lower_if false c)) = true -> digit c.
Proof. unfold in_class, lower_if, digit. cbn [existsb xorb orb]. rewrite orb_false_r, ?xorb_false_l. match goal with |- (if ?b then true else false) = true -> _ => destruct b eqn:E; [intros _; revert E|discriminate] | _ => idtac end. rewrite andb_true_iff, !N.leb_le. auto. Qed.
Lemma form_digit v w : L (EClass v [] [(48, 57)] false false) w -> exists c, w = [c] /\ digit c.
Proof. intros H. apply L_classE in H as (c & -> & H). exists c. split; auto. now apply dig_class. Qed.
Lemma form_digits v w : L (EPlus (EClass v [] [(48, 57)] false false)) w -> digits1 w.
Proof. intros H. eapply plus_class; [|exact H]. apply dig_class. Qed.
Ltac fdigits := repeat match goal with
  | H : L (EClass _ [] [(48, 57)] false false) _ |- _ => let c := fresh "c" in apply form_digit in H as (c & -> & H)
  | H : L (EPlus (EClass _ [] [(48, 57)] false false)) _ |- _ => apply form_digits in H
  end.
Ltac fall := cbn [app]; repeat (apply Forall_cons; [assumption|]); apply Forall_nil.
Lemma form_d2 w : L (ERule RDigit2) w -> ndigits 2 w.
Proof. intros H. linv. fdigits. split; [|reflexivity]. fall. Qed.
Lemma form_d4 w : L (ERule RDigit4) w -> ndigits 4 w.
Proof. intros H. linv. fdigits. split; [|reflexivity]. fall. Qed.

Lemma form_octet w : L (ERule ROctet) w -> octet w.
Proof.
  intros H. linv. repeat match goal with H : L (EOpt _) _ |- _ => apply L_optE in H as [->|H] end; fdigits;
    (split; [split; [fall|discriminate]|cbn; lia]).
Qed.
Lemma form_cidr w : L (ERule RCIDRBlock) w -> cidr w.
Proof.
  intros H. linv. right. repeat match goal with H : L (EOpt _) _ |- _ => apply L_optE in H as [->|H] end; fdigits;
    eexists; (split; [reflexivity|]); (split; [split; [fall|discriminate]|cbn; lia]).
Qed.
Lemma form_ip w : L (ERule RIPValue) w -> value_form w \/ ip_lit w.
Proof.
  intros H. apply L_ruleE in H. cbn [rules] in H. apply L_actionE in H as [H|[_ H]]; [now left|right]. apply L_seqE in H; [|reflexivity].
  repeat (apply Ls_consE in H as (? & ? & -> & ? & H)). apply Ls_nilE in H. subst.
  repeat match goal with H : L (ELit _ _ _) _ |- _ => apply L_litE0 in H; subst | H : L (ERule ROctet) _ |- _ => apply form_octet in H end.
  exists x, x0, x3, x5, x6. rewrite !app_nil_r. split; [reflexivity|]. do 4 (split; [assumption|]).
  match goal with H : L (EOpt _) _ |- _ => apply L_optE in H as [->|H] end; [left; reflexivity|now apply form_cidr].
Qed.
Lemma form_sign want w : L (EOpt (ELit [45] false want)) w -> sign w.
Proof. intros H. apply L_optE in H as [->|H]; [now left|]. apply L_litE0 in H. now right. Qed.
Lemma form_float w : L (ERule RFloatValue) w -> value_form w \/ float_lit w.
Proof.
  intros H. apply L_ruleE in H. cbn [rules] in H. apply L_actionE in H as [H|[_ H]]; [now left|right]. linv. fdigits. apply form_sign in H0. do 3 eexists. rewrite app_nil_r. split; [reflexivity|]. auto.
Qed.
Lemma form_int w : L (ERule RIntValue) w -> value_form w \/ int_lit w.
Proof.
  intros H. apply L_ruleE in H. cbn [rules] in H. apply L_actionE in H as [H|[_ H]]; [now left|right]. linv. fdigits. apply form_sign in H0. do 2 eexists. rewrite app_nil_r. split; [reflexivity|]. auto.
Qed.
Lemma form_date w : L (ERule RfullDate) w -> date_lit w.
Proof.
  intros H. apply L_ruleE in H. cbn [rules] in H. apply L_seqE in H; [|reflexivity].
  apply Ls_consE in H as (y & ? & -> & Hy & H). apply Ls_consE in H as (? & ? & -> & H1 & H). apply Ls_consE in H as (m & ? & -> & Hm & H).
  apply Ls_consE in H as (? & ? & -> & H2 & H). apply Ls_consE in H as (d & ? & -> & Hd & H). apply Ls_nilE in H. subst.
  apply L_litE0 in H1, H2. subst. apply L_ruleE in Hy, Hm, Hd. cbn [rules] in Hy, Hm, Hd.
  exists y, m, d. rewrite app_nil_r. split; [reflexivity|]. split; [now apply form_d4|]. split; now apply form_d2.
Qed.
Lemma form_frac w : L (EOpt (ERule RtimeSecfrac)) w -> secfrac w.
Proof.
  intros H. apply L_optE in H as [->|H]; [now left|]. linv. fdigits. right. eexists. rewrite app_nil_r. split; [reflexivity|assumption].
Qed.
Lemma fold_lit c d x : map (lower_if true) x = [c] -> (forall y, to_lower y = c -> y = c \/ y = d) -> x = [c] \/ x = [d].
Proof.
  intros H Hc. destruct x as [|y [|]]; try discriminate H. injection H as H. destruct (Hc y H) as [->| ->]; auto.
Qed.
Ltac difs := repeat match goal with |- context [if ?c then _ else _] => destruct c eqn:? end.
Lemma lower_z y : to_lower y = 122 -> y = 122 \/ y = 90.
Proof. unfold to_lower. difs; lia. Qed.
Lemma lower_t y : to_lower y = 116 -> y = 116 \/ y = 84.
Proof. unfold to_lower. difs; lia. Qed.
Lemma form_zone w : L (ERule RtimeOffset) w -> zone w.
Proof.
  intros H. linv. lchoice H. destruct Hi as [<-|[<-|[]]].
  - apply L_litE in H. destruct (fold_lit 122 90 w H lower_z) as [->| ->]; [right; left|left]; reflexivity.
  - right. right. apply L_ruleE in H. cbn [rules] in H. apply L_seqE in H; [|reflexivity].
    apply Ls_consE in H as (s & ? & -> & Hs & H). apply Ls_consE in H as (h & ? & -> & Hh & H). apply Ls_consE in H as (? & ? & -> & H1 & H).
    apply Ls_consE in H as (m & ? & -> & Hm & H). apply Ls_nilE in H. apply L_litE0 in H1. subst.
    apply L_ruleE in Hh, Hm. cbn [rules] in Hh, Hm. exists s, h, m. rewrite app_nil_r. split; [reflexivity|].
    split; [|split; now apply form_d2]. lchoice Hs. destruct Hi as [<-|[<-|[]]]; apply L_litE0 in Hs; subst; [left|right]; reflexivity.
Qed.
Lemma form_time w : L (ERule RfullTime) w -> time_lit w.
Proof.
  intros H. apply L_ruleE in H. cbn [rules] in H. apply L_seqE in H; [|reflexivity].
  apply Ls_consE in H as (p & ? & -> & Hp & H). apply Ls_consE in H as (z & ? & -> & Hz & H). apply Ls_nilE in H. subst.
  apply L_ruleE in Hp. cbn [rules] in Hp. apply L_seqE in Hp; [|reflexivity].
  apply Ls_consE in Hp as (h & ? & -> & Hh & H). apply Ls_consE in H as (? & ? & -> & H1 & H). apply Ls_consE in H as (m & ? & -> & Hm & H).
  apply Ls_consE in H as (? & ? & -> & H2 & H). apply Ls_consE in H as (s & ? & -> & Hs & H). apply Ls_consE in H as (f & ? & -> & Hf & H).
  apply Ls_nilE in H. apply L_litE0 in H1, H2. subst. apply L_ruleE in Hh, Hm, Hs. cbn [rules] in Hh, Hm, Hs.
  exists h, m, s, f, z. rewrite !app_nil_r, <- !app_assoc. split; [reflexivity|].
  do 3 (split; [now apply form_d2|]). split; [now apply form_frac|now apply form_zone].
Qed.
Lemma form_timestamp w : L (ERule RTimestamp) w -> value_form w \/ timestamp_lit w.
Proof.
  intros H. apply L_ruleE in H. cbn [rules] in H. apply L_actionE in H as [H|[_ H]]; [now left|right]. lchoice H. destruct Hi as [<-|[<-|[]]].
  - left. apply L_ruleE in H. cbn [rules] in H. apply L_seqE in H; [|reflexivity].
    apply Ls_consE in H as (d & ? & -> & Hd & H). apply Ls_consE in H as (s & ? & -> & Hs & H). apply Ls_consE in H as (u & ? & -> & Hu & H).
    apply Ls_nilE in H. subst. exists d, s, u. rewrite app_nil_r. split; [reflexivity|]. split; [now apply form_date|].
    split; [|now apply form_time]. lchoice Hs. destruct Hi as [<-|[<-|[]]].
    + apply L_litE in Hs. destruct (fold_lit 116 84 s Hs lower_t) as [->| ->]; [right; left|left]; reflexivity.
    + apply L_litE0 in Hs. subst. right. right. reflexivity.
  - right. now apply form_date.
Qed.
Lemma form_bool w : L (ERule RBoolValue) w -> value_form w \/ (w = tx "true" \/ w = tx "false").
Proof. intros H. apply L_ruleE in H. cbn [rules] in H. apply L_actionE in H as [H|[_ H]]; [now left|right]. lchoice H. destruct Hi as [<-|[<-|[]]]; apply L_litE0 in H; subst; [right|left]; reflexivity. Qed.

(** Quoted strings *)
Lemma hex_class c : xorb false (in_class [] [(48, 57); (97, 102)] (lower_if true c)) = true -> hex c.
Proof.
  unfold in_class, lower_if, hex, to_lower. cbn [existsb orb]. rewrite xorb_false_l, orb_false_r.
  difs; lia.
Qed.
Lemma quoted_app x y : quoted_body x -> quoted_body y -> quoted_body (x ++ y).
Proof.
  induction 1; intros; cbn [app]; auto; [apply qb_char|apply qb_esc|apply qb_uni]; auto.
Qed.
Lemma flat_escaped c : flatm 10 (ERule REscapedChar) c = false -> 32 <= c /\ c <> 34 /\ c <> 92.
Proof.
  cbn [flatm rules]. unfold in_class, lower_if. cbn [existsb]. rewrite xorb_false_l. lia.
Qed.
Lemma form_quoted w : L (ERule RQuotedValue) w -> quoted w.
Proof.
  intros H. apply L_ruleE in H. cbn [rules] in H. apply L_recE in H. apply L_actionE in H as [H|[_ H]]; [exact H|]. apply L_seqE in H; [|reflexivity].
  apply Ls_consE in H as (? & ? & -> & H0 & H). apply Ls_consE in H as (bd & ? & -> & H1 & H). apply Ls_consE in H as (cl & ? & -> & H2 & H).
  apply Ls_nilE in H. apply L_litE0 in H0. subst. apply L_ruleE in H2. cbn [rules] in H2. assert (cl = [34]); [|clear H2; subst cl].
  { lchoice H2. destruct Hi as [<-|[<-|[]]]; [now apply L_litE0 in H2|]. apply L_throwE in H2 as (c & T & C). now destruct c. }
  exists bd. split; [reflexivity|]. revert bd H1. apply L_star_ind; [constructor|].
  intros w1 w2 H1 _ H2. apply quoted_app; auto. clear H2. lchoice H1. destruct Hi as [<-|[<-|[]]].
  - apply L_notanyE in H1 as (c & -> & Hc). apply flat_escaped in Hc as (C1 & C2 & C3). constructor; auto. constructor.
  - apply L_seqE in H1; [|reflexivity]. apply Ls_consE in H1 as (? & ? & -> & H2 & H1). apply Ls_consE in H1 as (u & ? & -> & H3 & H1).
    apply Ls_nilE in H1. apply L_litE0 in H2. subst. rewrite app_nil_r.
    apply L_ruleE in H3. cbn [rules] in H3. lchoice H3. destruct Hi as [<-|[<-|[]]].
    + linv. apply L_classE in H3 as (c & -> & Hc). cbn [app]. apply qb_esc; [|constructor].
      unfold in_class, lower_if in Hc. cbn [existsb] in Hc. rewrite xorb_false_l, !orb_true_iff, !N.eqb_eq in Hc.
      vm_compute. intuition congruence.
    + linv. repeat match goal with H : L (EClass _ _ _ _ _) _ |- _ => let c := fresh "c" in apply L_classE in H as (c & -> & H); apply hex_class in H end.
      cbn [app]. apply qb_uni; auto. constructor.
Qed.

(** Regular expressions *)
Lemma regex_app x y : regex_body x -> regex_body y -> regex_body (x ++ y).
Proof.
  induction 1; intros; cbn [app]; auto; [apply rb_char|apply rb_esc]; auto.
Qed.
Lemma form_regex w : L (ERule RRegexValue) w -> value_form w \/ regex_lit w.
Proof.
  intros H. apply L_ruleE in H. cbn [rules] in H. apply L_recE in H. apply L_actionE in H as [H|[_ H]]; [now left|right]. apply L_seqE in H; [|reflexivity].
  apply Ls_consE in H as (? & ? & -> & H0 & H). apply Ls_consE in H as (bd & ? & -> & H1 & H). apply Ls_consE in H as (cl & ? & -> & H2 & H).
  apply Ls_nilE in H. apply L_litE0 in H0. subst. apply L_ruleE in H2. cbn [rules] in H2. assert (cl = [47]); [|clear H2; subst cl].
  { lchoice H2. destruct Hi as [<-|[<-|[]]]; [now apply L_litE0 in H2|]. apply L_throwE in H2 as (c & T & C). now destruct c. }
  exists bd. split; [reflexivity|]. revert bd H1. apply L_star_ind; [constructor|].
  intros w1 w2 H1 _ H2. apply regex_app; auto. clear H2. apply L_ruleE in H1. cbn [rules] in H1. lchoice H1. destruct Hi as [<-|[<-|[]]].
  - apply L_notanyE in H1 as (c & -> & Hc). cbn [flatm rules existsb] in Hc. unfold lower_if in Hc.
    apply rb_char; [lia|lia|lia|constructor].
  - apply L_seqE in H1; [|reflexivity]. apply Ls_consE in H1 as (? & ? & -> & H2 & H1). apply Ls_consE in H1 as (u & ? & -> & H3 & H1).
    apply Ls_nilE in H1. apply L_litE0 in H2. subst. rewrite app_nil_r. apply L_ruleE in H3. cbn [rules] in H3.
    apply L_notanyE in H3 as (c & -> & Hc). cbn [flatm rules existsb] in Hc. unfold lower_if in Hc. cbn [app].
    apply rb_esc; [lia|constructor].
Qed.

Lemma form_value w : L (ERule RValue) w -> value_form w.
Proof.
  intros H. apply L_ruleE in H. cbn [rules] in H. lchoice H. destruct Hi as [<-|[<-|[]]].
  - apply L_actionE in H as [[]|[_ H]]. apply L_labelE in H. lchoice H. destruct Hi as [<-|[<-|[<-|[]]]].
    + left. now apply form_quoted.
    + apply form_regex in H as [H|H]; [exact H|]. right. now left.
    + apply L_ruleE in H. cbn [rules] in H. unfold value_form. lchoice H. destruct Hi as [<-|[<-|[<-|[<-|[<-|[]]]]]].
      * apply form_timestamp in H. unfold value_form in H. tauto.
      * apply form_ip in H. unfold value_form in H. tauto.
      * apply form_float in H. unfold value_form in H. tauto.
      * apply form_int in H. unfold value_form in H. tauto.
      * apply form_bool in H. unfold value_form in H. tauto.
  - apply L_actionE in H as [H|[E _]]; [exact H|discriminate].
Qed.
Lemma form_values w : L (ERule RValueList) w -> values_form w.
Proof.
  intros H. apply L_ruleE in H. cbn [rules] in H. lchoice H. destruct Hi as [<-|[<-|[]]]; apply L_actionE in H as [H|[_ H]]; [exact H| |destruct H|].
  - apply L_seqE in H; [|reflexivity].
    apply Ls_consE in H as (? & ? & -> & H0 & H). apply Ls_consE in H as (w1 & ? & -> & H1 & H). apply Ls_consE in H as (t & ? & -> & Ht & H).
    apply Ls_consE in H as (u & ? & -> & Hu & H). apply Ls_consE in H as (w2 & ? & -> & H2 & H). apply Ls_consE in H as (? & ? & -> & H3 & H).
    apply Ls_nilE in H. apply L_litE0 in H0, H3. subst. apply L_labelE in Ht, Hu. apply vf_list; [now apply form_ws|now apply form_ws|now apply form_value|].
    revert u Hu. apply L_star_ind; [constructor|]. intros x y H _ Hy. apply L_seqE in H; [|reflexivity].
    apply Ls_consE in H as (a1 & ? & -> & A1 & H). apply Ls_consE in H as (? & ? & -> & A2 & H). apply Ls_consE in H as (a2 & ? & -> & A3 & H).
    apply Ls_consE in H as (v & ? & -> & A4 & H). apply Ls_nilE in H. apply L_litE0 in A2. subst. rewrite app_nil_r, <- !app_assoc.
    apply mf_more; auto; [now apply form_ws|now apply form_ws|now apply form_value].
  - apply L_labelE in H. apply vf_one. now apply form_value.
Qed.

(** Fields *)
Lemma name_class c : xorb false (in_class [95; 45] [(97, 122); (48, 57)] (lower_if true c)) = true -> name_char c.
Proof.
  unfold in_class, lower_if, name_char, digit, to_lower. cbn [existsb orb]. rewrite xorb_false_l, !orb_false_r.
  difs; lia.
Qed.
Lemma form_piece w : L (ERule RFieldPiece) w -> piece_form w.
Proof.
  intros H. apply L_ruleE in H. cbn [rules] in H. lchoice H. destruct Hi as [<-|[<-|[<-|[]]]]; apply L_ruleE in H; cbn [rules] in H; apply L_actionE in H as [[]|[_ H]].
  - left. apply L_labelE in H. now apply form_quoted.
  - right. left. eapply plus_class; [|exact H]. apply name_class.
  - right. right. now apply L_litE0 in H.
Qed.
Lemma form_field w : L (ERule RField) w -> field_form w.
Proof.
  intros H. apply L_ruleE in H. cbn [rules] in H. apply L_actionE in H as [[]|[_ H]]. apply L_labelE in H. apply L_seqE in H; [|reflexivity].
  apply Ls_consE in H as (t & ? & -> & Ht & H). apply Ls_consE in H as (u & ? & -> & Hu & H). apply Ls_nilE in H. subst. rewrite app_nil_r.
  apply form_piece in Ht. revert u Hu t Ht.
  refine (L_star_ind _ (fun u => forall t, piece_form t -> field_form (t ++ u)) _ _).
  - intros t Ht. rewrite app_nil_r. now apply ff_one.
  - intros x y H _ Hy t Ht. apply L_seqE in H; [|reflexivity].
    apply Ls_consE in H as (? & ? & -> & A2 & H). apply Ls_consE in H as (v & ? & -> & A4 & H). apply Ls_nilE in H. apply L_litE0 in A2. subst.
    rewrite app_nil_r, <- app_assoc. apply ff_more; auto. apply Hy. now apply form_piece.
Qed.

(** Clauses *)
Lemma form_not_op w : L (ERule RlogicalNOT) w -> not_op w.
Proof.
  intros H. apply L_ruleE in H. cbn [rules] in H. lchoice H. destruct Hi as [<-|[<-|[]]]; (apply L_seqE in H; [|reflexivity]);
    apply Ls_consE in H as (? & ? & -> & A & H); apply Ls_consE in H as (sp & ? & -> & Hs & H); apply Ls_nilE in H; apply L_litE0 in A; subst;
    rewrite app_nil_r.
  - apply nt_word. now apply form_space.
  - apply nt_bang. apply L_optE in Hs as [->|Hs]; [constructor|]. apply form_space in Hs; apply Hs.
Qed.
Lemma form_comp w : L (EOpt (ERule RopComp)) w -> comparator w.
Proof.
  intros H. apply L_optE in H as [->|H]; [now left|right]. apply L_ruleE in H. cbn [rules] in H. apply L_actionE in H as [[]|[_ H]].
  lchoice H. destruct Hi as [<-|[<-|[<-|[]]]].
  - left. now apply L_litE0 in H.
  - right. left. now apply L_litE0 in H.
  - right. right. apply L_seqE in H; [|reflexivity]. apply Ls_consE in H as (k & ? & -> & A & H). apply Ls_consE in H as (eq & ? & -> & Hs & H).
    apply Ls_nilE in H. subst. rewrite app_nil_r. apply L_classE in A as (c & -> & Hc).
    unfold in_class, lower_if in Hc. cbn [existsb] in Hc. rewrite xorb_false_l in Hc.
    assert (C : c = 60 \/ c = 62) by lia. clear Hc.
    apply L_optE in Hs as [->|Hs]; [|apply L_litE0 in Hs; subst]; destruct C as [->| ->]; cbn; auto.
Qed.

Theorem forms n : forall w, (length w <= n)%nat ->
  (L (ERule RComparison) w -> clause_form LCmp w) /\ (L (ERule RNotClause) w -> clause_form LNot w) /\
  (L (ERule RAndClause) w -> clause_form LAnd w) /\ (L (ERule ROrClause) w -> clause_form LOr w).
Proof.
  induction n as [n IH] using lt_wf_ind. intros w Hn.
  assert (Sm : forall u, (length u < length w)%nat ->
    (L (ERule RComparison) u -> clause_form LCmp u) /\ (L (ERule RNotClause) u -> clause_form LNot u) /\
    (L (ERule RAndClause) u -> clause_form LAnd u) /\ (L (ERule ROrClause) u -> clause_form LOr u)).
  { intros u Hu. apply (IH (length u)); lia. }
  clear IH Hn n.
  assert (CC : L (ERule RComparison) w -> clause_form LCmp w).
  { intros H. apply L_ruleE in H. cbn [rules] in H. lchoice H. destruct Hi as [<-|[<-|[<-|[]]]]; apply L_actionE in H as [[]|[_ H]]; (apply L_seqE in H; [|reflexivity]).
    - apply Ls_consE in H as (? & ? & -> & A1 & H). apply Ls_consE in H as (w1 & ? & -> & A2 & H). apply Ls_consE in H as (a & ? & -> & A3 & H).
      apply Ls_consE in H as (w2 & ? & -> & A4 & H). apply Ls_consE in H as (? & ? & -> & A5 & H). apply Ls_nilE in H. apply L_litE0 in A1, A5. subst.
      rewrite app_nil_r. apply L_labelE in A3. apply cf_paren; [now apply form_ws|now apply form_ws|].
      apply Sm; [|exact A3]. rewrite !app_length. cbn. lia.
    - apply Ls_consE in H as (f & ? & -> & A1 & H). apply Ls_consE in H as (w1 & ? & -> & A2 & H). apply Ls_consE in H as (? & ? & -> & A3 & H).
      apply Ls_consE in H as (w2 & ? & -> & A4 & H). apply Ls_consE in H as (k & ? & -> & A5 & H). apply Ls_nilE in H. apply L_litE0 in A3. subst.
      rewrite app_nil_r. apply L_labelE in A1, A5. apply cf_noarg; [now apply form_field|now apply form_ws|now apply form_ws|].
      apply L_ruleE in A5. cbn [rules] in A5. apply L_actionE in A5 as [[]|[_ A5]]. lchoice A5. destruct Hi as [<-|[<-|[]]]; apply L_litE0 in A5; subst; [left|right]; reflexivity.
    - apply Ls_consE in H as (f & ? & -> & A1 & H). apply Ls_consE in H as (w1 & ? & -> & A2 & H). apply Ls_consE in H as (? & ? & -> & A3 & H).
      apply Ls_consE in H as (w2 & ? & -> & A4 & H). apply Ls_consE in H as (k & ? & -> & A5 & H). apply Ls_consE in H as (w3 & ? & -> & A6 & H).
      apply Ls_consE in H as (v & ? & -> & A7 & H). apply Ls_nilE in H. apply L_litE0 in A3. subst.
      rewrite app_nil_r. apply L_labelE in A1, A5, A7.
      apply cf_values; [now apply form_field|now apply form_ws|now apply form_ws|now apply form_comp|now apply form_ws|now apply form_values]. }
  assert (CN : L (ERule RNotClause) w -> clause_form LNot w).
  { intros H. apply L_ruleE in H. cbn [rules] in H. lchoice H. destruct Hi as [<-|[<-|[]]].
    - apply L_actionE in H as [[]|[_ H]]. apply L_seqE in H; [|reflexivity].
      apply Ls_consE in H as (k & ? & -> & A1 & H). apply Ls_consE in H as (a & ? & -> & A2 & H). apply Ls_nilE in H. subst. rewrite app_nil_r in *.
      apply L_labelE in A2. apply form_not_op in A1. apply cf_not; auto. apply Sm; [|exact A2]. rewrite app_length. inversion A1; subst; cbn; lia.
    - apply cf_not1. auto. }
  assert (CA : L (ERule RAndClause) w -> clause_form LAnd w).
  { intros H. apply L_ruleE in H. cbn [rules] in H. lchoice H. destruct Hi as [<-|[<-|[]]].
    - apply L_actionE in H as [[]|[_ H]]. apply L_seqE in H; [|reflexivity].
      apply Ls_consE in H as (a & ? & -> & A1 & H). apply Ls_consE in H as (w1 & ? & -> & A2 & H). apply Ls_consE in H as (k & ? & -> & A3 & H).
      apply Ls_consE in H as (w2 & ? & -> & A4 & H). apply Ls_consE in H as (c & ? & -> & A5 & H). apply Ls_nilE in H. subst. rewrite app_nil_r in *.
      apply L_labelE in A1, A5. apply L_ruleE in A3. cbn [rules] in A3. apply L_litE0 in A3. subst.
      rewrite !app_length in Sm. cbn [length] in Sm.
      apply cf_and; [now apply form_space|now apply form_space|apply Sm; [lia|exact A1]|apply Sm; [lia|exact A5]].
    - apply cf_and1. auto. }
  assert (CO : L (ERule ROrClause) w -> clause_form LOr w).
  { intros H. apply L_ruleE in H. cbn [rules] in H. lchoice H. destruct Hi as [<-|[<-|[]]].
    - apply L_actionE in H as [[]|[_ H]]. apply L_seqE in H; [|reflexivity].
      apply Ls_consE in H as (a & ? & -> & A1 & H). apply Ls_consE in H as (w1 & ? & -> & A2 & H). apply Ls_consE in H as (k & ? & -> & A3 & H).
      apply Ls_consE in H as (w2 & ? & -> & A4 & H). apply Ls_consE in H as (c & ? & -> & A5 & H). apply Ls_nilE in H. subst. rewrite app_nil_r in *.
      apply L_labelE in A1, A5. apply L_ruleE in A3. cbn [rules] in A3. apply L_litE0 in A3. subst.
      rewrite !app_length in Sm. cbn [length] in Sm.
      apply cf_or; [now apply form_space|now apply form_space|apply Sm; [lia|exact A1]|apply Sm; [lia|exact A5]].
    - apply cf_or1. auto. }
  auto.
Qed.

Theorem form_query w : L (ERule RQuery) w -> query_form w.
Proof.
  intros A1. apply L_ruleE in A1. cbn [rules] in A1. apply L_actionE in A1 as [[]|[_ H]]. apply L_seqE in H; [|reflexivity].
  apply Ls_consE in H as (w1 & ? & -> & A1 & H). apply Ls_consE in H as (a & ? & -> & A2 & H). apply Ls_consE in H as (w2 & ? & -> & A3 & H). apply Ls_nilE in H. subst.
  exists w1, a, w2. rewrite app_nil_r. split; [reflexivity|]. split; [now apply form_ws|]. split; [now apply form_ws|].
  apply L_labelE in A2. now apply (forms (length a)).
Qed.
