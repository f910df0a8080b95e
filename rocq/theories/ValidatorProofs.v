(** Lemmas about the built-in checks. *)
From Verif Require Import Bytes Oracles GoFloat GoTime Ast AstSpec PegSyntax Engine Validators Visitors ParseQuery.

Section P.
Context (O : oracles).

Lemma must_none types vs :
  must_be_one_of types vs = None <-> Forall (fun v => existsb (val_type_eqb (type_of v)) types = true) vs.
Proof.
  induction vs as [|v vs IH]; cbn; [split; auto|].
  destruct (existsb _ types) eqn:E.
  - destruct (must_be_one_of types vs); cbn; split; intros H.
    + discriminate.
    + inversion H; subst. apply IH in H3. discriminate.
    + constructor; auto. apply IH; auto.
    + auto.
  - split; intros H; [discriminate|]. inversion H; congruence.
Qed.

Lemma must_some types vs i : must_be_one_of types vs = Some i -> exists v, nth_error vs i = Some v.
Proof.
  revert i; induction vs as [|v vs IH]; cbn; [discriminate|]; intros i.
  destruct (existsb _ types).
  - destruct (must_be_one_of types vs) as [k|]; cbn; [|discriminate]. intros [= <-]. cbn. eauto.
  - intros [= <-]. cbn; eauto.
Qed.

Lemma orderable_type v : orderable v <-> existsb (val_type_eqb (type_of v)) [TyInt; TyFloat; TyTime] = true.
Proof. split; [intros H; destruct H; reflexivity | destruct v; cbn; intros; try discriminate; constructor]. Qed.
Lemma simable_type v : simable v <-> existsb (val_type_eqb (type_of v)) [TyString; TyRegex; TyBool] = true.
Proof. split; [intros H; destruct H; reflexivity | destruct v; cbn; intros; try discriminate; constructor]. Qed.

Lemma values_arity_ok e :
  check_values e = COk /\ check_arity e = COk <-> args_ok (x_op e) (x_vals e).
Proof.
  destruct e as [o f vs p]; cbn [x_op x_vals].
  unfold check_values, check_arity; cbn [x_op x_vals x_pos].
  assert (HT : forall k types, (match must_be_one_of types vs with Some i => err_at_val vs i k | None => COk end) = COk
     <-> Forall (fun v => existsb (val_type_eqb (type_of v)) types = true) vs).
  { intros k types. destruct (must_be_one_of types vs) as [i|] eqn:E.
    - split; intros H.
      + destruct (must_some _ _ _ E) as [v Hv]. unfold err_at_val in H. rewrite Hv in H. discriminate.
      + apply must_none in H. congruence.
    - rewrite must_none in E. tauto. }
  assert (H1 : forall k, (if negb (Z.of_nat (length vs) =? 1)%Z then CErr k p else COk) = COk <-> length vs = 1%nat).
  { intros k. destruct (Z.eqb_spec (Z.of_nat (length vs)) 1); cbn; split; intros; try discriminate; try reflexivity; lia. }
  assert (H2 : forall k, (if negb (Z.of_nat (length vs) =? 2)%Z then CErr k p else COk) = COk <-> length vs = 2%nat).
  { intros k. destruct (Z.eqb_spec (Z.of_nat (length vs)) 2); cbn; split; intros; try discriminate; try reflexivity; lia. }
  assert (H3 : forall k, (if (Z.of_nat (length vs) <? 1)%Z then CErr k p else COk) = COk <-> vs <> []).
  { intros k. destruct (Z.ltb_spec (Z.of_nat (length vs)) 1); destruct vs; cbn in *; split; intros; try discriminate; try reflexivity; try lia; congruence. }
  assert (H0 : forall k, (if (0 <? Z.of_nat (length vs))%Z then CErr k p else COk) = COk <-> vs = []).
  { intros k. destruct (Z.ltb_spec 0 (Z.of_nat (length vs))); destruct vs; cbn in *; split; intros; try discriminate; try reflexivity; try lia; congruence. }
  assert (F1 : Forall (fun v => existsb (val_type_eqb (type_of v)) [TyInt; TyFloat; TyTime] = true) vs /\ length vs = 1%nat
               <-> exists v, vs = [v] /\ orderable v).
  { split.
    - intros [Hf Hl]. destruct vs as [|v [|]]; try discriminate. inversion Hf; subst.
      exists v; split; [auto|]. now apply orderable_type.
    - intros (v & -> & Hv). split; [|reflexivity]. constructor; [|constructor]. now apply orderable_type. }
  destruct o; cbn -[existsb Z.of_nat] ;
    cbn [arity andb Z.eqb Z.ltb Z.compare Pos.eqb Pos.compare Pos.compare_cont Z.to_N] in *.
  - rewrite H3. tauto.
  - rewrite HT, H1. exact F1.
  - rewrite HT, H1. exact F1.
  - rewrite HT, H1. exact F1.
  - rewrite HT, H1. exact F1.
  - rewrite HT, H2. split.
    + intros [Hf Hl]. destruct vs as [|v [|w [|]]]; try discriminate.
      inversion Hf; subst. inversion H6; subst.
      exists v, w. repeat split; try (now apply orderable_type).
    + intros (v & w & -> & Hv & Hw). split; [|reflexivity].
      repeat constructor; now apply orderable_type.
  - rewrite HT, H3. split.
    + intros [Hf Hl]. split; auto. intros v Hv. rewrite Forall_forall in Hf. now apply simable_type, Hf.
    + intros [Hl Hf]. split; auto. rewrite Forall_forall. intros v Hv. now apply simable_type, Hf.
  - rewrite H0. tauto.
  - rewrite H0. tauto.
Qed.

(** Duplicates *)
Lemma rvals_loop_ok o vs seen i0 n0 :
  check_rvals_loop O o vs seen i0 n0 = COk <->
  (forall i j v w, nth_error vs i = Some v -> nth_error vs j = Some w -> val_string O v = val_string O w -> i = j) /\
  (forall v, In v vs -> ~ In (val_string O v) seen) /\
  (o = EQ ->
    (forall v, In v vs -> val_string O v = b "true" -> In (b "false") seen -> False) /\
    (forall v, In v vs -> val_string O v = b "false" -> In (b "true") seen -> False) /\
    (forall v w, In v vs -> In w vs -> val_string O v = b "true" -> val_string O w = b "false" -> False)).
Proof.
  assert (Ein : forall s l, existsb (beqb s) l = true <-> In s l).
  { intros s l. rewrite existsb_exists. split.
    - intros (x & Hx & E). apply beqb_eq in E. now subst.
    - intros H. exists s. split; auto. apply beqb_refl. }
  assert (Tf : b "true" <> b "false") by discriminate.
  assert (Oeq : op_eqb o EQ = true <-> o = EQ) by (destruct o; cbn; split; congruence).
  revert seen i0; induction vs as [|v vs IH]; intros seen i0; cbn [check_rvals_loop].
  - split; auto. intros _. repeat split; intros; try (destruct i; discriminate); cbn in *; tauto.
  - destruct (existsb (beqb (val_string O v)) seen) eqn:E1.
    + apply Ein in E1. split; [discriminate|]. intros (_ & H & _). exfalso. eapply H; eauto. now left.
    + assert (N1 : ~ In (val_string O v) seen) by (rewrite <- Ein; congruence).
      match goal with |- (if ?c then _ else _) = _ <-> _ => destruct c eqn:E2 end.
      * split; [discriminate|]. intros (_ & _ & H). exfalso.
        apply andb_true_iff in E2 as [E2 E3]. apply Oeq in E2. specialize (H E2) as (Ha & Hb & _).
        apply orb_true_iff in E3 as [E3|E3]; apply andb_true_iff in E3 as [E3 E4]; apply beqb_eq in E3;
          apply Ein in E4.
        -- eapply Ha; eauto. now left.
        -- eapply Hb; eauto. now left.
      * assert (N2 : o = EQ -> ~ (val_string O v = b "true" /\ In (b "false") seen) /\ ~ (val_string O v = b "false" /\ In (b "true") seen)).
        { intros Ho. apply Oeq in Ho. rewrite Ho, andb_true_l in E2. apply orb_false_iff in E2 as [Ea Eb].
          split; intros [Hv Hs]; apply Ein in Hs; [rewrite Hv, beqb_refl, Hs in Ea | rewrite Hv, beqb_refl, Hs in Eb]; discriminate. }
        rewrite IH. split.
        -- intros (HD & HS & HB). split; [|split].
           ++ intros i j x y Hi Hj E. destruct i, j; cbn in Hi, Hj.
              ** reflexivity.
              ** injection Hi as <-. exfalso. apply (HS y); [eapply nth_error_In; eauto|]. left; auto.
              ** injection Hj as <-. exfalso. apply (HS x); [eapply nth_error_In; eauto|]. left; auto.
              ** f_equal. eapply HD; eauto.
           ++ intros x [<-|Hx]; auto. intros Hs. apply (HS x Hx). now right.
           ++ intros Ho. specialize (HB Ho) as (Ba & Bb & Bc). specialize (N2 Ho) as [Na Nb].
              split; [|split].
              ** intros x [<-|Hx] Ex Hs; [tauto|]. apply (Ba x Hx Ex). now right.
              ** intros x [<-|Hx] Ex Hs; [tauto|]. apply (Bb x Hx Ex). now right.
              ** intros x y [<-|Hx] [<-|Hy] Ex Ey; try congruence.
                 --- apply (Bb y Hy Ey). left; congruence.
                 --- apply (Ba x Hx Ex). left; congruence.
                 --- eauto.
        -- intros (HD & HS & HB). split; [|split].
           ++ intros i j x y Hi Hj E. specialize (HD (S i) (S j) x y Hi Hj E). congruence.
           ++ intros x Hx [E|Hs].
              ** apply In_nth_error in Hx as [i Hi]. specialize (HD 0%nat (S i) v x eq_refl Hi E). discriminate.
              ** apply (HS x); [now right|auto].
           ++ intros Ho. specialize (HB Ho) as (Ba & Bb & Bc). split; [|split].
              ** intros x Hx Ex [Es|Hs]; [apply (Bc x v); [right;auto|now left|auto|auto]|apply (Ba x); [now right|auto|auto]].
              ** intros x Hx Ex [Es|Hs]; [apply (Bc v x); [now left|right;auto|auto|auto]|apply (Bb x); [now right|auto|auto]].
              ** intros x y Hx Hy. apply Bc; now right.
Qed.

Lemma check_rvals_ok e :
  check_rvals O e = COk <-> distinct_ok O (x_op e) (x_vals e).
Proof.
  unfold check_rvals, distinct_ok. destruct (Nat.leb_spec (length (x_vals e)) 1) as [Hl|Hl].
  - split; auto. intros _. destruct (x_vals e) as [|v [|]]; cbn in Hl; try lia.
    + split; [intros [|i] [|j] ? ?; cbn; discriminate|]. intros _ (? & [] & _).
    + split.
      * intros [|[|i]] [|[|j]] x y; cbn; congruence.
      * intros _ (x & [<-|[]] & Ex) (y & [<-|[]] & Ey). rewrite Ex in Ey. discriminate.
  - rewrite rvals_loop_ok. split.
    + intros (HD & _ & HB). split; auto. intros Ho (x & Hx & Ex) (y & Hy & Ey).
      specialize (HB Ho) as (_ & _ & Hc). eauto.
    + intros (HD & HB). split; [exact HD|split].
      * intros v Hv [].
      * intros Ho. split; [|split]; cbn; eauto.
        intros x y Hx Hy Ex Ey. apply HB; eauto.
Qed.

Lemma check_between_ok e v w :
  x_op e = BET -> x_vals e = [v; w] -> orderable v -> orderable w ->
  check_between e = COk <-> range_ok v w.
Proof.
  intros Ho Hv Ov Ow. unfold check_between. rewrite Ho, Hv. cbn [negb op_eqb].
  assert (HT : forall t t', (if instant_after t t' || instant_eqb t t' then CErr VeSecondGreater (val_pos w) else COk) = COk
     <-> (i_sec t < i_sec t' \/ i_sec t = i_sec t' /\ i_nsec t < i_nsec t')%Z).
  { intros t t'. unfold instant_after, instant_eqb.
    destruct (Z.ltb_spec (i_sec t') (i_sec t)), (Z.eqb_spec (i_sec t) (i_sec t')),
      (Z.ltb_spec (i_nsec t') (i_nsec t)), (Z.eqb_spec (i_nsec t) (i_nsec t')); cbn;
      split; intros; try discriminate; try lia; auto. }
  assert (HN : forall x y, (if f_le y x then CErr VeSecondGreater (val_pos w) else COk) = COk <-> f_le y x = false).
  { intros x y. destruct (f_le y x); split; congruence. }
  destruct Ov; destruct Ow; cbn [num_or_zero]; rewrite ?HT, ?HN;
  (split; [intros H | intros H; inversion H; subst]);
  repeat match goal with H : denotes_num _ _ |- _ => inversion H; subst; clear H end;
  try discriminate; auto;
  try (eapply range_num; [constructor|constructor|assumption]);
  try (eapply range_mixed; [constructor|assumption]);
  try (apply range_time; assumption).
Qed.

Definition expr_ok (o : op) (vs : list aval) : Prop :=
  args_ok o vs /\ distinct_ok O o vs /\
  (o = BET -> exists v w, vs = [v; w] /\ range_ok v w).

Lemma op_checks_ok e : op_checks O e = COk <-> expr_ok (x_op e) (x_vals e).
Proof.
  unfold op_checks, expr_ok.
  pose proof (values_arity_ok e) as HA. pose proof (check_rvals_ok e) as HR.
  assert (HB : args_ok (x_op e) (x_vals e) ->
     (check_between e = COk <-> (x_op e = BET -> exists v w, x_vals e = [v; w] /\ range_ok v w))).
  { intros Ha. destruct (op_eqb (x_op e) BET) eqn:E.
    - assert (Ho : x_op e = BET) by (destruct (x_op e); cbn in E; congruence).
      rewrite Ho in Ha. destruct Ha as (v & w & Hv & Ov & Ow).
      rewrite (check_between_ok e v w Ho Hv Ov Ow), Ho, Hv. split.
      + intros H _. eauto.
      + intros H. destruct (H eq_refl) as (v' & w' & E2 & Hr). now injection E2 as <- <-.
    - unfold check_between. rewrite E. split; auto. intros _ Ho. rewrite Ho in E. discriminate. }
  destruct (check_values e); [|split; [discriminate|intros (Ha & _); apply HA in Ha as [? _]; discriminate]
                              |split; [discriminate|intros (Ha & _); apply HA in Ha as [? _]; discriminate]].
  destruct (check_arity e); [|split; [discriminate|intros (Ha & _); apply HA in Ha as [_ ?]; discriminate]
                              |split; [discriminate|intros (Ha & _); apply HA in Ha as [_ ?]; discriminate]].
  assert (Ha : args_ok (x_op e) (x_vals e)) by (apply HA; auto).
  specialize (HB Ha).
  destruct (check_rvals O e).
  - rewrite HB. split; [intros H; split; [auto|split; [apply HR; auto|auto]] | intros (_ & _ & H); auto].
  - split; [discriminate|]. intros (_ & H & _). apply HR in H. discriminate.
  - split; [discriminate|]. intros (_ & H & _). apply HR in H. discriminate.
Qed.

Lemma op_checks_no_panic e : op_checks O e <> CPanic.
Proof.
  unfold op_checks.
  assert (Hr : forall o vs seen i n, check_rvals_loop O o vs seen i n <> CPanic).
  { intros o vs; induction vs as [|v vs IH]; intros seen i n; cbn -[Z.add]; [discriminate|].
    destruct (existsb _ _); [discriminate|]. match goal with |- (if ?c then _ else _) <> _ => destruct c end; [discriminate|auto]. }
  destruct (check_values e) eqn:E1; try discriminate.
  - destruct (check_arity e) eqn:E2; try discriminate.
    + destruct (check_rvals O e) eqn:E3; try discriminate.
      * pose proof (proj1 (values_arity_ok e) (conj E1 E2)) as Ha.
        unfold check_between. destruct (op_eqb (x_op e) BET) eqn:E; [|discriminate]. cbn.
        assert (Ho : x_op e = BET) by (destruct (x_op e); cbn in E; congruence).
        rewrite Ho in Ha. destruct Ha as (v & w & -> & Ov & Ow).
        destruct v; try (destruct (f_le _ _); discriminate).
        destruct w; try discriminate. destruct (_ || _); discriminate.
      * exfalso. revert E3. unfold check_rvals. destruct (Nat.leb _ _); [discriminate|apply Hr].
    + exfalso. revert E2. unfold check_arity. destruct (x_op e); cbn -[Z.of_nat];
      repeat match goal with |- context [if ?c then _ else _] => destruct c end; discriminate.
  - exfalso. revert E1. unfold check_values.
    destruct (x_op e); try discriminate;
    match goal with |- context [must_be_one_of ?t ?vs] => destruct (must_be_one_of t vs) eqn:Em end; try discriminate;
    apply must_some in Em as [v Hv]; unfold err_at_val; rewrite Hv; discriminate.
Qed.

(** The tree walk with opValidator accepts exactly when every comparison is accepted. *)
Fixpoint all_ok (n : node) : Prop :=
  match n with
  | NAnd x y | NOr x y => all_ok x /\ all_ok y
  | NNot x => all_ok x
  | NExpr o f vs p => expr_ok o vs
  end.

Lemma all_ok_subnodes n :
  all_ok n <-> forall o f vs p, subnode (NExpr o f vs p) n -> expr_ok o vs.
Proof.
  induction n as [l IHl r IHr|l IHl r IHr|e IH|o f vs p]; cbn.
  - rewrite IHl, IHr. split.
    + intros [Hl Hr] o f vs p H. inversion H; subst; eauto.
    + intros H; split; intros; eapply H; [apply sub_and_l|apply sub_and_r]; eauto.
  - rewrite IHl, IHr. split.
    + intros [Hl Hr] o f vs p H. inversion H; subst; eauto.
    + intros H; split; intros; eapply H; [apply sub_or_l|apply sub_or_r]; eauto.
  - rewrite IH. split.
    + intros He o f vs p H. inversion H; subst; eauto.
    + intros H; intros; eapply H; apply sub_not; eauto.
  - split.
    + intros H o' f' vs' p' Hs. inversion Hs; subst; auto.
    + intros H. eapply H. apply sub_refl.
Qed.

Lemma walkr_validator n s :
  let r := walkr (validator_visitor O) n s in
  match fst r with
  | VNone => snd r = s /\ all_ok n
  | VParseErr p k => ~ all_ok n
  | _ => False
  end.
Proof.
  revert s; induction n as [l IHl r IHr|l IHl r IHr|e IH|o f vs p]; intros [[] t]; cbn.
  - specialize (IHl (tt, t)). destruct (walkr _ l _) as [rl sl] eqn:El; cbn in IHl |- *.
    destruct rl; cbn in *; try tauto. destruct IHl as [-> Hl]. specialize (IHr (tt, t)).
    destruct (walkr _ r _) as [rr sr]; cbn in *. destruct rr; tauto.
  - specialize (IHl (tt, t)). destruct (walkr _ l _) as [rl sl] eqn:El; cbn in IHl |- *.
    destruct rl; cbn in *; try tauto. destruct IHl as [-> Hl]. specialize (IHr (tt, t)).
    destruct (walkr _ r _) as [rr sr]; cbn in *. destruct rr; tauto.
  - apply IH.
  - pose proof (op_checks_ok {| x_op := o; x_field := f; x_vals := vs; x_pos := p |}) as H.
    pose proof (op_checks_no_panic {| x_op := o; x_field := f; x_vals := vs; x_pos := p |}) as Hp.
    destruct (op_checks O _); cbn.
    + split; auto. now apply H.
    + intros Hx. apply H in Hx. discriminate.
    + congruence.
Qed.

Lemma walk_validator_ok n : walk_validator O n = COk <-> all_ok n.
Proof.
  unfold walk_validator, walk. pose proof (walkr_validator n (tt, empty_tape)) as H. cbn zeta in H.
  destruct (walkr _ n _) as [r s']; cbn in *. destruct r; cbn in *; try tauto;
    split; try discriminate; tauto.
Qed.
Lemma walk_validator_no_panic n : walk_validator O n <> CPanic.
Proof.
  unfold walk_validator, walk. pose proof (walkr_validator n (tt, empty_tape)) as H. cbn zeta in H.
  destruct (walkr _ n _) as [r s']; cbn in *. destruct r; cbn in *; try tauto; discriminate.
Qed.
End P.
