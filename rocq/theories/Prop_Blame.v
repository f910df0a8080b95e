(** C104: what the operator checks blame. *)
From Verif Require Import Bytes Utf8 Utf8Proofs Oracles GoFloat GoTime Ast AstSpec PegSyntax Engine Validators Visitors ParseQuery
  ValidatorProofs BlameSpec GrammarSpec ClauseProofs ParserTop Prop_Grammar TestOracle.

Section P.
Context (O : oracles).

Lemma must_split types vs i : must_be_one_of types vs = Some i <->
  exists us v ws, vs = us ++ v :: ws /\ i = length us /\
    Forall (fun v => existsb (val_type_eqb (type_of v)) types = true) us /\ existsb (val_type_eqb (type_of v)) types = false.
Proof.
  revert i. induction vs as [|x vs IH]; intros i; cbn [must_be_one_of].
  - split; [discriminate|]. intros ([|] & ? & ? & ? & _); discriminate.
  - destruct (existsb (val_type_eqb (type_of x)) types) eqn:E.
    + split.
      * destruct (must_be_one_of types vs) as [k|] eqn:M; [|discriminate]. cbn. intros [= <-].
        destruct (proj1 (IH k) eq_refl) as (us & v & ws & -> & -> & F & B).
        exists (x :: us), v, ws. repeat split; auto.
      * intros ([|u us] & v & ws & Ev & -> & F & B); injection Ev as -> ->; [congruence|].
        inversion F; subst. rewrite (proj2 (IH (length us))); [reflexivity|]. exists us, v, ws. auto.
    + split.
      * intros [= <-]. exists [], x, vs. auto.
      * intros ([|u us] & v & ws & Ev & -> & F & B); [reflexivity|]. injection Ev as -> ->. inversion F; congruence.
Qed.

Lemma kind_error k types vs k' q :
  match must_be_one_of types vs with Some i => err_at_val vs i k | None => COk end = CErr k' q <->
  k' = k /\ exists us v ws, vs = us ++ v :: ws /\ q = val_pos v /\
    Forall (fun v => existsb (val_type_eqb (type_of v)) types = true) us /\ existsb (val_type_eqb (type_of v)) types = false.
Proof.
  destruct (must_be_one_of types vs) as [i|] eqn:M.
  - apply must_split in M. destruct M as (us & v & ws & -> & -> & F & B). unfold err_at_val.
    rewrite nth_error_app2, Nat.sub_diag by lia. cbn. split.
    + intros [= <- <-]. split; [reflexivity|]. exists us, v, ws. auto.
    + intros (-> & us' & v' & ws' & E & -> & F' & B'). f_equal. f_equal.
      clear -E F B F' B'. revert us' E F'. induction us as [|x us IH]; intros [|y us'] E F'; cbn in E; injection E as -> E.
      * reflexivity.
      * inversion F'; subst. congruence.
      * inversion F; subst. congruence.
      * inversion F; inversion F'; subst. eapply IH; eauto.
  - split; [discriminate|]. intros (_ & us & v & ws & -> & _ & F & B).
    assert (must_be_one_of types (us ++ v :: ws) = Some (length us)) by (apply must_split; exists us, v, ws; auto). congruence.
Qed.

Lemma not_orderable v : ~ orderable v <-> existsb (val_type_eqb (type_of v)) [TyInt; TyFloat; TyTime] = false.
Proof. rewrite orderable_type. destruct (existsb _ _); intuition congruence. Qed.
Lemma not_simable v : ~ simable v <-> existsb (val_type_eqb (type_of v)) [TyString; TyRegex; TyBool] = false.
Proof. rewrite simable_type. destruct (existsb _ _); intuition congruence. Qed.

Lemma orderables vs : Forall orderable vs <-> Forall (fun v => existsb (val_type_eqb (type_of v)) [TyInt; TyFloat; TyTime] = true) vs.
Proof. rewrite !Forall_forall. split; intros H v Hv; now apply orderable_type, H. Qed.
Lemma simables vs : Forall simable vs <-> Forall (fun v => existsb (val_type_eqb (type_of v)) [TyString; TyRegex; TyBool] = true) vs.
Proof. rewrite !Forall_forall. split; intros H v Hv; now apply simable_type, H. Qed.

Lemma in_seen s l : existsb (beqb s) l = true <-> In s l.
Proof.
  rewrite existsb_exists. split.
  - intros (x & Hx & E). apply beqb_eq in E. now subst.
  - intros H. exists s. split; auto. apply beqb_refl.
Qed.

(** The condition on printed texts as a condition on one list. *)
Lemma distinct_printed o vs : distinct_ok O o vs <->
  NoDup (printed O vs) /\ (o = EQ -> ~ (In (b "true") (printed O vs) /\ In (b "false") (printed O vs))).
Proof.
  assert (In_p : forall s, In s (printed O vs) <-> exists v, In v vs /\ val_string O v = s).
  { intros s. unfold printed. rewrite in_map_iff. split; intros (v & H1 & H2); eauto. }
  unfold distinct_ok. rewrite NoDup_nth_error. split.
  - intros [D B]. split.
    + intros i j Hi E. unfold printed in *. rewrite map_length in Hi. rewrite !nth_error_map in E.
      destruct (nth_error vs i) as [v|] eqn:Ei; [|apply nth_error_None in Ei; lia].
      destruct (nth_error vs j) as [w|] eqn:Ej; [|discriminate]. cbn in E. injection E as E. now apply (D i j v w).
    + intros Ho [T F]. apply In_p in T, F. destruct T as (v & Hv & Ev), F as (w & Hw & Ew). apply (B Ho); eauto.
  - intros [D B]. split.
    + intros i j v w Ei Ej E. apply D.
      * unfold printed. rewrite map_length. apply nth_error_Some. congruence.
      * unfold printed. rewrite !nth_error_map, Ei, Ej. cbn. now rewrite E.
    + intros Ho T F. apply (B Ho). split; apply In_p; assumption.
Qed.

Lemma distinct_snoc o us v : distinct_ok O o (us ++ [v]) <->
  distinct_ok O o us /\ ~ In (val_string O v) (printed O us) /\
  (o = EQ -> forall x, In x (printed O us) -> ~ opposite (val_string O v) x).
Proof.
  rewrite !distinct_printed. unfold printed. rewrite map_app. cbn [map].
  assert (Nd : forall (l : list bytes) x, NoDup (l ++ [x]) <-> NoDup l /\ ~ In x l).
  { intros l x. split.
    - intros H. split; [|apply NoDup_remove_2 in H; rewrite app_nil_r in H; exact H].
      apply NoDup_remove_1 in H. now rewrite app_nil_r in H.
    - intros [H1 H2]. apply NoDup_Add with (a := x) (l := l); [|auto]. rewrite <- (app_nil_r l) at 1. apply Add_app. }
  rewrite Nd. set (l := map (val_string O) us). set (s := val_string O v).
  assert (In1 : forall x, In x (l ++ [s]) <-> In x l \/ x = s).
  { intros x. rewrite in_app_iff. cbn. intuition. }
  setoid_rewrite In1. unfold opposite. split.
  - intros [[D N] B]. split; [|split]; [|exact N|].
    + split; [exact D|]. intros Ho [T F]. apply (B Ho). auto.
    + intros Ho x Hx [[E1 E2]|[E1 E2]]; subst x; apply (B Ho); rewrite <- ?E1; auto.
  - intros [[D B] [N C]]. split; [auto|]. intros Ho [[T|T] [F|F]].
    + apply (B Ho); auto.
    + apply (C Ho _ T). right. auto.
    + apply (C Ho _ F). left. auto.
    + rewrite <- T in F. discriminate.
Qed.

Lemma rvals_error o vs us0 n k q : distinct_ok O o us0 ->
  check_rvals_loop O o vs (rev (printed O us0)) (Z.of_nat (length us0)) n = CErr k q <->
  exists us v ws, vs = us ++ v :: ws /\ distinct_ok O o (us0 ++ us) /\ q = val_pos v /\
    ((k = VeDuplicate (val_string O v) (Z.of_nat (S (length (us0 ++ us)))) n /\ In (val_string O v) (printed O (us0 ++ us))) \/
     (k = VeConflictBool (val_string O v) (Z.of_nat (S (length (us0 ++ us)))) n /\ o = EQ /\ ~ In (val_string O v) (printed O (us0 ++ us)) /\
      exists x, In x (printed O (us0 ++ us)) /\ opposite (val_string O v) x)).
Proof.
  revert us0. induction vs as [|v vs IH]; intros us0 D; cbn [check_rvals_loop].
  { split; [discriminate|]. intros ([|] & ? & ? & ? & _); discriminate. }
  assert (Sn : forall s, existsb (beqb s) (rev (printed O us0)) = true <-> In s (printed O us0)).
  { intros s. rewrite in_seen. symmetry. apply in_rev. }
  set (s := val_string O v). pose proof (distinct_snoc o us0 v) as Snoc. fold s in Snoc.
  assert (Hd : forall us x ws, v :: vs = us ++ x :: ws -> distinct_ok O o (us0 ++ us) ->
            (us = [] /\ x = v /\ ws = vs) \/ exists us', us = v :: us' /\ vs = us' ++ x :: ws /\ distinct_ok O o (us0 ++ [v])).
  { intros [|u us] x ws E Du; cbn in E; injection E as <- E; [auto|]. right. exists us. split; [reflexivity|]. split; [exact E|].
    apply distinct_printed in Du. apply distinct_printed.
    replace (us0 ++ v :: us) with ((us0 ++ [v]) ++ us) in Du by now rewrite <- app_assoc.
    unfold printed in *. rewrite map_app in Du. destruct Du as [N B]. split.
    - clear -N. induction us as [|y us IH] using rev_ind; [now rewrite app_nil_r in N|].
      rewrite (map_app (val_string O) us [y]) in N. cbn in N. rewrite app_assoc in N. apply NoDup_remove_1 in N. rewrite app_nil_r in N. auto.
    - intros Ho [T F]. apply (B Ho). rewrite !in_app_iff. auto. }
  replace (Z.of_nat (length us0) + 1)%Z with (Z.of_nat (S (length us0))) by lia.
  destruct (existsb (beqb s) (rev (printed O us0))) eqn:E1.
  - apply Sn in E1. split.
    + intros [= <- <-]. exists [], v, vs. rewrite app_nil_r. split; [reflexivity|]. split; [exact D|]. split; [reflexivity|]. left. now split.
    + intros (us & x & ws & E & Du & -> & K). destruct (Hd _ _ _ E Du) as [(-> & -> & ->)|(us' & _ & _ & D1)].
      * rewrite app_nil_r in K. destruct K as [[-> _]|(_ & _ & N & _)]; [reflexivity|contradiction].
      * apply Snoc in D1. destruct D1 as (_ & N & _). contradiction.
  - assert (N1 : ~ In s (printed O us0)) by (rewrite <- Sn; congruence).
    match goal with |- (if ?c then _ else _) = _ <-> _ => destruct c eqn:E2 end.
    + apply andb_prop in E2. destruct E2 as [Eo E2].
      assert (Ho : o = EQ) by (destruct o; cbn in Eo; congruence).
      assert (Op : exists x, In x (printed O us0) /\ opposite s x).
      { apply orb_prop in E2. destruct E2 as [E2|E2]; apply andb_prop in E2; destruct E2 as [E2 E3];
          apply beqb_eq in E2; apply Sn in E3; eexists; split; try exact E3; [left|right]; auto. }
      split.
      * intros [= <- <-]. exists [], v, vs. rewrite app_nil_r. split; [reflexivity|]. split; [exact D|]. split; [reflexivity|]. right. auto.
      * intros (us & x & ws & E & Du & -> & K). destruct (Hd _ _ _ E Du) as [(-> & -> & ->)|(us' & _ & _ & D1)].
        -- rewrite app_nil_r in K. destruct K as [[_ I1]|(-> & _)]; [contradiction|reflexivity].
        -- apply Snoc in D1. destruct D1 as (_ & _ & C). destruct Op as (y & Hy & Oy). now apply (C Ho y Hy) in Oy.
    + assert (C : o = EQ -> forall x, In x (printed O us0) -> ~ opposite s x).
      { intros -> x Hx Op. cbn [op_eqb andb] in E2. apply orb_false_iff in E2. destruct E2 as [Ea Eb].
        apply Sn in Hx. destruct Op as [[Es ->]|[Es ->]]; rewrite Es, Hx, beqb_refl in *; discriminate. }
      assert (D1 : distinct_ok O o (us0 ++ [v])) by (apply Snoc; auto).
      replace (s :: rev (printed O us0)) with (rev (printed O (us0 ++ [v]))).
      2: { unfold printed. rewrite map_app, rev_app_distr. reflexivity. }
      replace (S (length us0)) with (length (us0 ++ [v])) by (rewrite app_length; cbn; lia). rewrite (IH (us0 ++ [v]) D1). split.
      * intros (us & x & ws & -> & K). exists (v :: us), x, ws. rewrite <- app_assoc in K. cbn [app] in K. split; [reflexivity|exact K].
      * intros (us & x & ws & E & Du & K). destruct (Hd _ _ _ E Du) as [(-> & -> & ->)|(us' & -> & -> & _)].
        -- exfalso. rewrite app_nil_r in K. destruct K as [_ [[_ I1]|(_ & Ho & _ & y & Hy & Oy)]]; [contradiction|].
           now apply (C Ho y Hy) in Oy.
        -- exists us', x, ws. rewrite <- app_assoc. cbn [app]. auto.
Qed.

Definition X o f vs p := {| x_op := o; x_field := f; x_vals := vs; x_pos := p |}.

Lemma distinct_nil o : distinct_ok O o [].
Proof. apply distinct_printed. split; [apply NoDup_nil|]. intros _ [[] _]. Qed.

Lemma check_rvals_err o f vs p k q : check_rvals O (X o f vs p) = CErr k q <->
  exists us v ws, vs = us ++ v :: ws /\ distinct_ok O o us /\ q = val_pos v /\
    ((k = VeDuplicate (val_string O v) (Z.of_nat (S (length us))) (Z.of_nat (length vs)) /\ In (val_string O v) (printed O us)) \/
     (k = VeConflictBool (val_string O v) (Z.of_nat (S (length us))) (Z.of_nat (length vs)) /\ o = EQ /\ ~ In (val_string O v) (printed O us) /\
      exists x, In x (printed O us) /\ opposite (val_string O v) x)).
Proof.
  pose proof (rvals_error o vs [] (Z.of_nat (length vs)) k q (distinct_nil o)) as R. cbn [printed map rev app length Z.of_nat] in R.
  unfold check_rvals. cbn [x_vals x_op X]. destruct (Nat.leb_spec (length vs) 1) as [Hl|Hl]; [|exact R].
  split; [discriminate|]. intros ([|u us] & v & ws & -> & _ & _ & K).
  - cbn in K. destruct K as [[_ []]|(_ & _ & _ & x & [] & _)].
  - cbn in Hl. rewrite app_length in Hl. cbn in Hl. lia.
Qed.

Lemma check_values_err o f vs p k q : check_values (X o f vs p) = CErr k q <->
  (k = VeNeedsNumeric o /\ (ordering o \/ o = BET) /\ exists us v ws, vs = us ++ v :: ws /\ q = val_pos v /\ Forall orderable us /\ ~ orderable v) \/
  (k = VeNeedsStringy o /\ o = SIM /\ exists us v ws, vs = us ++ v :: ws /\ q = val_pos v /\ Forall simable us /\ ~ simable v).
Proof.
  unfold check_values, ordering. cbn [x_op x_vals X].
  setoid_rewrite not_orderable. setoid_rewrite not_simable. setoid_rewrite orderables. setoid_rewrite simables.
  destruct o; try (rewrite kind_error; intuition congruence); split; try discriminate; intuition congruence.
Qed.

Lemma check_arity_err o f vs p k q : (o = EXS \/ o = NUL -> vs = []) -> (o = EQ \/ o = SIM -> vs <> []) ->
  check_arity (X o f vs p) = CErr k q <->
  q = p /\ ((ordering o /\ k = VeExactly o 1 /\ length vs <> 1%nat) \/ (o = BET /\ k = VeExactly o 2 /\ length vs <> 2%nat)).
Proof.
  intros H0 H1. unfold check_arity, ordering. cbn [x_op x_vals x_pos X].
  destruct o; cbn [arity Z.eqb Z.ltb Z.compare andb Pos.eqb Z.to_N Pos.compare Pos.compare_cont];
    try (destruct (Z.eqb_spec (Z.of_nat (length vs)) 1); cbn [negb]; (split;
         [first [discriminate|intros [= <- <-]; split; [reflexivity|left; repeat split; auto; lia]]
         |intros (-> & [(_ & -> & Hn)|(? & _)]); [solve [lia|reflexivity]|discriminate]])).
  - destruct vs as [|v vs]; [now destruct (H1 (or_introl eq_refl))|].
    replace (Z.of_nat (length (v :: vs)) <? 1)%Z with false by (symmetry; apply Z.ltb_ge; cbn; lia).
    split; [discriminate|]. intros (_ & [([|[|[|]]] & _)|(? & _)]); discriminate.
  - destruct (Z.eqb_spec (Z.of_nat (length vs)) 2); cbn [negb]; split;
      [discriminate| |intros [= <- <-]; split; [reflexivity|right; repeat split; auto; lia]|].
    + intros (_ & [([|[|[|]]] & _)|(_ & _ & Hn)]); [discriminate..|lia].
    + intros (-> & [([|[|[|]]] & _)|(_ & -> & Hn)]); [discriminate..|reflexivity].
  - destruct vs as [|v vs]; [now destruct (H1 (or_intror eq_refl))|].
    replace (Z.of_nat (length (v :: vs)) <? 1)%Z with false by (symmetry; apply Z.ltb_ge; cbn; lia).
    split; [discriminate|]. intros (_ & [([|[|[|]]] & _)|(? & _)]); discriminate.
  - rewrite (H0 (or_introl eq_refl)). split; [discriminate|]. intros (_ & [([|[|[|]]] & _)|(? & _)]); discriminate.
  - rewrite (H0 (or_intror eq_refl)). split; [discriminate|]. intros (_ & [([|[|[|]]] & _)|(? & _)]); discriminate.
Qed.

Lemma check_between_err f v w p k q : orderable v -> orderable w ->
  check_between (X BET f [v; w] p) = CErr k q <->
  q = val_pos w /\ ((k = VeSecondDatetime /\ is_time v /\ ~ is_time w) \/
                    (k = VeSecondGreater /\ (is_time v -> is_time w) /\ ~ range_ok v w)).
Proof.
  intros Ov Ow. pose proof (check_between_ok (X BET f [v; w] p) v w eq_refl eq_refl Ov Ow) as Ok.
  assert (Nt : forall x : Prop, (exists t d s q0, w = ATime t d s q0) -> is_time w) by (intros _ H; exact H).
  destruct (check_between (X BET f [v; w] p)) as [|k' q'|] eqn:E.
  - split; [discriminate|]. intros (-> & [(_ & (t & d & s & q0 & ->) & N)|(_ & _ & N)]).
    + exfalso. destruct w; try discriminate. apply N. unfold is_time. eauto 6.
    + destruct N. now apply Ok.
  - assert (Nr : ~ range_ok v w) by (intros R; apply Ok in R; discriminate).
    assert (Q : q' = val_pos w /\ ((k' = VeSecondDatetime /\ is_time v /\ ~ is_time w) \/
                    (k' = VeSecondGreater /\ (is_time v -> is_time w)))).
    { revert E. unfold check_between. cbn [x_op x_vals X negb op_eqb].
      destruct v as [| | | | | |t d s q0];
        try (destruct (f_le _ _); [|discriminate]; intros [= <- <-]; split; [reflexivity|right; split; [reflexivity|]];
             intros (? & ? & ? & ? & ?); discriminate).
      assert (Tv : is_time (ATime t d s q0)) by (unfold is_time; eauto 6).
      destruct w as [| | | | | |t' d' s' q1];
        try (intros [= <- <-]; split; [reflexivity|left; split; [reflexivity|]]; split; [exact Tv|]; intros (? & ? & ? & ? & ?); discriminate).
      destruct (_ || _); [|discriminate]. intros [= <- <-]. split; [reflexivity|right; split; [reflexivity|]]. unfold is_time; eauto 6. }
    destruct Q as [-> Q]. split.
    + intros [= <- <-]. intuition.
    + intros (-> & K). f_equal. intuition congruence.
  - exfalso. revert E. unfold check_between. cbn [x_op x_vals X negb op_eqb]. destruct v; try (destruct (f_le _ _); discriminate).
    destruct w; try discriminate. destruct (_ || _); discriminate.
Qed.

Lemma op_checks_err o f vs p k q : (o = EXS \/ o = NUL -> vs = []) -> (o = EQ \/ o = SIM -> vs <> []) ->
  op_checks O (X o f vs p) = CErr k q <-> blamed O (o, vs, p) k q.
Proof.
  intros H0 H1. pose proof (values_arity_ok (X o f vs p)) as VA. pose proof (check_rvals_ok O (X o f vs p)) as VR.
  cbn [x_op x_vals X] in VA, VR.
  assert (KindOk : check_values (X o f vs p) = COk <->
    ((ordering o \/ o = BET -> Forall orderable vs) /\ (o = SIM -> Forall simable vs))).
  { unfold check_values. cbn [x_op x_vals X]. rewrite orderables, simables.
    assert (M : forall k0 types, match must_be_one_of types vs with Some i => err_at_val vs i k0 | None => COk end = COk <->
       Forall (fun v => existsb (val_type_eqb (type_of v)) types = true) vs).
    { intros k0 types. rewrite <- must_none. destruct (must_be_one_of types vs) eqn:E; [|tauto].
      apply must_split in E. destruct E as (us & v & ws & -> & -> & _). unfold err_at_val.
      rewrite nth_error_app2, Nat.sub_diag by lia. cbn. split; discriminate. }
    unfold ordering. destruct o; rewrite ?M; intuition congruence. }
  split.
  - unfold op_checks. destruct (check_values (X o f vs p)) as [|k1 q1|] eqn:E1; [|intros [= -> ->]|discriminate].
    2: { apply check_values_err in E1. destruct E1 as [(-> & Ho & us & v & ws & -> & -> & F & N)|(-> & -> & us & v & ws & -> & -> & F & N)].
         - now apply bl_numeric.
         - now apply bl_stringy. }
    destruct (check_arity (X o f vs p)) as [|k1 q1|] eqn:E2; [|intros [= -> ->]|discriminate].
    2: { apply check_arity_err in E2; [|assumption..]. destruct (proj1 KindOk eq_refl) as [Ko Ks].
         destruct E2 as (-> & [(Ho & -> & L)|(-> & -> & L)]).
         - apply bl_one; auto.
         - apply bl_two; auto. }
    pose proof (proj1 VA (conj eq_refl eq_refl)) as A.
    destruct (check_rvals O (X o f vs p)) as [|k1 q1|] eqn:E3; [|intros [= -> ->]|discriminate].
    2: { apply check_rvals_err in E3. destruct E3 as (us & v & ws & -> & D & -> & [[-> I1]|(-> & -> & N & x & Hx & Ox)]).
         - now apply bl_duplicate.
         - now apply bl_conflict with x. }
    pose proof (proj1 VR eq_refl) as D.
    destruct (op_eqb o BET) eqn:Eo; [|unfold check_between; cbn [x_op X]; rewrite Eo; discriminate].
    assert (o = BET) as -> by (destruct o; cbn in Eo; congruence).
    destruct A as (v & w & -> & Ov & Ow). intros B. apply check_between_err in B; [|assumption..].
    destruct B as (-> & [(-> & Tv & Tw)|(-> & T & R)]).
    + now apply bl_datetime.
    + now apply bl_greater.
  - intros B. unfold op_checks. inversion B as [o' us v ws p' Ho F N|us v ws p' F N|o' vs' p' Ho F L|vs' p' F L|
      o' us v ws p' A D I1|us v ws p' x D N Hx Ox|v w p' Tv Ow Tw D|v w p' Ov Ow T D R]; subst.
    + replace (check_values (X o f (us ++ v :: ws) p)) with (CErr (VeNeedsNumeric o) (val_pos v)); [reflexivity|].
      symmetry. apply check_values_err. left. split; [reflexivity|]. split; [assumption|]. exists us, v, ws. auto.
    + replace (check_values (X SIM f (us ++ v :: ws) p)) with (CErr (VeNeedsStringy SIM) (val_pos v)); [reflexivity|].
      symmetry. apply check_values_err. right. split; [reflexivity|]. split; [reflexivity|]. exists us, v, ws. auto.
    + rewrite (proj2 KindOk) by (split; [auto|intros ->; destruct Ho as [|[|[|]]]; discriminate]).
      replace (check_arity (X o f vs q)) with (CErr (VeExactly o 1) q); [reflexivity|].
      symmetry. apply check_arity_err; auto.
    + rewrite (proj2 KindOk) by (split; [auto|discriminate]).
      replace (check_arity (X BET f vs q)) with (CErr (VeExactly BET 2) q); [reflexivity|].
      symmetry. apply check_arity_err; auto.
    + apply (proj2 VA) in A. destruct A as [-> ->].
      replace (check_rvals O (X o f (us ++ v :: ws) p)) with (CErr (VeDuplicate (val_string O v) (Z.of_nat (S (length us))) (Z.of_nat (length (us ++ v :: ws)))) (val_pos v)); [reflexivity|].
      symmetry. apply check_rvals_err. exists us, v, ws. auto 8.
    + destruct (proj2 VA) as [-> ->]; [now apply H1; left|].
      replace (check_rvals O (X EQ f (us ++ v :: ws) p)) with (CErr (VeConflictBool (val_string O v) (Z.of_nat (S (length us))) (Z.of_nat (length (us ++ v :: ws)))) (val_pos v)); [reflexivity|].
      symmetry. apply check_rvals_err. exists us, v, ws. eauto 10.
    + assert (Ov : orderable v) by (destruct Tv as (t & d & s & q0 & ->); apply ord_time).
      destruct (proj2 VA) as [-> ->]; [cbn; eauto 6|]. rewrite (proj2 VR D). apply check_between_err; auto.
    + destruct (proj2 VA) as [-> ->]; [cbn; eauto 6|]. rewrite (proj2 VR D). apply check_between_err; auto.
Qed.

(** The first comparison in reading order that is not accepted. *)
Fixpoint first_fault (l : list (op * list aval * pos)) : option (verr * pos) :=
  match l with
  | [] => None
  | (o, vs, p) :: r =>
    match op_checks O (X o [] vs p) with CErr k q => Some (k, q) | _ => first_fault r end
  end.
Lemma first_fault_app l r : first_fault (l ++ r) = match first_fault l with Some e => Some e | None => first_fault r end.
Proof. induction l as [|[[o vs] p] l IH]; cbn; [reflexivity|]. destruct (op_checks O _); auto. Qed.

Lemma walkr_first n s : walkr (validator_visitor O) n s =
  (match first_fault (comparisons n) with Some (k, q) => VParseErr q k | None => VNone end, s).
Proof.
  revert s. induction n as [l IHl r IHr|l IHl r IHr|e IH|o f vs p]; intros [[] t]; cbn -[op_checks].
  - rewrite IHl, first_fault_app. destruct (first_fault (comparisons l)) as [[k q]|]; [reflexivity|apply IHr].
  - rewrite IHl, first_fault_app. destruct (first_fault (comparisons l)) as [[k q]|]; [reflexivity|apply IHr].
  - apply IH.
  - change (op_checks O {| x_op := o; x_field := f; x_vals := vs; x_pos := p |}) with (op_checks O (X o [] vs p)).
    pose proof (op_checks_no_panic O (X o [] vs p)) as Np. destruct (op_checks O (X o [] vs p)); try reflexivity. now destruct Np.
Qed.

Lemma walk_validator_first n : walk_validator O n =
  match first_fault (comparisons n) with Some (k, q) => CErr k q | None => COk end.
Proof. unfold walk_validator, walk. rewrite walkr_first. destruct (first_fault (comparisons n)) as [[k q]|]; reflexivity. Qed.

(** What the grammar guarantees about the number of values. *)
Definition arranged (c : op * list aval * pos) : Prop :=
  let '(o, vs, _) := c in (o = EXS \/ o = NUL -> vs = []) /\ (o = EQ \/ o = SIM -> vs <> []).

Lemma first_fault_spec l k q : Forall arranged l -> first_fault l = Some (k, q) <->
  exists l1 c l2, l = l1 ++ c :: l2 /\ Forall (faultless O) l1 /\ blamed O c k q.
Proof.
  induction l as [|[[o vs] p] l IH]; intros A; cbn [first_fault].
  { split; [discriminate|]. intros ([|] & ? & ? & ? & _); discriminate. }
  inversion A as [|? ? A01 Al]; subst. cbn in A01. destruct A01 as [A0 A1]. pose proof (op_checks_err o [] vs p) as B.
  pose proof (op_checks_ok O (X o [] vs p)) as K. cbn [x_op x_vals X] in K.
  pose proof (op_checks_no_panic O (X o [] vs p)) as Np.
  destruct (op_checks O (X o [] vs p)) as [|k' q'|] eqn:E; [| |now destruct Np].
  - rewrite (IH Al). split.
    + intros (l1 & c & l2 & -> & F & Bl). exists ((o, vs, p) :: l1), c, l2. split; [reflexivity|]. split; [|exact Bl].
      apply Forall_cons; [|exact F]. apply K. reflexivity.
    + intros ([|c1 l1] & c & l2 & El & F & Bl).
      * injection El as <- <-. apply B in Bl; [discriminate|assumption..].
      * injection El as <- ->. inversion F; subst. exists l1, c, l2. auto.
  - split.
    + intros [= -> ->]. exists [], (o, vs, p), l. split; [reflexivity|]. split; [apply Forall_nil|]. now apply B.
    + intros ([|c1 l1] & c & l2 & El & F & Bl).
      * injection El as <- <-. apply B in Bl; [|assumption..]. congruence.
      * injection El as <- ->. inversion F as [|? ? F1 _]; subst. apply K in F1. discriminate.
Qed.

Lemma comparisons_subnode n o vs p : In (o, vs, p) (comparisons n) -> exists f, subnode (NExpr o f vs p) n.
Proof.
  induction n as [l IHl r IHr|l IHl r IHr|e IH|o' f vs' p']; cbn; rewrite ?in_app_iff.
  - intros [H|H]; [destruct (IHl H) as (f & S)|destruct (IHr H) as (f & S)]; exists f; [now apply sub_and_l|now apply sub_and_r].
  - intros [H|H]; [destruct (IHl H) as (f & S)|destruct (IHr H) as (f & S)]; exists f; [now apply sub_or_l|now apply sub_or_r].
  - intros H. destruct (IH H) as (f & S). exists f. now apply sub_not.
  - intros [H|[]]. injection H as -> -> ->. exists f. apply sub_refl.
Qed.

Lemma query_arranged text t : query O text t -> Forall arranged (comparisons t).
Proof.
  intros (w1 & a & w2 & -> & W1 & W2 & D). apply Forall_forall. intros [[o vs] p] Hi.
  destruct (comparisons_subnode _ _ _ _ Hi) as (f & S).
  destruct (GrammarFacts.derives_expr O _ _ _ _ _ _ _ _ D S) as (a' & k & z & _ & _ & K).
  inversion K as [f0 l0 v1 v2 k0 o0 Hf Hw1 Hw2 Hk|f0 l0 v1 v2 k0 o0 v3 v vs0 Hf Hw1 Hw2 Hk Hw3 Hv]; subst.
  - split; [auto|]. inversion Hk; subst; intros [|]; discriminate.
  - split.
    + inversion Hk; subst; intros [|]; discriminate.
    + intros _. inversion Hv; discriminate.
Qed.
End P.

(** Which query the checks refuse, with which message about which place: the first comparison
    in reading order that is at fault, for the reason [blamed] gives. *)
Theorem C104_blame O q k p : parse_plain O q = QErr (QInvalid k p) <->
  exists text t l1 c l2, scalars text /\ q = encode text /\ query O text t /\
    comparisons t = l1 ++ c :: l2 /\ Forall (faultless O) l1 /\ blamed O c k p.
Proof.
  unfold parse_plain, parse_query. pose proof (parse_spec O q) as S.
  destruct (parse O q) as [v|e es|] eqn:P; cbn [fst].
  - destruct S as (rs & x & Hs & -> & -> & Q). cbn [fst]. rewrite walk_validator_first.
    pose proof (first_fault_spec O (comparisons x) k p (query_arranged O rs x Q)) as F.
    split.
    + destruct (first_fault O (comparisons x)) as [[k' p']|] eqn:E; [|cbn; discriminate].
      cbn [fst]. intros [= -> ->]. destruct (proj1 F eq_refl) as (l1 & c & l2 & El & Fl & Bl).
      exists rs, x, l1, c, l2. auto 10.
    + intros (rs' & t & l1 & c & l2 & Hs' & E & Q' & El & Fl & Bl). apply encode_inj in E; [|assumption..]. subst rs'.
      pose proof (query_unique O _ _ _ Q Q') as ->. rewrite (proj2 F); [reflexivity|]. eauto 8.
  - split; [discriminate|]. intros (rs & t & _ & _ & _ & Hs & E & Q & _). destruct S as [_ S]. now destruct (S rs t Hs E).
  - destruct S.
Qed.

(** The parser itself refuses exactly the texts without a tree. *)
Theorem C104_syntax O q : (exists e, parse_plain O q = QErr (QSyntax e)) <->
  forall text t, scalars text -> q = encode text -> ~ query O text t.
Proof.
  unfold parse_plain, parse_query. pose proof (parse_spec O q) as S.
  destruct (parse O q) as [v|e es|] eqn:P; cbn [fst].
  - destruct S as (rs & x & Hs & -> & -> & Q). split.
    + cbn [fst]. intros (e & E). destruct (walk_validator O x); cbn in E; discriminate.
    + intros N. now destruct (N rs x Hs eq_refl).
  - split; [intros _; apply S|]. intros _. eauto.
  - destruct S.
Qed.

(** The place that is blamed is that of the comparison or of one of its values. *)
Theorem C104_place O q k p : parse_plain O q = QErr (QInvalid k p) ->
  exists before own after, q = encode (before ++ own ++ after) /\ p = pos_of before own /\
    ((exists o f vs, GrammarFacts.comparison O before own o f vs) \/ exists v, literal O own (pos_of before own) v).
Proof.
  intros H. apply C104_blame in H. destruct H as (text & t & l1 & [[o vs] p0] & l2 & Hs & -> & (w1 & a & w2 & -> & W1 & W2 & D) & El & _ & B).
  assert (Hi : In (o, vs, p0) (comparisons t)) by (rewrite El; apply in_app_iff; right; now left).
  destruct (comparisons_subnode _ _ _ _ Hi) as (f & S).
  destruct (GrammarFacts.derives_expr O _ _ _ _ _ _ _ _ D S) as (a' & own & z & E & -> & K).
  assert (V : forall v, In v vs -> exists before own after, encode (w1 ++ a ++ w2) = encode (before ++ own ++ after) /\ val_pos v = pos_of before own /\
    ((exists o f vs, GrammarFacts.comparison O before own o f vs) \/ exists v, literal O own (pos_of before own) v)).
  { intros v Hv. destruct (GrammarFacts.comparison_value_in O _ _ _ _ _ _ K Hv) as (a1 & k1 & z1 & E1 & L).
    exists a1, k1, (z1 ++ z ++ w2). split; [|split; [now apply (GrammarFacts.literal_pos O _ _ _ L)|eauto]].
    f_equal. rewrite (app_assoc w1), E, <- !app_assoc, (app_assoc a'), E1. now rewrite <- !app_assoc. }
  assert (Cm : exists before own0 after, encode (w1 ++ a ++ w2) = encode (before ++ own0 ++ after) /\ pos_of a' own = pos_of before own0 /\
    ((exists o f vs, GrammarFacts.comparison O before own0 o f vs) \/ exists v, literal O own0 (pos_of before own0) v)).
  { exists a', own, (z ++ w2). split; [|split; [reflexivity|eauto 6]]. f_equal. rewrite (app_assoc w1), E. now rewrite <- !app_assoc. }
  inversion B; subst; try exact Cm; apply V; rewrite ?in_app_iff; cbn; auto.
Qed.

Example C104_example :
  parse_plain test_oracle (b "a:1 AND !b:<(""x"",2) OR c:(1,1)") = QErr (QInvalid (VeNeedsNumeric LT) {| p_line := 1; p_col := 14; p_off := 13; p_len := 3 |}) /\
  parse_plain test_oracle (b "a:(true,1,true)") = QErr (QInvalid (VeDuplicate (b "true") 3 3) {| p_line := 1; p_col := 11; p_off := 10; p_len := 4 |}) /\
  parse_plain test_oracle (b "a:(1,true,false)") = QErr (QInvalid (VeConflictBool (b "false") 3 3) {| p_line := 1; p_col := 11; p_off := 10; p_len := 5 |}) /\
  parse_plain test_oracle (b "a:><(1,2,1)") = QErr (QInvalid (VeExactly BET 2) {| p_line := 1; p_col := 1; p_off := 0; p_len := 11 |}) /\
  parse_plain test_oracle (b "a:><(2,1)") = QErr (QInvalid VeSecondGreater {| p_line := 1; p_col := 8; p_off := 7; p_len := 1 |}).
Proof. repeat split; vm_compute; reflexivity. Qed.

(** A tree with a fault, as [blamed] sees it. *)
Example C104_blamed : let v := AStr (b "x") no_position in
  blamed test_oracle (LT, [v], no_position) (VeNeedsNumeric LT) (val_pos v) /\ ~ faultless test_oracle (LT, [v], no_position).
Proof.
  split.
  - apply (bl_numeric test_oracle LT [] (AStr (b "x") no_position) [] no_position); [left; left; reflexivity|apply Forall_nil|intros H; inversion H].
  - intros [(v & [= <-] & H) _]. inversion H.
Qed.
