(** The matcher model against the specification of MatchSpec.v. *)
From Verif Require Import Bytes Utf8 GoStrconv GoFloat GoTime GoNet Oracles Ast AstSpec Json Values StrMatch Matcher MatchSpec StrProofs NetProofs.
From Coq Require Import ZifyBool ZifyN ZifyNat.

(** ** Paths *)
Lemma beqb_eq x y : beqb x y = true <-> x = y.
Proof.
  revert y. induction x as [|c x IH]; intros [|d y]; cbn; try (split; [discriminate|discriminate]); try easy.
  rewrite andb_true_iff, N.eqb_eq, IH. split; [intros [-> ->]; reflexivity|intros [= -> ->]; now split].
Qed.

Lemma lookup_member key ms v : lookup key ms = Some v <-> member key (JObj ms) v.
Proof.
  unfold member. induction ms as [|[k x] ms IH]; cbn.
  - split; [discriminate|]. intros (bf & raw & af & E & _). injection E as E. destruct bf; discriminate.
  - destruct (unescape k) as [k'|] eqn:U.
    + destruct (beqb k' key) eqn:Q.
      * apply beqb_eq in Q. subst k'. split.
        -- intros [= <-]. exists [], k, ms. repeat split; [exact U|constructor].
        -- intros (bf & raw & af & E & Ur & F). injection E as E. destruct bf as [|m bf]; cbn in E.
           ++ injection E as <- <- <-. reflexivity.
           ++ injection E as <- ->. destruct (Forall_inv F) as (k' & U' & Nk). cbn in U'. congruence.
      * rewrite IH. split.
        -- intros (bf & raw & af & E & Ur & F). injection E as ->. exists ((k, x) :: bf), raw, af.
           repeat split; [exact Ur|]. constructor; [|exact F]. exists k'. split; [exact U|].
           intros ->. rewrite (proj2 (beqb_eq key key) eq_refl) in Q. discriminate.
        -- intros (bf & raw & af & E & Ur & F). injection E as E. destruct bf as [|m bf]; cbn in E.
           ++ injection E as <- <- <-. rewrite U in Ur. injection Ur as ->.
              rewrite (proj2 (beqb_eq key key) eq_refl) in Q. discriminate.
           ++ injection E as <- ->. exists bf, raw, af. repeat split; [exact Ur|]. apply (Forall_inv_tail F).
    + split; [discriminate|]. intros (bf & raw & af & E & Ur & F). injection E as E. destruct bf as [|m bf]; cbn in E.
      * injection E as <- <- <-. congruence.
      * injection E as <- ->. destruct (Forall_inv F) as (k' & U' & _). cbn in U'. congruence.
Qed.

Lemma member_object key j v : member key j v -> exists ms, j = JObj ms.
Proof. intros (bf & raw & af & -> & _). eauto. Qed.
Lemma resolves_object path j v : resolves path j v -> exists ms, j = JObj ms.
Proof. intros []; eapply member_object; eassumption. Qed.
Lemma resolves_path path j v : resolves path j v -> path <> [].
Proof. intros []; discriminate. Qed.

Lemma concat_res_spec {A} (P : json -> A -> Prop) (f : json -> res (list A)) els :
  (forall e, In e els -> exists l, f e = Ok l /\ forall v, In v l <-> P e v) ->
  exists l, concat_res (map f els) = Ok l /\ forall v, In v l <-> exists e, In e els /\ P e v.
Proof.
  induction els as [|e els IH]; intros H; cbn.
  - exists []. split; [reflexivity|]. intros v. split; [intros []|intros (e & [] & _)].
  - destruct (H e (or_introl eq_refl)) as (l & -> & L). cbn.
    destruct IH as (l' & -> & L'); [intros e' I; apply H; now right|]. cbn.
    exists (l ++ l'). split; [reflexivity|]. intros v. rewrite in_app_iff, L, L'. split.
    + intros [I|(e' & I & Pv)]; [exists e|exists e']; auto.
    + intros (e' & [<-|I] & Pv); [now left|right; eauto].
Qed.

Lemma get_values_object path : path <> [] -> forall ms,
  exists vs, get_values path (JObj ms) = Ok vs /\ forall v, In v vs <-> resolves path (JObj ms) v.
Proof.
  induction path as [|key rest IH]; intros Np ms; [congruence|]. cbn [get_values json_get bind].
  destruct (lookup key ms) as [child|] eqn:L.
  - pose proof (proj1 (lookup_member _ _ _) L) as M.
    assert (Uniq : forall c, member key (JObj ms) c -> c = child).
    { intros c Mc. apply lookup_member in Mc. congruence. }
    destruct rest as [|k2 rest].
    + exists [child]. split; [reflexivity|]. intros v. split.
      * intros [<-|[]]. now apply rs_last.
      * intros R. inversion R; subst.
        -- left. symmetry. now apply Uniq.
        -- exfalso. eapply resolves_path; [eassumption|reflexivity].
        -- exfalso. eapply resolves_path; [eassumption|reflexivity].
    + specialize (IH ltac:(discriminate)).
      assert (Inv : forall v, resolves (key :: k2 :: rest) (JObj ms) v <->
        resolves (k2 :: rest) child v \/ exists els e, child = JArr els /\ In e els /\ resolves (k2 :: rest) e v).
      { intros v. split.
        - intros R. inversion R; subst.
          + left. match goal with M : member _ _ ?c |- _ => rewrite <- (Uniq c M) end. assumption.
          + right. exists els, e. match goal with M : member _ _ _ |- _ => rewrite <- (Uniq _ M) end. auto.
        - intros [R|(els & e & -> & I & R)]; [eapply rs_object; eassumption|eapply rs_array; eassumption]. }
      destruct child as [|x|x|x|els|ms'];
        try (exists []; split; [reflexivity|]; intros v; rewrite Inv; split; [intros []|];
             intros [R|(els & e & E & _)]; [destruct (resolves_object _ _ _ R); discriminate|discriminate]).
      * destruct (concat_res_spec (resolves (k2 :: rest))
          (fun e => if is_object e then get_values (k2 :: rest) e else Ok []) els) as (l & E & Hl).
        { intros e _. destruct e as [|x|x|x|x|ms']; cbn [is_object];
            try (exists []; split; [reflexivity|]; intros v; split; [intros []|];
                 intros R; destruct (resolves_object _ _ _ R); discriminate).
          apply IH. }
        exists l. split; [exact E|]. intros v. rewrite Hl, Inv. split.
        -- intros (e & I & R). right. eauto 6.
        -- intros [R|(els' & e & [= <-] & I & R)]; [destruct (resolves_object _ _ _ R); discriminate|eauto].
      * destruct (IH ms') as (l & E & Hl). exists l. split; [exact E|]. intros v. rewrite Hl, Inv. split; [auto|].
        intros [R|(els' & e & [=] & _)]. exact R.
  - exists []. split; [reflexivity|]. intros v. split; [intros []|]. intros R. exfalso.
    inversion R; subst; match goal with M : member _ _ _ |- _ => apply lookup_member in M; congruence end.
Qed.

Lemma get_field_spec path j : path_safe j path -> no_index j path ->
  exists vs, get_field path j = Ok vs /\ forall v, In v vs <-> resolves path j v.
Proof.
  unfold get_field. intros Sf Ni. destruct path as [|key rest]; [contradiction|].
  destruct j as [|x|x|x|els|ms]; try (apply get_values_object; discriminate);
    (exists []; split; [|intros v; split; [intros []|]; intros R; destruct (resolves_object _ _ _ R); discriminate]).
  1-4: reflexivity.
  cbn [get_values json_get]. destruct key as [|c t].
  - exfalso. cbn in Sf. now apply (Sf els).
  - destruct (c =? 91) eqn:E; [|reflexivity]. apply N.eqb_eq in E. subst. exfalso. cbn in Ni. now apply (Ni els).
Qed.

(** Without the condition on indexes the code still does not panic. *)
Lemma get_field_safe path j : path_safe j path -> exists vs, get_field path j = Ok vs.
Proof.
  intros Sf. destruct path as [|key rest]; [contradiction|].
  destruct j as [|x|x|x|els|ms].
  6: { destruct (get_values_object (key :: rest) ltac:(discriminate) ms) as (vs & E & _). eauto. }
  1-4: exists []; reflexivity.
  unfold get_field. cbn [get_values json_get]. destruct key as [|c t].
  { exfalso. cbn in Sf. now apply (Sf els). }
  assert (exists f, (if c =? 91 then
      match rev t with
      | e :: i => if e =? 93 then match parse_int (rev i) with
            | Some z => Ok (if (z <? 0)%Z then None else nth_error els (Z.to_nat z)) | None => Ok None end else Ok None
      | [] => Ok None end else Ok None) = Ok f) as (f & ->).
  { destruct (c =? 91); [|eauto]. destruct (rev t) as [|e i]; [eauto|]. destruct (e =? 93); [|eauto].
    destruct (parse_int (rev i)); eauto. }
  cbn [bind]. destruct f as [child|]; [|eauto]. destruct rest as [|k2 rest]; [eauto|].
  destruct child as [|x|x|x|els'|ms]; eauto.
  - destruct (concat_res_spec (fun e v => exists l, (if is_object e then get_values (k2 :: rest) e else Ok []) = Ok l /\ In v l)
      (fun e => if is_object e then get_values (k2 :: rest) e else Ok []) els') as (l & -> & _); [|eauto].
    intros e _. assert (exists l, (if is_object e then get_values (k2 :: rest) e else Ok []) = Ok l) as (l & El).
    { destruct e as [|x|x|x|x|ms']; cbn [is_object]; eauto.
      destruct (get_values_object (k2 :: rest) ltac:(discriminate) ms') as (vs & E & _). eauto. }
    exists l. split; [exact El|]. intros v. split; [eauto|]. intros (l' & E' & I). congruence.
  - destruct (get_values_object (k2 :: rest) ltac:(discriminate) ms) as (vs & E & _). eauto.
Qed.

(** ** Scalars *)
Lemma is_scalar_spec j : is_scalar_json j = true <-> scalar j.
Proof.
  unfold scalar. destruct j; cbn; split; try (intros _; split; congruence); try reflexivity; try discriminate;
    intros [H1 H2]; exfalso; first [now eapply H1|now eapply H2].
Qed.

Lemma scalar_values_spec vs s : In s (scalar_values vs) <->
  scalar s /\ (In s vs \/ exists els, In (JArr els) vs /\ In s els).
Proof.
  induction vs as [|v vs IH]; cbn [scalar_values].
  - split; [intros []|]. intros (_ & [[]|(els & [] & _)]).
  - assert (Hs : is_scalar_json v = true -> In s (v :: scalar_values vs) <->
      scalar s /\ (In s (v :: vs) \/ exists els, In (JArr els) (v :: vs) /\ In s els)).
    { intros Hv. cbn [In]. rewrite IH. split.
      - intros [<-|(Hs & [I|(els & I & J)])]; [split; [now apply is_scalar_spec|auto]|auto|split; [exact Hs|right; eauto]].
      - intros (Hs & [[I|I]|(els & [->|I] & J)]); [now left|auto|discriminate|right; split; [exact Hs|right; eauto]]. }
    destruct v as [|x|x|x|els|ms]; try (apply Hs; reflexivity).
    + rewrite in_app_iff, filter_In, IH, is_scalar_spec. split.
      * intros [[I Ss]|(Ss & [I|(e & I & J)])]; (split; [exact Ss|]); [right; exists els; split; [now left|exact I]|left; now right|right; exists e; split; [now right|exact J]].
      * intros (Ss & [[<-|I]|(e & [[= <-]|I] & J)]).
        -- exfalso. apply is_scalar_spec in Ss. discriminate.
        -- right. auto.
        -- left. now split.
        -- right. split; [exact Ss|]. right. eauto.
    + rewrite IH. split.
      * intros (Ss & [I|(e & I & J)]); (split; [exact Ss|]); [left; now right|right; exists e; split; [now right|exact J]].
      * intros (Ss & [[<-|I]|(e & [[=]|I] & J)]).
        -- exfalso. apply is_scalar_spec in Ss. discriminate.
        -- auto.
        -- split; [exact Ss|]. right. eauto.
Qed.

Lemma any_res_ok f g vs : (forall v, f v = Ok (g v)) -> any_res f vs = Ok (existsb g vs).
Proof.
  intros H. induction vs as [|v vs IH]; cbn; [reflexivity|]. rewrite H. cbn. destruct (g v); [reflexivity|exact IH].
Qed.

Section WithOracles.
Context (O : oracles).

Lemma get_string_spec v t : get_string_val O v = Some t <-> text_of O v t.
Proof.
  split.
  - destruct v as [|x|raw|raw|x|x]; cbn; try discriminate.
    + destruct (parse_float (o_float_other O) raw) as [f|] eqn:E; [|discriminate]. intros [= <-]. now constructor.
    + intros E. now constructor.
  - intros []; cbn; [assumption|]. now rewrite H.
Qed.

Lemma get_number_spec v f : get_number_val O v = Some f <-> number_of O v f.
Proof.
  unfold number_of. split.
  - destruct v as [|x|raw|raw|x|x]; cbn; try discriminate; eauto.
  - intros (raw & [->| ->] & E); exact E.
Qed.

Lemma get_datetime_spec v d : get_datetime_val O v = Some d <-> exists t, instant_of O v t /\ d = unix_nano t.
Proof.
  unfold get_datetime_val, instant_of. split.
  - destruct (get_string_val O v) as [x|] eqn:E; [|discriminate]. apply get_string_spec in E. cbn.
    destruct (o_dateparse O x) as [t|] eqn:D; [|discriminate]. cbn. intros [= <-]. eauto 6.
  - intros (t & (x & T & D) & ->). apply get_string_spec in T. rewrite T. cbn. now rewrite D.
Qed.

(** A comparison of a list of values, seen as a test on each scalar. *)
Definition per_scalar (e : fexpr) (P : json -> Prop) : Prop :=
  forall vs, exists a, matches O e vs = Ok a /\ (a = true <-> exists s, In s (scalar_values vs) /\ P s).

Lemma per_scalar_intro e f (P : json -> Prop) :
  (forall vs, matches O e vs = any_res f (scalar_values vs)) ->
  (forall v, exists a, f v = Ok a /\ (a = true <-> P v)) -> per_scalar e P.
Proof.
  intros H1 H2 vs. rewrite H1. induction (scalar_values vs) as [|v l IH]; cbn.
  - exists false. split; [reflexivity|]. split; [discriminate|]. intros (s & [] & _).
  - destruct (H2 v) as (a & -> & Ha). cbn. destruct a.
    + exists true. split; [reflexivity|]. split; [|reflexivity]. intros _. exists v. split; [now left|]. now apply Ha.
    + destruct IH as (a & E & Hb). exists a. split; [exact E|]. rewrite Hb. split.
      * intros (s & I & Ps). exists s. split; [now right|exact Ps].
      * intros (s & [<-|I] & Ps); [apply Ha in Ps; discriminate|eauto].
Qed.

Lemma per_scalar_string e (g : bytes -> bool) (P : bytes -> Prop) :
  (forall vs, matches O e vs = any_res (fun v => match get_string_val O v with Some s => Ok (g s) | None => Ok false end) (scalar_values vs)) ->
  (forall t, g t = true <-> P t) -> per_scalar e (fun s => exists t, text_of O s t /\ P t).
Proof.
  intros H1 H2. eapply per_scalar_intro; [exact H1|]. intros v. cbv beta.
  destruct (get_string_val O v) as [t|] eqn:E.
  - exists (g t). split; [reflexivity|]. rewrite H2. apply get_string_spec in E as E'. split; [eauto|].
    intros (t' & T & Pt). apply get_string_spec in T. congruence.
  - exists false. split; [reflexivity|]. split; [discriminate|]. intros (t & T & _). apply get_string_spec in T. congruence.
Qed.

Lemma per_scalar_float o v0 v1 (P : f64 -> Prop) :
  (forall f, exists a, float_op o f v0 v1 = Ok a /\ (a = true <-> P f)) ->
  per_scalar (FFloat o v0 v1) (fun s => exists f, number_of O s f /\ P f).
Proof.
  intros H. eapply per_scalar_intro; [reflexivity|]. intros v. cbv beta.
  destruct (get_number_val O v) as [f|] eqn:E.
  - destruct (H f) as (a & -> & Ha). exists a. split; [reflexivity|]. rewrite Ha. apply get_number_spec in E as E'.
    split; [eauto|]. intros (f' & T & Pt). apply get_number_spec in T. congruence.
  - exists false. split; [reflexivity|]. split; [discriminate|]. intros (t & T & _). apply get_number_spec in T. congruence.
Qed.

Lemma per_scalar_date o v0 v1 (P : instant -> Prop) :
  (forall t, exists a, date_op o (unix_nano t) v0 v1 = Ok a /\ (a = true <-> P t)) ->
  per_scalar (FDate o v0 v1) (fun s => exists t, instant_of O s t /\ P t).
Proof.
  intros H. eapply per_scalar_intro; [reflexivity|]. intros v. cbv beta.
  destruct (get_datetime_val O v) as [d|] eqn:E.
  - apply get_datetime_spec in E as (t & T & ->). destruct (H t) as (a & -> & Ha). exists a. split; [reflexivity|].
    rewrite Ha. split; [eauto|]. intros (t' & T' & Pt).
    destruct T as (x & X & D), T' as (x' & X' & D'). apply get_string_spec in X, X'. congruence.
  - exists false. split; [reflexivity|]. split; [discriminate|]. intros (t & T & _).
    assert (get_datetime_val O v = Some (unix_nano t)) by (apply get_datetime_spec; eauto). congruence.
Qed.

(** ** One value of an equality *)
Definition val_ok (v : aval) : Prop := match v with ANet p _ _ => net_ok p | _ => True end.

Lemma eq_matcher_spec v : val_ok v -> exists e, eq_matcher O v = Ok e /\ per_scalar e (equals O v).
Proof.
  intros Hv. destruct v as [z sv p|f sv p|s p|x p|pat sv p|nv sv p|t day sv p]; cbn [eq_matcher equals].
  - eexists. split; [reflexivity|]. apply per_scalar_float. intros f. cbn. eexists. split; reflexivity.
  - eexists. split; [reflexivity|]. apply per_scalar_float. intros g. cbn. eexists. split; reflexivity.
  - unfold string_matcher. destruct (negb (is_ascii s) && negb (has_wildcard s)) eqn:C.
    + eexists. split; [reflexivity|]. apply (per_scalar_string _ (o_text_search O s)); [reflexivity|].
      intros t. unfold string_hit. apply andb_true_iff in C as [A W].
      apply negb_true_iff in A, W.
      assert (~ ascii s) as NA by (rewrite <- is_ascii_spec; congruence).
      assert (~ wildcard s) as NW by (rewrite <- has_wildcard_spec; congruence).
      split; [auto|]. intros [(_ & _ & H)|([?|?] & _)]; [exact H|contradiction|contradiction].
    + rewrite search_compiles. eexists. split; [reflexivity|].
      eapply per_scalar_string; [reflexivity|]. intros t. rewrite string_items_spec. unfold string_hit.
      assert (ascii s \/ wildcard s) as AW.
      { rewrite <- is_ascii_spec, <- has_wildcard_spec. destruct (is_ascii s), (has_wildcard s); auto; discriminate. }
      split; [auto|]. intros [(NA & NW & _)|(_ & H)]; [tauto|exact H].
  - eexists. split; [reflexivity|]. eapply per_scalar_intro; [reflexivity|]. intros v. cbv beta.
    destruct v as [|y|y|y|y|y]; cbn; eexists; (split; [reflexivity|]); try (split; congruence).
    destruct y, x; cbn; split; congruence.
  - eexists. split; [reflexivity|]. eapply per_scalar_string; [reflexivity|]. intros t. reflexivity.
  - eexists. split; [reflexivity|]. eapply per_scalar_string; [reflexivity|]. intros t. now apply net_search_spec.
  - destruct day; (eexists; split; [reflexivity|]); apply per_scalar_date; intros i; cbn [date_op]; eexists; (split; [reflexivity|]).
    + assert (unix_nano (instant_add t 86400) = wrap64 (exact_nanos t + 86400 * 1000000000)) as ->.
      { unfold unix_nano, exact_nanos, instant_add. cbn [i_sec i_nsec]. f_equal. ring. }
      rewrite andb_true_iff, !Z.leb_le. reflexivity.
    + rewrite Z.eqb_eq. reflexivity.
Qed.

Lemma eq_matchers_spec vs : Forall val_ok vs ->
  exists es, eq_matchers O vs = Ok es /\ length es = length vs /\
    forall js, exists a, any_expr O es js = Ok a /\ (a = true <-> exists v s, In v vs /\ In s (scalar_values js) /\ equals O v s).
Proof.
  induction vs as [|v vs IH]; intros F; cbn [eq_matchers].
  - exists []. repeat split. intros js. exists false. split; [reflexivity|]. split; [discriminate|]. intros (v & s & [] & _).
  - destruct (eq_matcher_spec v (Forall_inv F)) as (e & -> & He). cbn [bind].
    destruct (IH (Forall_inv_tail F)) as (es & -> & L & Hs). cbn [bind].
    exists (e :: es). split; [reflexivity|]. split; [cbn; now rewrite L|]. intros js. cbn [any_expr].
    destruct (He js) as (a & -> & Ha). cbn [bind]. destruct a.
    + exists true. split; [reflexivity|]. split; [|reflexivity]. intros _. destruct (proj1 Ha eq_refl) as (s & I & E).
      exists v, s. repeat split; auto. now left.
    + destruct (Hs js) as (a & -> & Hb). exists a. split; [reflexivity|]. rewrite Hb. split.
      * intros (v' & s & I & J). exists v', s. split; [now right|exact J].
      * intros (v' & s & [<-|I] & J & E); [|eauto 6]. exfalso.
        assert (false = true) by (apply Ha; eauto). discriminate.
Qed.

Lemma numeric_spec o v : In o [LT; LTE; GT; GTE] -> orderable v ->
  exists e, expr_numeric o [v] = Ok e /\ per_scalar e (ordered O o v).
Proof.
  intros Ho []; cbn [expr_numeric ordered literal_num];
    (eexists; split; [reflexivity|]).
  - eapply per_scalar_intro; [reflexivity|].
    intros jv. cbn [ordered in_range literal_num]. cbv beta. destruct (get_number_val O jv) as [g|] eqn:E.
    + apply get_number_spec in E as E'.
      assert (exists a, float_op o g (f_of_Z z) f_zero = Ok a /\ a = float_rel o g (f_of_Z z)) as (a & -> & ->).
      { destruct Ho as [<-|[<-|[<-|[<-|[]]]]]; cbn; eauto. }
      eexists. split; [reflexivity|]. split; [eauto 6|]. intros (g' & x & [= <-] & T & R).
      apply get_number_spec in T. congruence.
    + exists false. split; [reflexivity|]. split; [discriminate|]. intros (g' & x & _ & T & R).
      apply get_number_spec in T. congruence.
  - eapply per_scalar_intro; [reflexivity|].
    intros jv. cbn [ordered in_range literal_num]. cbv beta. destruct (get_number_val O jv) as [g|] eqn:E.
    + apply get_number_spec in E as E'.
      assert (exists a, float_op o g f f_zero = Ok a /\ a = float_rel o g f) as (a & -> & ->).
      { destruct Ho as [<-|[<-|[<-|[<-|[]]]]]; cbn; eauto. }
      eexists. split; [reflexivity|]. split; [eauto 6|]. intros (g' & x & [= <-] & T & R).
      apply get_number_spec in T. congruence.
    + exists false. split; [reflexivity|]. split; [discriminate|]. intros (g' & x & _ & T & R).
      apply get_number_spec in T. congruence.
  - apply per_scalar_date. intros i.
    destruct Ho as [<-|[<-|[<-|[<-|[]]]]]; cbn; eexists; (split; [reflexivity|]); lia.
Qed.

Definition bet_ok (v w : aval) : Prop :=
  orderable v /\ orderable w /\ (forall t d s p, v = ATime t d s p -> exists t' d' s' p', w = ATime t' d' s' p').

Lemma between_spec v w : bet_ok v w ->
  exists e, expr_between [v; w] = Ok e /\ per_scalar e (in_range O v w).
Proof.
  intros (Hv & Hw & T). destruct v as [z sv p|f sv p|s p|x p|pat sv p|nv sv p|t day sv p];
    try (exfalso; inversion Hv; fail); cbn [expr_between].
  - eexists. split; [reflexivity|].
    assert (range_end w = between_num w) as <- by (destruct w; reflexivity).
    eapply per_scalar_intro; [reflexivity|]. intros jv. cbn [ordered in_range literal_num]. cbv beta. destruct (get_number_val O jv) as [g|] eqn:E.
    + apply get_number_spec in E as E'. cbn [float_op]. eexists. split; [reflexivity|]. rewrite andb_true_iff. split.
      * intros [G1 G2]. exists g. eexists. split; [reflexivity|]. auto.
      * intros (g' & x & [= <-] & T' & R). apply get_number_spec in T'. replace g with g' by congruence. exact R.
    + exists false. split; [reflexivity|]. split; [discriminate|]. intros (g' & x & _ & T' & R).
      apply get_number_spec in T'. congruence.
  - eexists. split; [reflexivity|].
    assert (range_end w = between_num w) as <- by (destruct w; reflexivity).
    eapply per_scalar_intro; [reflexivity|]. intros jv. cbn [ordered in_range literal_num]. cbv beta. destruct (get_number_val O jv) as [g|] eqn:E.
    + apply get_number_spec in E as E'. cbn [float_op]. eexists. split; [reflexivity|]. rewrite andb_true_iff. split.
      * intros [G1 G2]. exists g. eexists. split; [reflexivity|]. auto.
      * intros (g' & x & [= <-] & T' & R). apply get_number_spec in T'. replace g with g' by congruence. exact R.
    + exists false. split; [reflexivity|]. split; [discriminate|]. intros (g' & x & _ & T' & R).
      apply get_number_spec in T'. congruence.
  - destruct (T _ _ _ _ eq_refl) as (t' & d' & s' & p' & ->). eexists. split; [reflexivity|].
    cbn [in_range]. apply per_scalar_date. intros i. cbn. eexists. split; [reflexivity|]. lia.
Qed.

(** ** Comparisons *)
Definition cmp_ok (o : op) (vs : list aval) : Prop :=
  args_ok o vs /\ Forall val_ok vs /\ (o = BET -> exists v w, vs = [v; w] /\ bet_ok v w).

Lemma build_exprs_ok o vs : cmp_ok o vs -> exists es, build_exprs O o vs = Ok es.
Proof.
  intros (A & V & B). destruct o; cbn [build_exprs args_ok] in *.
  1,7: destruct vs as [|v vs]; [now destruct A|]; unfold expr_eq; destruct (eq_matchers_spec (v :: vs) V) as (es & -> & _); eauto.
  1-4: destruct A as (v & -> & Ov);
       match goal with |- context [expr_numeric ?o _] => destruct (numeric_spec o v) as (e & -> & _); [cbn; auto 8|exact Ov|] end;
       cbn; eauto.
  2-3: eauto.
  destruct (B eq_refl) as (v & w & -> & Hb). destruct (between_spec v w Hb) as (e & -> & _). cbn. eauto.
Qed.

Lemma tested_in path j vs s : (forall v, In v vs <-> resolves path j v) ->
  In s (scalar_values vs) <-> tested path j s.
Proof.
  intros H. rewrite scalar_values_spec. unfold tested. split; intros (Ss & C); (split; [exact Ss|]).
  - destruct C as [I|(els & I & J)]; [left; now apply H|right; exists els; split; [now apply H|exact J]].
  - destruct C as [I|(els & I & J)]; [left; now apply H|right; exists els; split; [now apply H|exact J]].
Qed.

Lemma one_expr_ok e P js : per_scalar e P -> exists a, any_expr O [e] js = Ok a /\ (a = true <-> exists s, In s (scalar_values js) /\ P s).
Proof. intros H. cbn. destruct (H js) as (a & -> & Ha). cbn. destruct a; eauto. Qed.

Lemma expr_result_spec o path vs p es j : cmp_ok o vs -> build_exprs O o vs = Ok es ->
  path_safe j path -> no_index j path ->
  exists a, expr_result O path es j = Ok a /\ (a = true <-> holds O (NExpr o path vs p) j).
Proof.
  intros C Be Sf Ni. unfold expr_result. destruct (get_field_spec path j Sf Ni) as (js & -> & Hj). cbn [bind].
  assert (Hall : exists a, any_expr O es js = Ok a /\ (js <> [] -> (a = true <-> holds O (NExpr o path vs p) j))).
  { destruct C as (A & V & B). destruct o; cbn [build_exprs args_ok holds] in *.
    1,7: destruct vs as [|v vs]; [now destruct A|]; unfold expr_eq in Be; destruct (eq_matchers_spec (v :: vs) V) as (es' & E & _ & Hs);
         rewrite Be in E; injection E as <-; destruct (Hs js) as (a & Ea & Ha); exists a; (split; [exact Ea|]); intros _; rewrite Ha;
         split; intros (v' & s & I & J & K); exists v', s; (split; [exact I|]); (split; [|exact K]); now apply (tested_in path j js).
    1-4: destruct A as (v & -> & Ov);
         match type of Be with bind (expr_numeric ?o _) _ = _ => destruct (numeric_spec o v) as (e & E & He); [cbn; auto 8|exact Ov|] end;
         rewrite E in Be; cbn in Be; injection Be as <-; destruct (one_expr_ok _ _ js He) as (a & Ea & Ha); exists a; (split; [exact Ea|]);
         intros _; rewrite Ha; split;
         [intros (s & I & R); exists v, s; split; [reflexivity|]; split; [now apply (tested_in path j js)|exact R]
         |intros (v' & s & [= <-] & I & R); exists s; split; [now apply (tested_in path j js)|exact R]].
    - destruct (B eq_refl) as (v & w & -> & Hb). destruct (between_spec v w Hb) as (e & E & He). rewrite E in Be. cbn in Be.
      injection Be as <-. destruct (one_expr_ok _ _ js He) as (a & Ea & Ha). exists a. split; [exact Ea|]. intros _. rewrite Ha. split.
      + intros (s & I & R). exists v, w, s. split; [reflexivity|]. split; [now apply (tested_in path j js)|exact R].
      + intros (v' & w' & s & [= <- <-] & I & R). exists s. split; [now apply (tested_in path j js)|exact R].
    - injection Be as <-. destruct js as [|x js].
      + exists false. split; [reflexivity|]. congruence.
      + exists true. split; [reflexivity|]. intros _. split; [|reflexivity]. intros _. exists x. apply Hj. now left.
    - injection Be as <-. cbn. exists (forallb is_null js). split; [now destruct (forallb is_null js)|]. intros Nj.
      rewrite forallb_forall. split.
      + intros H. split.
        * destruct js as [|x js]; [congruence|]. exists x. apply Hj. now left.
        * intros v R. apply Hj in R. specialize (H _ R). now destruct v.
      + intros [_ H] x I. apply Hj in I. now rewrite (H _ I). }
  destruct Hall as (a & Ea & Ha). destruct js as [|x js].
  - exists false. split; [reflexivity|]. split; [discriminate|]. intros H. exfalso.
    assert (Nr : forall v, ~ resolves path j v) by (intros v R; now apply Hj in R).
    assert (Nt : forall s, ~ tested path j s) by (intros s (_ & [R|(els & R & _)]); eapply Nr; exact R).
    destruct o; cbn [holds] in H;
      try (destruct H as (v & s & _ & T & _); exact (Nt _ T)).
    + destruct H as (v & w & s & _ & T & _). exact (Nt _ T).
    + destruct H as (v & R). exact (Nr _ R).
    + destruct H as ((v & R) & _). exact (Nr _ R).
  - exists a. split; [exact Ea|]. apply Ha. discriminate.
Qed.

Lemma expr_result_safe o path vs es j : cmp_ok o vs -> build_exprs O o vs = Ok es ->
  path_safe j path -> exists a, expr_result O path es j = Ok a.
Proof.
  intros (A & V & B) Be Sf. unfold expr_result. destruct (get_field_safe path j Sf) as (js & ->). cbn [bind].
  destruct js as [|x js]; [eauto|]. remember (x :: js) as l eqn:El. clear El x js.
  destruct o; cbn [build_exprs args_ok] in *.
  1,7: destruct vs as [|v vs]; [now destruct A|]; unfold expr_eq in Be; destruct (eq_matchers_spec (v :: vs) V) as (es' & E & _ & Hs);
       rewrite Be in E; injection E as <-; destruct (Hs l) as (a & Ea & _); eauto.
  1-4: destruct A as (v & -> & Ov);
       match type of Be with bind (expr_numeric ?o _) _ = _ => destruct (numeric_spec o v) as (e & E & He); [cbn; auto 8|exact Ov|] end;
       rewrite E in Be; cbn in Be; injection Be as <-; destruct (one_expr_ok _ _ l He) as (a & Ea & _); eauto.
  - destruct (B eq_refl) as (v & w & -> & Hb). destruct (between_spec v w Hb) as (e & E & He). rewrite E in Be. cbn in Be.
    injection Be as <-. destruct (one_expr_ok _ _ l He) as (a & Ea & _). eauto.
  - injection Be as <-. cbn. destruct (negb _); eauto.
  - injection Be as <-. cbn. destruct (forallb is_null l); eauto.
Qed.

(** ** Trees *)
(** Evaluation without the counters. *)
Fixpoint ev (m : mnode) (root : json) : res bool :=
  match m with
  | MAnd l r _ => bind (ev l root) (fun a => if a then ev r root else Ok false)
  | MOr l r _ => bind (ev l root) (fun a => if a then Ok true else ev r root)
  | MNot e _ => bind (ev e root) (fun a => Ok (negb a))
  | MExpr path es _ => expr_result O path es root
  end.

(** A matcher without its counters. *)
Fixpoint shape (m : mnode) : mnode :=
  let zero st := {| ns_name := ns_name st; ns_checked := 0; ns_matched := 0 |} in
  match m with
  | MAnd l r st => MAnd (shape l) (shape r) (zero st)
  | MOr l r st => MOr (shape l) (shape r) (zero st)
  | MNot e st => MNot (shape e) (zero st)
  | MExpr path es st => MExpr path es (zero st)
  end.

Lemma ev_shape m root : ev (shape m) root = ev m root.
Proof. induction m; cbn; rewrite ?IHm1, ?IHm2, ?IHm; reflexivity. Qed.

Lemma result_ev m root :
  match result O m root with
  | Ok (a, m') => ev m root = Ok a /\ shape m' = shape m
  | Panic => ev m root = Panic
  end.
Proof.
  induction m as [l IHl r IHr st|l IHl r IHr st|e IHe st|path es st]; cbn [result ev].
  - destruct (result O l root) as [[a l']|]; cbn [bind].
    + destruct IHl as [-> Sl]. cbn [bind]. destruct a.
      * destruct (result O r root) as [[c r']|]; cbn [bind].
        -- destruct IHr as [-> Sr]. split; [reflexivity|]. cbn. now rewrite Sl, Sr.
        -- exact IHr.
      * split; [reflexivity|]. cbn. now rewrite Sl.
    + now rewrite IHl.
  - destruct (result O l root) as [[a l']|]; cbn [bind].
    + destruct IHl as [-> Sl]. cbn [bind]. destruct a.
      * split; [reflexivity|]. cbn. now rewrite Sl.
      * destruct (result O r root) as [[c r']|]; cbn [bind].
        -- destruct IHr as [-> Sr]. split; [reflexivity|]. cbn. now rewrite Sl, Sr.
        -- exact IHr.
    + now rewrite IHl.
  - destruct (result O e root) as [[a e']|]; cbn [bind].
    + destruct IHe as [-> Se]. split; [reflexivity|]. cbn. now rewrite Se.
    + now rewrite IHe.
  - destruct (expr_result O path es root) as [a|]; cbn [bind]; [|reflexivity]. now split.
Qed.

(** Trees whose comparisons can be built. *)
Definition tree_ok (n : node) : Prop :=
  forall o f vs p, subnode (NExpr o f vs p) n -> cmp_ok o vs.

Lemma build_ok n : tree_ok n -> exists m, build O n = Ok m.
Proof.
  induction n as [l IHl r IHr|l IHl r IHr|e IHe|o f vs p]; intros T; cbn [build].
  - destruct IHl as (x & ->); [intros ? ? ? ? S; eapply T, sub_and_l, S|].
    destruct IHr as (y & ->); [intros ? ? ? ? S; eapply T, sub_and_r, S|]. cbn. eauto.
  - destruct IHl as (x & ->); [intros ? ? ? ? S; eapply T, sub_or_l, S|].
    destruct IHr as (y & ->); [intros ? ? ? ? S; eapply T, sub_or_r, S|]. cbn. eauto.
  - destruct IHe as (x & ->); [intros ? ? ? ? S; eapply T, sub_not, S|]. cbn. eauto.
  - destruct (build_exprs_ok o vs) as (es & ->); [eapply T, sub_refl|]. cbn. eauto.
Qed.

Lemma ev_holds n j : tree_ok n ->
  (forall o f vs p, subnode (NExpr o f vs p) n -> path_safe j f /\ no_index j f) ->
  forall m, build O n = Ok m -> exists a, ev m j = Ok a /\ (a = true <-> holds O n j).
Proof.
  induction n as [l IHl r IHr|l IHl r IHr|e IHe|o f vs p]; intros T Sf m; cbn [build holds].
  - destruct (build O l) as [x|]; [|discriminate]. destruct (build O r) as [y|]; [|discriminate]. cbn. intros [= <-]. cbn.
    destruct (IHl ltac:(intros ? ? ? ? S; eapply T, sub_and_l, S) ltac:(intros ? ? ? ? S; eapply Sf, sub_and_l, S) _ eq_refl) as (a & -> & Ha).
    destruct (IHr ltac:(intros ? ? ? ? S; eapply T, sub_and_r, S) ltac:(intros ? ? ? ? S; eapply Sf, sub_and_r, S) _ eq_refl) as (c & -> & Hc).
    cbn. destruct a; eexists; (split; [reflexivity|]); [tauto|]. rewrite <- Ha. split; [discriminate|]. intros [? _]. discriminate.
  - destruct (build O l) as [x|]; [|discriminate]. destruct (build O r) as [y|]; [|discriminate]. cbn. intros [= <-]. cbn.
    destruct (IHl ltac:(intros ? ? ? ? S; eapply T, sub_or_l, S) ltac:(intros ? ? ? ? S; eapply Sf, sub_or_l, S) _ eq_refl) as (a & -> & Ha).
    destruct (IHr ltac:(intros ? ? ? ? S; eapply T, sub_or_r, S) ltac:(intros ? ? ? ? S; eapply Sf, sub_or_r, S) _ eq_refl) as (c & -> & Hc).
    cbn. destruct a; eexists; (split; [reflexivity|]); [tauto|]. rewrite Hc. rewrite <- Ha. split; [auto|]. intros [|]; [discriminate|assumption].
  - destruct (build O e) as [x|]; [|discriminate]. cbn. intros [= <-]. cbn.
    destruct (IHe ltac:(intros ? ? ? ? S; eapply T, sub_not, S) ltac:(intros ? ? ? ? S; eapply Sf, sub_not, S) _ eq_refl) as (a & -> & Ha).
    cbn. eexists. split; [reflexivity|]. rewrite <- Ha. destruct a; cbn; split; congruence.
  - destruct (build_exprs O o vs) as [es|] eqn:E; [|discriminate]. cbn [bind]. intros [= <-]. cbn [ev].
    destruct (Sf _ _ _ _ (sub_refl _)) as [S1 S2].
    exact (expr_result_spec o f vs p es j (T _ _ _ _ (sub_refl _)) E S1 S2).
Qed.

Lemma ev_safe n j : tree_ok n -> (forall o f vs p, subnode (NExpr o f vs p) n -> path_safe j f) ->
  forall m, build O n = Ok m -> exists a, ev m j = Ok a.
Proof.
  induction n as [l IHl r IHr|l IHl r IHr|e IHe|o f vs p]; intros T Sf m; cbn [build].
  - destruct (build O l) as [x|]; [|discriminate]. destruct (build O r) as [y|]; [|discriminate]. cbn. intros [= <-]. cbn.
    destruct (IHl ltac:(intros ? ? ? ? S; eapply T, sub_and_l, S) ltac:(intros ? ? ? ? S; eapply Sf, sub_and_l, S) _ eq_refl) as (a & ->).
    destruct (IHr ltac:(intros ? ? ? ? S; eapply T, sub_and_r, S) ltac:(intros ? ? ? ? S; eapply Sf, sub_and_r, S) _ eq_refl) as (c & ->).
    cbn. destruct a; eauto.
  - destruct (build O l) as [x|]; [|discriminate]. destruct (build O r) as [y|]; [|discriminate]. cbn. intros [= <-]. cbn.
    destruct (IHl ltac:(intros ? ? ? ? S; eapply T, sub_or_l, S) ltac:(intros ? ? ? ? S; eapply Sf, sub_or_l, S) _ eq_refl) as (a & ->).
    destruct (IHr ltac:(intros ? ? ? ? S; eapply T, sub_or_r, S) ltac:(intros ? ? ? ? S; eapply Sf, sub_or_r, S) _ eq_refl) as (c & ->).
    cbn. destruct a; eauto.
  - destruct (build O e) as [x|]; [|discriminate]. cbn. intros [= <-]. cbn.
    destruct (IHe ltac:(intros ? ? ? ? S; eapply T, sub_not, S) ltac:(intros ? ? ? ? S; eapply Sf, sub_not, S) _ eq_refl) as (a & ->).
    cbn. eauto.
  - destruct (build_exprs O o vs) as [es|] eqn:E; [|discriminate]. cbn [bind]. intros [= <-]. cbn [ev].
    eapply expr_result_safe; [eapply T, sub_refl|exact E|eapply Sf, sub_refl].
Qed.
End WithOracles.
