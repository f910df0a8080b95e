(** Match on bytes (MatchBytes.v) is Match on the tree (Matcher.v). *)
From Verif Require Import Bytes GoStrconv Oracles Json JsonSpec JsonProofs Values StrMatch Matcher
  JsonParser JsonParserProofs MatchBytes.

(** Both panic, or both give the same values. *)
Definition same_values (x : res (list jvalue)) (y : res (list json)) : Prop :=
  match y with
  | Panic => x = Panic
  | Ok js => exists vs, x = Ok vs /\ Forall2 shows vs js
  end.

Lemma same_concat l m : Forall2 same_values l m -> same_values (concat_res l) (concat_res m).
Proof.
  induction 1 as [|x y l m H _ IH]; cbn.
  - exists []. split; [reflexivity|constructor].
  - destruct y as [js|]; cbn in H |- *; [|subst; reflexivity].
    destruct H as (vs & -> & F). cbn. destruct (concat_res m) as [js'|]; cbn in IH |- *.
    + destruct IH as (vs' & -> & F'). cbn. eexists; split; [reflexivity|]. now apply Forall2_app.
    + rewrite IH. reflexivity.
Qed.

Lemma get_values_same path : forall w1 s w2 j, ws w1 -> value_text s j -> ws w2 ->
  same_values (get_values_b path (w1 ++ s ++ w2)) (get_values path j).
Proof.
  induction path as [|key rest IH]; intros w1 s w2 j W1 V W2; [reflexivity|].
  cbn [get_values_b get_values].
  pose proof (get_key_value key w1 s w2 j W1 V W2) as G. unfold same_find in G.
  destruct (json_get key j) as [[c|]|].
  - destruct G as ([v t] & -> & Sh). cbn [bind].
    destruct rest as [|k2 rest].
    + eexists; split; [reflexivity|]. now constructor.
    + assert (Sub : forall x y, value_text x y -> same_values (get_values_b (k2 :: rest) x) (get_values (k2 :: rest) y)).
      { intros x y Vx. specialize (IH [] x [] y (Forall_nil _) Vx (Forall_nil _)). cbn [app] in IH.
        now rewrite app_nil_r in IH. }
      destruct c as [|x|x|x|els|ms]; cbn [shows] in Sh.
      * injection Sh as -> ->. eexists; split; [reflexivity|constructor].
      * injection Sh as -> ->. eexists; split; [reflexivity|constructor].
      * destruct Sh as [[= -> ->] _]. eexists; split; [reflexivity|constructor].
      * destruct Sh as [[= -> ->] _]. eexists; split; [reflexivity|constructor].
      * cbn in Sh. destruct Sh as [-> Vv].
        destruct (array_each_value [] v els [] (Forall_nil _) Vv) as (l & A & F).
        cbn [app] in A. rewrite app_nil_r in A. rewrite A. cbn [fst].
        apply same_concat. clear A Vv. induction F as [|e je l els He _ IHl]; [constructor|cbn [map]]. constructor; [|exact IHl].
        destruct e as [e te]. destruct je; cbn [is_object shows fst snd] in *.
        -- injection He as -> ->. eexists; split; [reflexivity|constructor].
        -- injection He as -> ->. eexists; split; [reflexivity|constructor].
        -- destruct He as [[= -> ->] _]. eexists; split; [reflexivity|constructor].
        -- destruct He as [[= -> ->] _]. eexists; split; [reflexivity|constructor].
        -- destruct He as [-> _]. eexists; split; [reflexivity|constructor].
        -- destruct He as [-> Ve]. now apply Sub.
      * cbn in Sh. destruct Sh as [-> Vv]. now apply Sub.
  - rewrite G. cbn. eexists; split; [reflexivity|constructor].
  - rewrite G. reflexivity.
Qed.

(** What the matches methods see of a value. *)
Lemma view_scalar_shows v j : shows v j -> is_scalar_json j = true -> view_scalar v = j.
Proof.
  destruct v as [v t]. destruct j as [|x|x|x|x|x]; cbn [shows is_scalar_json]; intros H E; try discriminate.
  - now injection H as -> ->.
  - injection H as -> ->. now destruct x.
  - now destruct H as [[= -> ->] _].
  - now destruct H as [[= -> ->] _].
Qed.

Lemma view_scalar_kind v j : shows v j -> is_scalar_json (view_scalar v) = is_scalar_json j.
Proof.
  destruct v as [v t]. destruct j as [|x|x|x|x|x]; cbn [shows is_scalar_json snd]; intros H.
  - now injection H as -> ->.
  - injection H as -> ->. now destruct x.
  - now destruct H as [[= -> ->] _].
  - now destruct H as [[= -> ->] _].
  - now destruct H as [-> _].
  - now destruct H as [-> _].
Qed.

Lemma filter_views l els : Forall2 shows l els ->
  filter is_scalar_json (map view_scalar l) = filter is_scalar_json els.
Proof.
  induction 1 as [|v j l els H _ IH]; [reflexivity|]. cbn [map filter].
  rewrite (view_scalar_kind _ _ H). destruct (is_scalar_json j) eqn:E; [|exact IH].
  rewrite (view_scalar_shows _ _ H E). now rewrite IH.
Qed.

Lemma scalar_views vs js : Forall2 shows vs js -> scalar_values (map view vs) = scalar_values js.
Proof.
  induction 1 as [|[v t] j vs js H _ IH]; [reflexivity|]. cbn [map].
  destruct j as [|x|x|x|els|x]; cbn [shows] in H.
  - injection H as -> ->. unfold view at 1. cbn [fst snd view_scalar scalar_values]. now rewrite IH.
  - injection H as -> ->. unfold view at 1. cbn [fst snd view_scalar scalar_values]. rewrite IH. now destruct x.
  - destruct H as [[= -> ->] _]. unfold view at 1. cbn [fst snd view_scalar scalar_values]. now rewrite IH.
  - destruct H as [[= -> ->] _]. unfold view at 1. cbn [fst snd view_scalar scalar_values]. now rewrite IH.
  - cbn [fst snd] in H. destruct H as [-> V]. unfold view at 1. cbn [fst snd scalar_values].
    destruct (array_each_value [] v els [] (Forall_nil _) V) as (l & A & F).
    cbn [app] in A. rewrite app_nil_r in A. rewrite A. cbn [fst].
    now rewrite (filter_views _ _ F), IH.
  - cbn in H. destruct H as [-> _]. exact IH.
Qed.

Lemma null_views vs js : Forall2 shows vs js -> forallb is_null (map view vs) = forallb is_null js.
Proof.
  induction 1 as [|[v t] j vs js H _ IH]; [reflexivity|]. cbn [map forallb]. rewrite IH. f_equal.
  destruct j as [|x|x|x|els|x]; cbn [shows fst snd] in H.
  - now injection H as -> ->.
  - now injection H as -> ->.
  - now destruct H as [[= -> ->] _].
  - now destruct H as [[= -> ->] _].
  - now destruct H as [-> _].
  - now destruct H as [-> _].
Qed.

Section WithOracles.
Context (O : oracles).

Lemma matches_views e vs js : Forall2 shows vs js -> matches O e (map view vs) = matches O e js.
Proof.
  intros F. assert (L : length (map view vs) = length js).
  { rewrite map_length. clear -F. now induction F; cbn; [|f_equal]. }
  destruct e; cbn [matches]; rewrite ?(scalar_views _ _ F), ?(null_views _ _ F), ?L; reflexivity.
Qed.

Lemma any_expr_views es vs js : Forall2 shows vs js -> any_expr O es (map view vs) = any_expr O es js.
Proof.
  intros F. induction es as [|e es IH]; [reflexivity|]. cbn. now rewrite (matches_views _ _ _ F), IH.
Qed.

Lemma result_same m w1 s w2 j : ws w1 -> value_text s j -> ws w2 -> result_b O m (w1 ++ s ++ w2) = result O m j.
Proof.
  intros W1 V W2. induction m as [l IHl r IHr st|l IHl r IHr st|e IH st|path es st].
  - cbn. now rewrite IHl, IHr.
  - cbn. now rewrite IHl, IHr.
  - cbn. now rewrite IH.
  - cbn. unfold expr_result_b, expr_result, get_field.
    pose proof (get_values_same path _ _ _ _ W1 V W2) as G.
    destruct (get_values path j) as [js|]; cbn in G.
    + destruct G as (vs & -> & F). cbn. destruct F as [|v k vs js Hv F]; [reflexivity|].
      change (view v :: map view vs) with (map view (v :: vs)).
      now rewrite (any_expr_views es (v :: vs) (k :: js)) by now constructor.
    + rewrite G. reflexivity.
Qed.

Lemma match_same m data : match_bytes O m data = match_doc O m data.
Proof.
  unfold match_bytes, match_doc, json_valid. destruct (parse_json data) as [j|] eqn:P; [|reflexivity].
  apply parse_json_spec in P as (w1 & s & w2 & -> & W1 & V & W2 & _).
  now rewrite (result_same m _ _ _ _ W1 V W2).
Qed.
End WithOracles.
