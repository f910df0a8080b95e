(** C145: what Match does for every accepted query and every text, panics and top-level arrays included. *)
From Verif Require Import Bytes Utf8 GoStrconv GoFloat GoTime GoNet Oracles Ast AstSpec Json JsonSpec JsonProofs Values StrMatch Matcher
  QueryMessages MatchApi MatchSpec MatchProofs MatcherTop Visitors ParseQuery TestOracle Prop_Match Prop_Docs.

Section Spec.
Context (O : oracles).

(** The paths that break a call of Match on the document. *)
Definition breaks (path : list bytes) (j : json) : Prop :=
  path = [] \/ exists rest els, path = [] :: rest /\ j = JArr els.

(** [seen_as j key obj]: for a path that begins with [key] the document [j] stands for [obj].  An array stands for an
    object that has the element with the index [key] under that name. *)
Definition seen_as (j : json) (key : bytes) (obj : json) : Prop :=
  match j with
  | JArr els => forall child, member key obj child <-> element els key child
  | _ => obj = j
  end.

(** [reads t j x]: a reader who goes through the query from the left and stops as soon as the answer is clear ends with
    [x]; [None] stands for a comparison that breaks the call. *)
Inductive reads : node -> json -> option bool -> Prop :=
| rd_break o path vs p j : breaks path j -> reads (NExpr o path vs p) j None
| rd_compare o key rest vs p j obj a : ~ breaks (key :: rest) j -> seen_as j key obj ->
    (a = true <-> holds O (NExpr o (key :: rest) vs p) obj) -> reads (NExpr o (key :: rest) vs p) j (Some a)
| rd_and_stop l r j x : reads l j x -> x <> Some true -> reads (NAnd l r) j x
| rd_and l r j x : reads l j (Some true) -> reads r j x -> reads (NAnd l r) j x
| rd_or_stop l r j x : reads l j x -> x <> Some false -> reads (NOr l r) j x
| rd_or l r j x : reads l j (Some false) -> reads r j x -> reads (NOr l r) j x
| rd_not e j x : reads e j x -> reads (NNot e) j (option_map negb x).
End Spec.

Section P.
Context (O : oracles).
Definition as_res (x : option bool) : res bool := match x with Some a => Ok a | None => Panic end.

Lemma breaks_dec path j : breaks path j \/ (exists key rest, path = key :: rest /\ ~ breaks path j /\ path_safe j path).
Proof.
  unfold breaks. destruct path as [|[|c k] rest]; [auto| |].
  - destruct j as [|x|x|x|els|ms]; try (right; do 2 eexists; split; [reflexivity|]; split; [|intros ? ?; discriminate]; intros [H|(? & ? & _ & H)]; discriminate).
    left. eauto.
  - right. do 2 eexists. split; [reflexivity|]. split; [|exact Logic.I]. intros [H|(? & ? & H & _)]; discriminate.
Qed.

(** The element of an array under the name of its index gives the same values. *)
Lemma array_values els key rest obj : key <> [] -> seen_as (JArr els) key obj ->
  exists ms, get_values (key :: rest) (JArr els) = get_values (key :: rest) (JObj ms) /\
    forall child, member key (JObj ms) child <-> member key obj child.
Proof.
  intros Nk Sa. destruct (C123_object els [key]) as (ms & H). specialize (H key (or_introl eq_refl) Nk). exists ms. split.
  - destruct (json_get_element els key Nk) as (x & G & Hx). cbn [get_values]. rewrite G. change (json_get key (JObj ms)) with (Ok (lookup key ms)).
    replace x with (lookup key ms); [reflexivity|]. destruct (lookup key ms) as [c|] eqn:L.
    + apply lookup_member, H, Hx in L. congruence.
    + destruct x as [c|]; [|reflexivity]. pose proof (proj1 (Hx c) eq_refl) as X. apply H, lookup_member in X. congruence.
  - intros child. rewrite H. symmetry. apply Sa.
Qed.
Lemma resolves_members key rest j j' v : (forall child, member key j child <-> member key j' child) -> resolves (key :: rest) j v -> resolves (key :: rest) j' v.
Proof.
  intros H R. inversion R; subst.
  - apply rs_last. now apply H.
  - eapply rs_object; [apply H|]; eassumption.
  - eapply rs_array; [apply H|..]; eassumption.
Qed.
Lemma tested_members key rest j j' v : (forall child, member key j child <-> member key j' child) -> tested (key :: rest) j v -> tested (key :: rest) j' v.
Proof.
  intros H (S1 & [R|(els & R & I1)]); (split; [exact S1|]); [left|right; exists els; split; [|exact I1]]; eapply resolves_members; eassumption.
Qed.
Lemma holds_members o key rest vs p j j' : (forall child, member key j child <-> member key j' child) ->
  holds O (NExpr o (key :: rest) vs p) j -> holds O (NExpr o (key :: rest) vs p) j'.
Proof.
  intros H. assert (H' : forall child, member key j' child <-> member key j child) by (intros; symmetry; apply H).
  destruct o; cbn [holds].
  8:{ intros (v & R). exists v. eapply resolves_members; eassumption. }
  8:{ intros ((v & R) & A). split; [exists v; eapply resolves_members; eassumption|]. intros w W. apply A. eapply resolves_members; eassumption. }
  6:{ intros (v & w & s & E & Tt & R). exists v, w, s. split; [exact E|]. split; [|exact R]. eapply tested_members; eassumption. }
  all: intros (v & s & E & Tt & R); exists v, s; (split; [exact E|]); (split; [|exact R]); eapply tested_members; eassumption.
Qed.

Lemma compare_reads o key rest vs p es j : cmp_ok o vs -> build_exprs O o vs = Ok es -> ~ breaks (key :: rest) j -> path_safe j (key :: rest) ->
  exists a, expr_result O (key :: rest) es j = Ok a /\ (exists obj, seen_as j key obj) /\
    forall obj, seen_as j key obj -> (a = true <-> holds O (NExpr o (key :: rest) vs p) obj).
Proof.
  intros C Be Nb Sf. assert (Hn : (forall els, j <> JArr els) \/ exists els, j = JArr els) by (destruct j; eauto; left; discriminate).
  destruct Hn as [Na|(els & ->)].
  - destruct (expr_result_spec O o (key :: rest) vs p es j C Be Sf) as (a & E & H).
    { unfold no_index. destruct key as [|c k]; [exact Logic.I|]. destruct c as [|q]; [exact Logic.I|]. do 7 (destruct q as [q|q|]; try exact Logic.I; try exact Na). }
    exists a. split; [exact E|]. split; [exists j; destruct j; try reflexivity; exfalso; eapply Na; reflexivity|].
    intros obj S1. assert (obj = j) as -> by (destruct j; try exact S1; exfalso; eapply Na; reflexivity). exact H.
  - assert (Nk : key <> []) by (intros ->; apply Nb; right; eauto).
    destruct (C123_object els [key]) as (ms0 & H0). specialize (H0 key (or_introl eq_refl) Nk).
    destruct (array_values els key rest (JObj ms0) Nk H0) as (ms & V & M).
    destruct (expr_result_spec O o (key :: rest) vs p es (JObj ms) C Be) as (a & E & H).
    { destruct key; [congruence|exact Logic.I]. }
    { unfold no_index. destruct key as [|c k]; [exact Logic.I|]. destruct c as [|q]; [exact Logic.I|]. do 7 (destruct q as [q|q|]; try exact Logic.I; try discriminate). }
    exists a. split; [|split; [exists (JObj ms0); exact H0|]].
    + rewrite <- E. unfold expr_result, get_field. f_equal. exact V.
    + intros obj S1. rewrite H. assert (Q : forall child, member key (JObj ms) child <-> member key obj child).
      { intros child. rewrite M. rewrite (H0 child). symmetry. apply S1. }
      split; apply holds_members; [exact Q|intros child; symmetry; apply Q].
Qed.

Lemma ev_reads n j : tree_ok n -> forall m, build O n = Ok m -> exists x, ev O m j = as_res x /\ forall y, reads O n j y <-> y = x.
Proof.
  induction n as [l IHl r IHr|l IHl r IHr|e IHe|o f vs p]; intros T m; cbn [build].
  - destruct (build O l) as [x|]; [|discriminate]. destruct (build O r) as [y|]; [|discriminate]. cbn. intros [= <-]. cbn [ev].
    destruct (IHl ltac:(intros ? ? ? ? S; eapply T, sub_and_l, S) _ eq_refl) as (a & -> & Ha).
    destruct (IHr ltac:(intros ? ? ? ? S; eapply T, sub_and_r, S) _ eq_refl) as (c & -> & Hc).
    destruct a as [[|]|]; cbn [as_res bind]; eexists; (split; [first [reflexivity | instantiate (1 := Some false); reflexivity | instantiate (1 := None); reflexivity]|]); intros z.
    + split; [|intros ->; apply rd_and; [now apply Ha|now apply Hc]].
      intros R. inversion R; subst; [|now apply Hc]. match goal with X : reads O l j _ |- _ => apply Ha in X; congruence end.
    + split; [|intros ->; apply rd_and_stop; [now apply Ha|discriminate]].
      intros R. inversion R; subst; [now apply Ha|]. match goal with X : reads O l j _ |- _ => apply Ha in X; congruence end.
    + split; [|intros ->; apply rd_and_stop; [now apply Ha|discriminate]].
      intros R. inversion R; subst; [now apply Ha|]. match goal with X : reads O l j _ |- _ => apply Ha in X; congruence end.
  - destruct (build O l) as [x|]; [|discriminate]. destruct (build O r) as [y|]; [|discriminate]. cbn. intros [= <-]. cbn [ev].
    destruct (IHl ltac:(intros ? ? ? ? S; eapply T, sub_or_l, S) _ eq_refl) as (a & -> & Ha).
    destruct (IHr ltac:(intros ? ? ? ? S; eapply T, sub_or_r, S) _ eq_refl) as (c & -> & Hc).
    destruct a as [[|]|]; cbn [as_res bind]; [exists (Some true)|exists c|exists None]; (split; [reflexivity|]); intros z.
    + split; [|intros ->; apply rd_or_stop; [now apply Ha|discriminate]].
      intros R. inversion R; subst; [now apply Ha|]. match goal with X : reads O l j _ |- _ => apply Ha in X; congruence end.
    + split; [|intros ->; apply rd_or; [now apply Ha|now apply Hc]].
      intros R. inversion R; subst; [|now apply Hc]. match goal with X : reads O l j _ |- _ => apply Ha in X; congruence end.
    + split; [|intros ->; apply rd_or_stop; [now apply Ha|discriminate]].
      intros R. inversion R; subst; [now apply Ha|]. match goal with X : reads O l j _ |- _ => apply Ha in X; congruence end.
  - destruct (build O e) as [x|]; [|discriminate]. cbn. intros [= <-]. cbn [ev].
    destruct (IHe ltac:(intros ? ? ? ? S; eapply T, sub_not, S) _ eq_refl) as (a & -> & Ha).
    exists (option_map negb a). split; [now destruct a|]. intros z. split.
    + intros R. inversion R; subst. match goal with X : reads O e j _ |- _ => apply Ha in X; now subst end.
    + intros ->. apply rd_not. now apply Ha.
  - destruct (build_exprs O o vs) as [es|] eqn:E; [|discriminate]. cbn [bind]. intros [= <-]. cbn [ev].
    destruct (breaks_dec f j) as [B|(key & rest & -> & Nb & Sf)].
    + exists None. split.
      * destruct B as [->|(rest & els & -> & ->)]; reflexivity.
      * intros z. split; [|intros ->; now apply rd_break]. intros R. inversion R; subst; [reflexivity|contradiction].
    + destruct (compare_reads o key rest vs p es j (T _ _ _ _ (sub_refl _)) E Nb Sf) as (a & Ea & (obj & S0) & H).
      exists (Some a). split; [exact Ea|]. intros z. split.
      * intros R. inversion R; subst; [contradiction|]. rename a0 into a1.
        match goal with Hs : seen_as j key ?ob |- _ => specialize (H ob Hs) end.
        assert (Q : a1 = true <-> a = true) by (rewrite H; assumption). f_equal. destruct a1, a; auto; [symmetry|]; now apply Q.
      * intros ->. eapply rd_compare; [exact Nb|exact S0|now apply H].
Qed.
End P.

(** The outcome of the reading is unique, and it is what Match does, whatever was matched before. *)
Theorem C145_reading O q t m m1 data j : parse_plain O q = QOk t -> new_matcher O q = NewOk m -> after O (mt_root m) m1 -> document data j ->
  exists x, (forall y, reads O t j y <-> y = x) /\
    match x with
    | Some a => exists m2, match_doc O m1 data = Ok (Some a, m2)
    | None => match_doc O m1 data = Panic
    end.
Proof.
  intros P Nm A D. destruct (new_matcher_accepted O q t P) as (r & B & E).
  rewrite E in Nm. injection Nm as <-. cbn in A. destruct (ev_reads O t j (accepted_tree_ok O q t P) r B) as (x & Ev & H).
  exists x. split; [exact H|]. pose proof (match_answer O m1 data) as M. rewrite (answer_shape O m1 r) in M by now apply after_shape in A.
  unfold answer in M. apply parse_json_spec in D. rewrite D, Ev in M.
  destruct (match_doc O m1 data) as [[r' m']|], x as [a|]; cbn in M; try discriminate; [|reflexivity]. injection M as <-. eauto.
Qed.
Print Assumptions C145_reading.

(** A text that is no document is an error for every matcher. *)
Theorem C145_error O m data : (forall j, ~ document data j) -> match_doc O m data = Ok (None, m).
Proof.
  intros N. unfold match_doc. destruct (parse_json data) as [j|] eqn:J; [|reflexivity]. apply parse_json_spec in J. now apply N in J.
Qed.
Print Assumptions C145_error.

(** So Match panics exactly if a comparison that breaks is reached. *)
Theorem C145_panics O q t m m1 data : parse_plain O q = QOk t -> new_matcher O q = NewOk m -> after O (mt_root m) m1 ->
  match_doc O m1 data = Panic <-> exists j, document data j /\ reads O t j None.
Proof.
  intros P Nm A. split.
  - intros H. pose proof (match_answer O m1 data) as M. rewrite H in M. unfold answer in M. destruct (parse_json data) as [j|] eqn:J; [|discriminate].
    apply parse_json_spec in J. exists j. split; [exact J|]. destruct (C145_reading O q t m m1 data j P Nm A J) as (x & U & X).
    apply U. destruct x as [a|]; [|reflexivity]. destruct X as (m2 & X). congruence.
  - intros (j & D & R). destruct (C145_reading O q t m m1 data j P Nm A D) as (x & U & X). apply U in R. now subst x.
Qed.
Print Assumptions C145_panics.

(** The order of the comparisons matters: the same two comparisons, the other way round. *)
Example C145_order : exists m1 m2 m3, new_matcher test_oracle (b "a:1 OR *:exists") = NewOk m1 /\ new_matcher test_oracle (b "*:exists OR a:1") = NewOk m2 /\
  match_doc test_oracle (mt_root m1) (b "{""a"":1}") = Ok (Some true, m3) /\
  match_doc test_oracle (mt_root m1) (b "{""a"":2}") = Panic /\ match_doc test_oracle (mt_root m2) (b "{""a"":1}") = Panic.
Proof. do 3 eexists. split; [vm_compute; reflexivity|]. split; [vm_compute; reflexivity|]. split; [vm_compute; reflexivity|]. split; vm_compute; reflexivity. Qed.

(** The hypotheses, and a reading of each kind. *)
Example C145_example : exists t m, let q := b """[1]"":exists AND NOT """":exists" in
  parse_plain test_oracle q = QOk t /\ new_matcher test_oracle q = NewOk m /\ after test_oracle (mt_root m) (mt_root m) /\
  document (b "[1]") (JArr [JNum (b "1")]) /\ reads test_oracle t (JArr [JNum (b "1")]) (Some false) /\
  document (b "[1,2]") (JArr [JNum (b "1"); JNum (b "2")]) /\ reads test_oracle t (JArr [JNum (b "1"); JNum (b "2")]) None /\
  document (b "{""[1]"":2}") (JObj [(b "[1]", JNum (b "2"))]) /\ reads test_oracle t (JObj [(b "[1]", JNum (b "2"))]) (Some true).
Proof.
  assert (X : exists t m, let q := b """[1]"":exists AND NOT """":exists" in parse_plain test_oracle q = QOk t /\ new_matcher test_oracle q = NewOk m).
  { do 2 eexists. split; vm_compute; reflexivity. }
  destruct X as (t & m & P & Nm). exists t, m. cbn zeta. split; [exact P|]. split; [exact Nm|]. split; [apply af_none|].
  assert (K : forall data j a, document data j -> match match_doc test_oracle (mt_root m) data with Ok (r, _) => match a with Some x => r = Some x | None => False end | Panic => a = None end -> reads test_oracle t j a).
  { intros data j a D H. destruct (C145_reading test_oracle _ t m (mt_root m) data j P Nm (af_none _ _) D) as (x & U & V). apply U.
    destruct x as [x|]; [destruct V as (m2 & V); rewrite V in H; destruct a; [congruence|contradiction]|rewrite V in H; exact H]. }
  vm_compute in Nm. injection Nm as <-.
  assert (D1 : document (b "[1]") (JArr [JNum (b "1")])) by (apply parse_json_spec; vm_compute; reflexivity).
  assert (D2 : document (b "[1,2]") (JArr [JNum (b "1"); JNum (b "2")])) by (apply parse_json_spec; vm_compute; reflexivity).
  assert (D3 : document (b "{""[1]"":2}") (JObj [(b "[1]", JNum (b "2"))])) by (apply parse_json_spec; vm_compute; reflexivity).
  split; [exact D1|]. split; [apply (K _ _ _ D1); vm_compute; reflexivity|].
  split; [exact D2|]. split; [apply (K _ _ _ D2); vm_compute; reflexivity|].
  split; [exact D3|]. apply (K _ _ _ D3); vm_compute; reflexivity.
Qed.
