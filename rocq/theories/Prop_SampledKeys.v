(** C59, C84: sampled keys as fields of queries. *)
From Verif Require Import Bytes Utf8 Utf8Proofs GoStrconv Oracles TestOracle Ast AstSpec Json JsonProofs Values MatchSpec MatchApi
  ParseQuery Sampler SamplerSpec SamplerProofs LiteralSpec StringProofs PathProofs SimpleQuery Prop_Match Prop_Sampler.
From Verif Require JsonSpec GrammarSpec Prop_Paths.
From Verif Require Import Matcher.
From Coq Require Import ZifyBool ZifyN ZifyNat.
Import Verif.GrammarSpec (tx, text, name_char, digit, piece, pieces, field, quoted, quoted_body).

(** ** C59 *)
(** The key of an object in a top-level array: the query is accepted but does not match. *)
Theorem C59_array_refuted : exists data s k, forall O,
  sampleable data (tree data) /\ samples (new_sampler 3) [data] s /\ In k (keys s) /\ answers O (k ++ b ":exists") data (Some false).
Proof.
  exists (b "[{""a"":1}]"). eexists. exists (b "a"). intros O. split; [apply sampleable_by; vm_compute; reflexivity|].
  split; [eapply sm_more; [vm_compute; reflexivity|constructor]|]. split; [vm_compute; auto|].
  do 3 eexists. split; [vm_compute; reflexivity|]. split; [apply af_none|]. vm_compute. reflexivity.
Qed.
Print Assumptions C59_array_refuted.

(** A name with a dot: the key is read as two names. *)
Theorem C59_dot_refuted : exists data s k, forall O,
  sampleable data (tree data) /\ samples (new_sampler 3) [data] s /\ In k (keys s) /\ answers O (k ++ b ":exists") data (Some false).
Proof.
  exists (b "{""a.b"":1}"). eexists. exists (b "a.b"). intros O. split; [apply sampleable_by; vm_compute; reflexivity|].
  split; [eapply sm_more; [vm_compute; reflexivity|constructor]|]. split; [vm_compute; auto|].
  do 3 eexists. split; [vm_compute; reflexivity|]. split; [apply af_none|]. vm_compute. reflexivity.
Qed.
Print Assumptions C59_dot_refuted.

(** A second member of the same name: reported, but out of reach of a query. *)
Theorem C59_repeated_refuted : exists data s k, forall O,
  sampleable data (tree data) /\ samples (new_sampler 3) [data] s /\ In k (keys s) /\ answers O (k ++ b ":exists") data (Some false).
Proof.
  exists (b "{""a"":1,""a"":{""b"":2}}"). eexists. exists (b "a.b"). intros O. split; [apply sampleable_by; vm_compute; reflexivity|].
  split; [eapply sm_more; [vm_compute; reflexivity|constructor]|]. split; [vm_compute; auto|].
  do 3 eexists. split; [vm_compute; reflexivity|]. split; [apply af_none|]. vm_compute. reflexivity.
Qed.
Print Assumptions C59_repeated_refuted.

(** A name with a colon or a letter that is not ASCII: the query is not even accepted. *)
Theorem C59_syntax_refuted : exists data data' s s' k k', forall O,
  sampleable data (tree data) /\ samples (new_sampler 3) [data] s /\ In k (keys s) /\
  sampleable data' (tree data') /\ samples (new_sampler 3) [data'] s' /\ In k' (keys s') /\
  (forall t, parse_plain O (k ++ b ":exists") <> QOk t) /\ (forall t, parse_plain O (k' ++ b ":exists") <> QOk t).
Proof.
  exists (b "{""a:b"":1}"), (b "{""" ++ [195; 169] ++ b """:1}"). do 2 eexists. exists (b "a:b"), [195; 169]. intros O.
  split; [apply sampleable_by; vm_compute; reflexivity|].
  split; [eapply sm_more; [vm_compute; reflexivity|constructor]|]. split; [vm_compute; auto|].
  split; [apply sampleable_by; vm_compute; reflexivity|].
  split; [eapply sm_more; [vm_compute; reflexivity|constructor]|]. split; [vm_compute; auto|].
  split; intros t; vm_compute; discriminate.
Qed.
Print Assumptions C59_syntax_refuted.

(** ** C84: where sampled keys do work *)

(** A name of letters, digits, _ and -, or one with a space and otherwise any characters
    except control characters, quotes and backslashes. *)
Definition plain_name (t : text) : Prop :=
  scalars t /\ ((t <> [] /\ Forall name_char t) \/ (In 32 t /\ Forall (fun c => 32 <= c /\ c <> 34 /\ c <> 92) t)).
Definition plain_names (j : json) : Prop :=
  forall raw, has_name j raw -> exists t, unescape raw = Some (encode t) /\ plain_name t.
(** No object has two members of the same name. *)
Inductive inside : json -> json -> Prop :=
| in_here j : inside j j
| in_member j ms k v : In (k, v) ms -> inside j v -> inside j (JObj ms)
| in_element j els e : In e els -> inside j e -> inside j (JArr els).
Definition unique_names (j : json) : Prop :=
  forall ms, inside (JObj ms) j -> NoDup (map (fun m => unescape (fst m)) ms).

Lemma first_member ms raw v name : NoDup (map (fun m => unescape (fst m)) ms) ->
  (forall r w, In (r, w) ms -> unescape r <> None) -> In (raw, v) ms -> unescape raw = Some name -> member name (JObj ms) v.
Proof.
  intros Nd Dc I E. apply in_split in I as (l1 & l2 & ->). exists l1, raw, l2. split; [reflexivity|]. split; [exact E|].
  rewrite map_app in Nd. cbn [map fst] in Nd. apply NoDup_remove_2 in Nd.
  apply Forall_forall. intros [r w] I. destruct (unescape r) as [k|] eqn:Er.
  - exists k. split; [exact Er|]. intros ->. apply Nd. apply in_or_app. left. apply in_map_iff. exists (r, w). split; [cbn; congruence|exact I].
  - exfalso. apply (Dc r w); [apply in_or_app; now left|exact Er].
Qed.

Lemma leads_resolves p : forall d ms, p <> [] -> unique_names (JObj ms) -> decodable (JObj ms) -> leads d (JObj ms) p ->
  exists v, resolves p (JObj ms) v.
Proof.
  induction p as [|name p IH]; intros d ms Ne U D L; [congruence|].
  inversion L as [|d0 ms0 raw name0 v p0 I E Lv|]; subst.
  assert (M : member name (JObj ms) v).
  { eapply first_member; eauto; [apply U; constructor|]. intros r w Ir. apply D. econstructor; eauto. }
  destruct p as [|n2 p]; [exists v; now constructor|].
  inversion Lv as [|d1 ms1 raw1 name1 v1 p1 I1 E1 L1|d1 els e p1 Ie Na Le]; subst.
  - edestruct IH as (w & R); [discriminate| | |exact Lv|].
    + intros ms2 In2. apply U. eapply in_member; eauto.
    + intros r Hr. apply D. eapply hn_member; eauto.
    + exists w. eapply rs_object; eauto.
  - assert (exists ms1, e = JObj ms1) as (ms1 & ->).
    { inversion Le; subst; [eauto|]. exfalso. eapply Na. reflexivity. }
    edestruct IH as (w & R); [discriminate| | |exact Le|].
    + intros ms2 In2. apply U. eapply in_member; eauto. eapply in_element; eauto.
    + intros r Hr. apply D. eapply hn_member; eauto. eapply hn_element; eauto.
    + exists w. eapply rs_array; eauto.
Qed.

Lemma plain_piece t : plain_name t -> exists u, shown_name (encode t) = encode u /\ scalars u /\ piece u (encode t) /\ encode t <> b "*".
Proof.
  intros [Sc [[Ne Nm]|[Sp Q]]]; unfold shown_name.
  - exists t. replace (existsb (N.eqb 32) (encode t)) with false.
    + split; [reflexivity|]. split; [exact Sc|]. split; [now apply GrammarSpec.pc_plain|].
      change (b "*") with (encode (tx "*")). intros E. apply encode_inj in E; [|exact Sc|repeat constructor]. subst t.
      inversion Nm as [|? ? Hc _]; subst. unfold name_char, digit in Hc. lia.
    + symmetry. apply not_true_iff_false. rewrite existsb_exists. intros (x & I & E). apply N.eqb_eq in E. subst x.
      apply (Prop_Paths.encode_in t 32) in I; [|lia]. rewrite Forall_forall in Nm. apply Nm in I. unfold name_char, digit in I. lia.
  - exists ([34] ++ t ++ [34]). replace (existsb (N.eqb 32) (encode t)) with true.
    + assert (Scq : scalars ([34] ++ t ++ [34])) by (apply Forall_app; split; [repeat constructor|apply Forall_app; split; [exact Sc|repeat constructor]]).
      assert (Qb : quoted_body t) by (clear -Q; induction Q as [|c t (H1 & H2 & H3) _ IH]; constructor; auto).
      assert (Dn : denotes_string t t) by (clear -Q; induction Q as [|c t (H1 & H2 & H3) _ IH]; constructor; auto).
      assert (Qd : quoted ([34] ++ t ++ [34])) by (exists t; auto).
      split; [rewrite !encode_app; reflexivity|]. split; [exact Scq|]. split.
      * apply GrammarSpec.pc_quoted; [exact Qd|]. apply unquote_spec; auto. exists t, t. auto.
      * intros E. apply (Prop_Paths.encode_in t 32) in Sp; [|lia]. rewrite E in Sp. destruct Sp as [Sp|[]]. discriminate.
    + symmetry. apply existsb_exists. exists 32. split; [apply Prop_Paths.encode_in; [lia|exact Sp]|reflexivity].
Qed.

Lemma shown_field ts : ts <> [] -> Forall plain_name ts ->
  exists u, shown (map encode ts) = encode u /\ scalars u /\ field u (map encode ts).
Proof.
  intros Ne F.
  assert (P : exists ss, ss <> [] /\ shown (map encode ts) = encode (path_text ss) /\ scalars (path_text ss) /\ Forall2 piece ss (map encode ts) /\
                         Forall (fun s => s <> b "*") (map encode ts)).
  { induction ts as [|t ts IH]; [congruence|]. inversion F as [|? ? Ft F']; subst. destruct (plain_piece t Ft) as (u & E & Su & Pu & Nu).
    destruct ts as [|t' ts].
    - exists [u]. split; [discriminate|]. cbn. rewrite E. repeat split; auto.
    - destruct (IH ltac:(discriminate) F') as (ss & Ns & Es & Ss & Fs & Fn). exists (u :: ss). split; [discriminate|].
      rewrite path_text_cons by auto. rewrite !encode_app. cbn [map shown] in Es |- *. rewrite Es, E. split; [reflexivity|].
      split; [apply Forall_app; split; [exact Su|apply Forall_app; split; [repeat constructor|exact Ss]]|]. split; constructor; auto. }
  destruct P as (ss & Ns & E & Ss & Fs & Fn). exists (path_text ss). split; [exact E|]. split; [exact Ss|].
  exists (map encode ts). split; [now apply pieces_path|]. clear -Fn. induction Fn as [|s l Hs _ IH]; [reflexivity|]. cbn [filter].
  destruct (beqb s (b "*")) eqn:Eb; [apply MatchProofs.beqb_eq in Eb; contradiction|]. cbn [negb]. now rewrite <- IH.
Qed.

Lemma leads_names d j p : plain_names j -> leads d j p -> exists ts, p = map encode ts /\ Forall plain_name ts.
Proof.
  intros Pl L. induction L as [|d ms raw name v p I E L IH|d els e p I Na L IH].
  - exists []. split; [reflexivity|constructor].
  - destruct IH as (ts & -> & F); [intros r Hr; apply Pl; eapply hn_member; eauto|].
    destruct (Pl raw) as (t & Et & Pt); [econstructor; eauto|]. exists (t :: ts). split; [cbn; congruence|now constructor].
  - apply IH. intros r Hr. apply Pl. eapply hn_element; eauto.
Qed.

Theorem C84_path_query O d text ms p : JsonSpec.document text (JObj ms) -> unique_names (JObj ms) -> plain_names (JObj ms) ->
  leads d (JObj ms) p -> answers O (shown p ++ b ":exists") text (Some true).
Proof.
  intros D U Pl L. destruct (leads_names _ _ _ Pl L) as (ts & -> & F).
  assert (Ne : ts <> []).
  { intros ->. inversion L as [? ? [So _]| |]; subst. now eapply So. }
  destruct (shown_field ts Ne F) as (u & E & Su & Fu). rewrite E. change (b ":exists") with (encode (tx ":exists")). rewrite <- encode_app.
  pose proof (accept_exists O u _ Fu Su) as P.
  apply (proj2 (proj1 (C24_meaning O _ _ text (JObj ms) P D
    ltac:(intros o f vs q S; inversion S; subst; split; [destruct ts as [|t ts]; [congruence|]; cbn [map path_safe]; destruct (encode t); [intros; discriminate|exact I]|
                                 destruct ts as [|t ts]; [congruence|]; cbn [map no_index]; repeat (match goal with |- context[match ?x with _ => _ end] => destruct x end); try exact I; intros; discriminate]))) ).
  cbn [holds]. apply leads_resolves with d; auto; [destruct ts; [congruence|discriminate]|].
  intros raw Hr. destruct (Pl raw Hr) as (t & -> & _). discriminate.
Qed.
Print Assumptions C84_path_query.

Theorem C84_sampled_keys O d texts js s k : Forall2 sampleable texts js -> samples (new_sampler (Z.of_nat d)) texts s ->
  Forall (fun j => (exists ms, j = JObj ms) /\ (JsonSpec.nesting j <= N.to_nat 10000)%nat /\ unique_names j /\ plain_names j) js ->
  In k (keys s) -> exists text, In text texts /\ answers O (k ++ b ":exists") text (Some true).
Proof.
  intros F H G I. apply (proj2 (C51_keys d texts js s F H)) in I as (j & p & Ij & L & ->).
  rewrite Forall_forall in G. destruct (G j Ij) as ((ms & ->) & Hn & U & Pl).
  assert (exists text, In text texts /\ sampleable text (JObj ms)) as (text & It & St).
  { clear -F Ij. induction F as [|t j' texts js Hs _ IH]; [destruct Ij|]. destruct Ij as [->|Ij]; [exists t; split; [now left|exact Hs]|].
    destruct (IH Ij) as (text & It & St). exists text. split; [now right|exact St]. }
  exists text. split; [exact It|]. apply (C84_path_query O d text ms p); auto.
  exists [], text, []. rewrite app_nil_r. split; [reflexivity|]. destruct St as (V & _). repeat split; auto; constructor.
Qed.
Print Assumptions C84_sampled_keys.

(** Examples: ASCII names. *)
Definition name_charb (c : N) : bool :=
  ((97 <=? c) && (c <=? 122)) || ((65 <=? c) && (c <=? 90)) || ((48 <=? c) && (c <=? 57)) || (c =? 95) || (c =? 45).
Definition plainb (s : bytes) : bool :=
  forallb (fun c => c <? 128) s &&
  (match s with [] => false | _ => forallb name_charb s end ||
   (existsb (N.eqb 32) s && forallb (fun c => (32 <=? c) && negb (c =? 34) && negb (c =? 92)) s)).
Fixpoint plain_namesb (j : json) : bool :=
  match j with
  | JObj ms => forallb (fun m => match unescape (fst m) with Some s => plainb s | None => false end && plain_namesb (snd m)) ms
  | JArr els => forallb plain_namesb els
  | _ => true
  end.
Lemma plainb_name s : plainb s = true -> exists t, s = encode t /\ plain_name t.
Proof.
  intros H. apply andb_true_iff in H as [A H]. rewrite forallb_forall in A.
  assert (As : Forall (fun c => c < 128) s) by (apply Forall_forall; intros c I; apply A in I; lia).
  exists s. split; [symmetry; now apply encode_ascii|]. split; [now apply ascii_scalars|].
  apply orb_true_iff in H as [H|H].
  - left. destruct s as [|c s]; [discriminate|]. split; [discriminate|]. apply Forall_forall. intros x I. rewrite forallb_forall in H.
    apply H in I. unfold name_charb in I. unfold name_char, digit. lia.
  - right. apply andb_true_iff in H as [H1 H2]. apply existsb_exists in H1 as (x & I & E). apply N.eqb_eq in E. subst x.
    split; [exact I|]. apply Forall_forall. intros x Ix. rewrite forallb_forall in H2. apply H2 in Ix. lia.
Qed.
Lemma plain_names_by j : plain_namesb j = true -> plain_names j.
Proof.
  intros H raw N. revert H. induction N as [ms raw v I|ms k v raw I N IH|els e raw I N IH]; cbn [plain_namesb]; intros H;
    rewrite forallb_forall in H; specialize (H _ I); cbn [fst snd] in H.
  - apply andb_true_iff in H as [H _]. destruct (unescape raw) as [s|]; [|discriminate]. destruct (plainb_name s H) as (t & -> & P). eauto.
  - apply andb_true_iff in H as [_ H]. auto.
  - auto.
Qed.
Definition option_dec (x y : option bytes) : {x = y} + {x <> y}.
Proof. decide equality. apply bytes_dec. Defined.
Definition NoDup_dec {A} (dec : forall x y : A, {x = y} + {x <> y}) (l : list A) : {NoDup l} + {~ NoDup l}.
Proof.
  induction l as [|x l IH]; [left; constructor|]. destruct (in_dec dec x l) as [I|I]; [right; intros H; now inversion H|].
  destruct IH as [IH|IH]; [left; now constructor|right; intros H; now inversion H].
Defined.
Fixpoint unique_namesb (j : json) : bool :=
  match j with
  | JObj ms => forallb (fun m => unique_namesb (snd m)) ms &&
    if NoDup_dec option_dec (map (fun m => unescape (fst m)) ms) then true else false
  | JArr els => forallb unique_namesb els
  | _ => true
  end.
Lemma unique_names_by j : unique_namesb j = true -> unique_names j.
Proof.
  intros H ms I. remember (JObj ms) as o eqn:Eo. revert Eo H. induction I as [j|j ms0 k v I _ IH|j els e I _ IH]; intros Eo H; subst; cbn [unique_namesb] in H.
  - apply andb_true_iff in H as [_ H]. now destruct (NoDup_dec _ _).
  - apply andb_true_iff in H as [H _]. rewrite forallb_forall in H. specialize (H _ I). auto.
  - rewrite forallb_forall in H. auto.
Qed.

Definition user_doc : bytes := b "{""user"":{""first name"":""x"",""tags"":[{""k_1"":1},{""k_2"":null}]}}".
Example C84_example : sampleable user_doc (tree user_doc) /\ unique_names (tree user_doc) /\ plain_names (tree user_doc) /\
  exists s, samples (new_sampler 5) [user_doc] s /\ keys s = [b "user.""first name"""; b "user.tags.k_1"; b "user.tags.k_2"] /\
    answers test_oracle (b "user.""first name"":exists") user_doc (Some true).
Proof.
  split; [apply sampleable_by; vm_compute; reflexivity|].
  split; [apply unique_names_by; vm_compute; reflexivity|]. split; [apply plain_names_by; vm_compute; reflexivity|].
  eexists. split; [eapply sm_more; [vm_compute; reflexivity|constructor]|]. split; [vm_compute; reflexivity|].
  do 3 eexists. split; [vm_compute; reflexivity|]. split; [apply af_none|]. vm_compute. reflexivity.
Qed.
