(** C51-C55, C57, C58: the key sampler. *)
From Verif Require Import Bytes GoStrconv GoFloat Json JsonSpec JsonProofs Values JsonParser JsonParserProofs
  MatchSpec MatchProofs Sampler SamplerSpec SamplerProofs.
From Coq Require Import ZifyBool ZifyN ZifyNat Permutation.

Lemma count_mcount k s m : sp_keys s = Some m -> count_of k s = mcount k m.
Proof. unfold count_of. now intros ->. Qed.

(** What a history from a new sampler leads to. *)
Lemma fresh n texts s : samples (new_sampler n) texts s ->
  exists kss, Forall2 (fun t ks => outcome n t = COk ks) texts kss /\
    s = {| sp_max := n; sp_keys := Some (put (concat kss) []); sp_docs := Z.of_nat (length texts) |}.
Proof. intros H. destruct (samples_inv texts _ s [] H eq_refl) as (kss & F & ->). exists kss. split; [exact F|]. reflexivity. Qed.

Lemma outcomes_documents d texts js : Forall2 sampleable texts js ->
  Forall2 (fun t ks => outcome (Z.of_nat d) t = COk ks) texts (map (fun j => map shown (scalars_below d j)) js).
Proof. induction 1 as [|t j texts js H _ IH]; cbn; constructor; [now apply outcome_document|exact IH]. Qed.

Lemma history d texts js s : Forall2 sampleable texts js -> samples (new_sampler (Z.of_nat d)) texts s ->
  s = {| sp_max := Z.of_nat d; sp_keys := Some (put (concat (map (fun j => map shown (scalars_below d j)) js)) []);
         sp_docs := Z.of_nat (length texts) |}.
Proof.
  intros F H. pose proof (samples_outcomes (Z.of_nat d) texts (new_sampler (Z.of_nat d)) [] _ eq_refl eq_refl (outcomes_documents d _ _ F)) as H'.
  rewrite (samples_fun _ _ _ _ H H'). reflexivity.
Qed.

(** ** C51 *)

(** Sampling documents succeeds. *)
Theorem C51_succeeds d texts js : Forall2 sampleable texts js ->
  exists s, samples (new_sampler (Z.of_nat d)) texts s /\ scanned s = Z.of_nat (length texts).
Proof.
  intros F. eexists. split; [exact (samples_outcomes (Z.of_nat d) texts (new_sampler (Z.of_nat d)) [] _ eq_refl eq_refl (outcomes_documents d _ _ F))|].
  reflexivity.
Qed.
Print Assumptions C51_succeeds.

(** The keys are the paths of at most [d] names that lead to a scalar, each listed once. *)
Theorem C51_keys d texts js s : Forall2 sampleable texts js -> samples (new_sampler (Z.of_nat d)) texts s ->
  NoDup (keys s) /\ forall k, In k (keys s) <-> exists j p, In j js /\ leads d j p /\ k = shown p.
Proof.
  intros F H. rewrite (history d texts js s F H). unfold keys. cbn [sp_keys].
  pose proof (put_wf (concat (map (fun j => map shown (scalars_below d j)) js)) [] wf_nil) as W. split; [apply W|].
  intros k. rewrite (in_count k _ W), mcount_put.
  transitivity (In k (concat (map (fun j => map shown (scalars_below d j)) js))).
  - rewrite (count_occ_In bytes_dec). cbn. lia.
  - rewrite in_concat. split.
    + intros (l & Il & Ik). apply in_map_iff in Il as (j & <- & Ij). apply in_map_iff in Ik as (p & <- & Ip).
      apply scalars_leads in Ip. eauto.
    + intros (j & p & Ij & L & ->). apply scalars_leads in L. eexists. split; [|apply in_map; exact L].
      apply (in_map (fun j => map shown (scalars_below d j))). exact Ij.
Qed.
Print Assumptions C51_keys.

(** The count of a key is the number of scalars it leads to, over all documents. *)
Theorem C51_counts d texts js s k : Forall2 sampleable texts js -> samples (new_sampler (Z.of_nat d)) texts s ->
  count_of k s = N.of_nat (count_occ bytes_dec (flat_map (fun j => map shown (scalars_below d j)) js) k).
Proof.
  intros F H. rewrite (history d texts js s F H). unfold count_of. cbn [sp_keys]. fold (mcount k (put (concat (map (fun j => map shown (scalars_below d j)) js)) [])). rewrite mcount_put.
  rewrite flat_map_concat_map. reflexivity.
Qed.
Print Assumptions C51_counts.

(** The list of scalars used there is that of [leads]. *)
Theorem C51_scalars d j p : In p (scalars_below d j) <-> leads d j p.
Proof. apply scalars_leads. Qed.
Print Assumptions C51_scalars.

Definition doc1 : bytes := b "{""a"":1,""b"":{""c d"":[true,{""e"":null},[7]],""x"":{""y"":{""z"":0}}}}".
Definition doc2 : bytes := b "[{""a"":[1,2]},{""a"":3}]".
(** Examples: the names of a document. *)
Fixpoint names_ok (j : json) : bool :=
  match j with
  | JObj ms => forallb (fun m => match unescape (fst m) with Some _ => names_ok (snd m) | None => false end) ms
  | JArr els => forallb names_ok els
  | _ => true
  end.
Lemma names_decodable j : names_ok j = true -> decodable j.
Proof.
  intros H raw N. revert H. induction N as [ms raw v I|ms k v raw I N IH|els e raw I N IH]; cbn [names_ok]; intros H;
    rewrite forallb_forall in H; specialize (H _ I); cbn [fst snd] in H.
  - now destruct (unescape raw).
  - destruct (unescape k); [auto|discriminate].
  - auto.
Qed.

(** The texts of documents without blanks around them. *)
Lemma value_of_document t j : parse_json t = Some j -> (exists c r, t = c :: r /\ is_ws c = false) -> is_ws (last t 0) = false -> value_text t j.
Proof.
  intros P (c & r & E & Hc) Hl. apply parse_json_spec in P as (w1 & s & w2 & Et & W1 & V & W2 & _).
  assert (w1 = []) as ->.
  { destruct W1 as [|x w1 Hx _]; [reflexivity|]. rewrite E in Et. injection Et as -> _. apply is_ws_spec in Hx. congruence. }
  assert (w2 = []) as ->.
  { destruct (rev w2) as [|x u] eqn:R; [rewrite <- (rev_involutive w2), R; reflexivity|].
    assert (E2 : w2 = rev u ++ [x]) by (rewrite <- (rev_involutive w2), R; reflexivity).
    assert (Hx : is_ws x = true) by (apply is_ws_spec; rewrite E2 in W2; apply Forall_app in W2 as [_ W2]; now inversion W2).
    rewrite Et, E2 in Hl. cbn [app] in Hl. rewrite app_assoc in Hl. rewrite last_last in Hl. congruence. }
  rewrite Et. cbn [app]. now rewrite app_nil_r.
Qed.

Definition sampleableb (t : bytes) (j : json) : bool :=
  match parse_json t with
  | Some j' => match t with c :: _ => negb (is_ws c) | [] => false end && negb (is_ws (last t 0)) && names_ok j &&
    match j with JObj _ => true | JArr els => forallb (fun e => match e with JObj _ | JArr _ => true | _ => false end) els | _ => false end
  | None => false
  end.
Lemma sampleable_by t j : parse_json t = Some j -> sampleableb t j = true -> sampleable t j.
Proof.
  intros P H. unfold sampleableb in H. rewrite P in H.
  apply Bool.andb_true_iff in H as [H S4]. apply Bool.andb_true_iff in H as [H S3]. apply Bool.andb_true_iff in H as [S1 S2].
  split; [|split; [now apply names_decodable|]].
  - apply value_of_document; [exact P| |now destruct (is_ws (last t 0))].
    destruct t as [|c r]; [discriminate|]. exists c, r. split; [reflexivity|]. now destruct (is_ws c).
  - destruct j as [| | | |els|ms]; try discriminate; [right|left; eauto]. exists els. split; [reflexivity|].
    intros e Ie [So Sa]. rewrite forallb_forall in S4. specialize (S4 e Ie). destruct e; try discriminate; [now eapply Sa|now eapply So].
Qed.

Definition tree (t : bytes) : json := match parse_json t with Some j => j | None => JNull end.
Example C51_example : let j1 := tree doc1 in let j2 := tree doc2 in Forall2 sampleable [doc1; doc2] [j1; j2] /\
  exists s, samples (new_sampler 3) [doc1; doc2] s /\
    keys s = [b "a"; b "b.""c d"""; b "b.""c d"".e"] /\ count_of (b "a") s = 4.
Proof.
  intros j1 j2. split.
  - constructor; [|constructor; [|constructor]]; (eapply sampleable_by; [vm_compute; reflexivity|vm_compute; reflexivity]).
  - eexists. split; [|split].
    + eapply sm_more; [vm_compute; reflexivity|]. eapply sm_more; [vm_compute; reflexivity|]. constructor.
    + vm_compute. reflexivity.
    + vm_compute. reflexivity.
Qed.

(** ** C52: for arbitrary byte slices, documents or not, as long as none of the calls fails *)
Theorem C52_order n texts texts' s : samples (new_sampler n) texts s -> Permutation texts texts' ->
  exists s', samples (new_sampler n) texts' s' /\ (forall k, count_of k s' = count_of k s) /\
    Permutation (keys s) (keys s') /\ (forall t, Permutation (keys_at_threshold s t) (keys_at_threshold s' t)) /\
    scanned s' = scanned s.
Proof.
  intros H P. destruct (fresh n texts s H) as (kss & F & ->).
  assert (Q : exists kss', Forall2 (fun t ks => outcome n t = COk ks) texts' kss' /\ Permutation kss kss').
  { clear H. revert kss F. induction P as [|x l l' _ IH|x y l|l l' l'' _ IH1 _ IH2]; intros kss F.
    - inversion F; subst. exists []. split; constructor.
    - inversion F as [|? ks ? kss0 Hx F0]; subst. destruct (IH _ F0) as (k' & A & B). exists (ks :: k'). split; now constructor.
    - inversion F as [|? k1 ? kss1 H1 F1]; subst. inversion F1 as [|? k2 ? kss2 H2 F2]; subst.
      exists (k2 :: k1 :: kss2). split; [repeat constructor; auto|apply perm_swap].
    - destruct (IH1 _ F) as (k' & A & B). destruct (IH2 _ A) as (k'' & C & D). exists k''. split; [exact C|]. now transitivity k'. }
  destruct Q as (kss' & F' & Pk).
  pose proof (samples_outcomes n texts' (new_sampler n) [] kss' eq_refl eq_refl F') as H'.
  eexists. split; [exact H'|]. cbn [new_sampler sp_docs].
  assert (Cc : forall k, mcount k (put (concat kss') []) = mcount k (put (concat kss) [])).
  { intros k. rewrite !mcount_put. f_equal. f_equal. apply (Permutation_count_occ bytes_dec).
    clear -Pk. symmetry. induction Pk; cbn; [constructor|now apply Permutation_app_head| |now transitivity (concat l')].
    rewrite !app_assoc. apply Permutation_app_tail, Permutation_app_comm. }
  pose proof (put_wf (concat kss) [] wf_nil) as W. pose proof (put_wf (concat kss') [] wf_nil) as W'.
  split; [intros k; unfold count_of; cbn [sp_keys]; apply Cc|].
  unfold keys, keys_at_threshold. cbn [sp_keys sp_docs scanned]. split; [|split].
  - apply NoDup_Permutation; [apply W|apply W'|]. intros k. rewrite !in_count by assumption. now rewrite Cc.
  - intros t. assert (Pl := Permutation_length P).
    assert (Nd : forall m, wf m -> forall f, NoDup (map fst (filter f m))).
    { intros m [Nm _] f. clear -Nm. induction m as [|a m IH]; [constructor|]. cbn in Nm. inversion Nm as [|? ? Na Nm']; subst. cbn.
      destruct (f a); [|auto]. cbn. constructor; [|auto]. intros I. apply Na. apply in_map_iff in I as (x & <- & Ix).
      apply filter_In in Ix as [Ix _]. now apply in_map. }
    apply NoDup_Permutation; [now apply Nd|now apply Nd|].
    assert (Th : forall m, wf m -> forall g k, In k (map fst (filter (fun e => g (snd e)) m)) <-> g (mcount k m) = true /\ 0 < mcount k m).
    { intros m Wm g k. rewrite in_map_iff. split.
      - intros ([k0 c] & <- & I). apply filter_In in I as [I G]. cbn [fst snd] in *. apply (mcount_in _ _ m Wm) in I as [-> Pc]. auto.
      - intros [G Pc]. exists (k, mcount k m). split; [reflexivity|]. apply filter_In. split; [|exact G].
        apply (mcount_in _ _ m Wm). auto. }
    intros k. rewrite (Th _ W (at_threshold (Z.of_nat (length texts)) t) k), (Th _ W' (at_threshold (Z.of_nat (length texts')) t) k). now rewrite Cc, Pl.
  - now rewrite (Permutation_length P).
Qed.
Print Assumptions C52_order.

Example C52_example : exists s s', samples (new_sampler 2) [doc1; b "{""z"":0,""a"":1}"] s /\ samples (new_sampler 2) [b "{""z"":0,""a"":1}"; doc1] s' /\
  keys s <> keys s' /\ keys_at_threshold s 100 = [b "a"] /\ keys_at_threshold s' 100 = [b "a"].
Proof.
  do 2 eexists. split; [|split; [|split]].
  - repeat (eapply sm_more; [vm_compute; reflexivity|]). constructor.
  - repeat (eapply sm_more; [vm_compute; reflexivity|]). constructor.
  - vm_compute. discriminate.
  - split; vm_compute; reflexivity.
Qed.

(** ** C53: documented for New: a negative depth means no limit *)
Theorem C53_unlimited_refuted : exists n text j p, (n < 0)%Z /\ sampleable text j /\ leads 1 j p /\
  exists s, samples (new_sampler n) [text] s /\ ~ In (shown p) (keys s).
Proof.
  exists (-1)%Z, (b "{""a"":1}"), (JObj [(b "a", JNum (b "1"))]), [b "a"]. split; [reflexivity|]. split; [|split].
  - apply sampleable_by; vm_compute; reflexivity.
  - eapply ld_member; [now left|reflexivity|]. constructor. split; discriminate.
  - eexists. split; [eapply sm_more; [vm_compute; reflexivity|constructor]|]. cbn. auto.
Qed.
Print Assumptions C53_unlimited_refuted.

(** In fact nothing is ever recorded. *)
Theorem C53_records_nothing n texts s : (n < 0)%Z -> samples (new_sampler n) texts s -> keys s = [].
Proof.
  intros Neg H. destruct (fresh n texts s H) as (kss & F & ->). unfold keys. cbn [sp_keys].
  assert (C : concat kss = []); [|now rewrite C].
  clear H. induction F as [|t ks texts kss E _ IH]; [reflexivity|]. cbn. rewrite IH, app_nil_r.
  unfold outcome in E. destruct t as [|c r]; [discriminate|].
  cbn [collect] in E. replace (n <? 0)%Z with true in E by lia.
  destruct (c =? 123); [destruct (last_byte (c :: r) =? 125)|destruct (c =? 91); [destruct (last_byte (c :: r) =? 93)|]]; congruence.
Qed.
Print Assumptions C53_records_nothing.
Example C53_example : exists s, samples (new_sampler (-1)) [doc1; doc2] s /\ keys s = [] /\ scanned s = 2%Z.
Proof.
  eexists. split; [repeat (eapply sm_more; [vm_compute; reflexivity|]); constructor|]. split; vm_compute; reflexivity.
Qed.

(** ** C54 *)
Theorem C54_no_panic_refuted :
  sample (new_sampler 3) [] = SamplePanic /\
  sample (new_sampler 3) (b "[1]") = SamplePanic /\
  exists s, sample (new_sampler 3) (b "{""a"":}") = Sampled true s /\ sample s (b "{""a"":1}") = SamplePanic.
Proof.
  split; [reflexivity|]. split; [vm_compute; reflexivity|].
  eexists. split; vm_compute; reflexivity.
Qed.
Print Assumptions C54_no_panic_refuted.

(** Without an earlier failure and for a text that is not empty and does not start with an
    array, there is no panic, whatever the bytes are. *)
Theorem C54_no_panic n texts s c r : samples (new_sampler n) texts s -> c <> 91 ->
  sample s (c :: r) <> SamplePanic /\ sample s (c :: r) <> SampleFuel.
Proof.
  intros H Nc. destruct (fresh n texts s H) as (kss & _ & ->).
  match goal with |- sample ?s0 _ <> _ /\ _ => pose proof (sample_outcome s0 (put (concat kss) []) (c :: r) eq_refl) as O end.
  cbn [sp_max] in O. destruct (outcome n (c :: r)) as [ks| | |] eqn:E.
  - rewrite O. split; discriminate.
  - destruct O as (s' & -> & _). split; discriminate.
  - exfalso. unfold outcome in E. replace (c =? 91) with false in E by lia.
    destruct (c =? 123); [|discriminate]. destruct (last_byte (c :: r) =? 125); [|discriminate].
    revert E. apply collect_no_panic. now right.
  - destruct O.
Qed.
Print Assumptions C54_no_panic.
Example C54_example : exists s s', samples (new_sampler 5) [doc1] s /\
  sample s (b "{""a"":[[[1 2 {""b""") = Sampled true s /\ sample s (b "{""a"":[1 2]}") = Sampled true s' /\ keys s' = [].
Proof.
  do 2 eexists. split; [eapply sm_more; [vm_compute; reflexivity|constructor]|]. split; [vm_compute; reflexivity|].
  split; vm_compute; reflexivity.
Qed.

(** A scalar directly in a top-level array always panics. *)
Theorem C54_scalar_elements d texts s text els e : samples (new_sampler (Z.of_nat d)) texts s ->
  value_text text (JArr els) -> decodable (JArr els) -> In e els -> scalar e -> sample s text = SamplePanic.
Proof.
  intros H V Dec Ie Se. destruct (fresh _ texts s H) as (kss & _ & ->).
  match goal with |- sample ?s0 _ = _ => pose proof (sample_outcome s0 (put (concat kss) []) text eq_refl) as O end.
  cbn [sp_max] in O. enough (E : outcome (Z.of_nat d) text = CPanic) by now rewrite E in O. clear O H.
  assert (Hd : exists t, text = 91 :: t ++ [93]) by (inversion V; eauto). destruct Hd as (t & Et).
  unfold outcome. rewrite Et. change (91 =? 123) with false. change (91 =? 91) with true. cbv iota. unfold last_byte.
  replace (last (91 :: t ++ [93]) 0) with 93 by (change (91 :: t ++ [93]) with ((91 :: t) ++ [93]); now rewrite last_last).
  change (93 =? 93) with true. cbv iota. rewrite <- Et. cbn [collect]. replace (Z.of_nat d <? 0)%Z with false by lia. cbn [snd fst].
  destruct (array_each_value [] text els [] (Forall_nil _) V) as (l & A & F). cbn [app] in A. rewrite app_nil_r in A.
  pose proof (array_each_sizes text) as Sz. rewrite A in *. cbn [fst] in Sz. clear A V Et.
  assert (Dec' : forall x, In x els -> decodable x) by (intros x I raw Hn; apply Dec; eapply hn_element; eauto). clear Dec.
  induction F as [|x y l els Sx _ IH]; [destruct Ie|]. cbn [gather].
  assert (Lx : (length (fst x) < length text)%nat) by (apply Sz; now left).
  assert (Sc : scalar y -> match snd x with TArray => COk [] | _ => collect (length text) (Z.of_nat d) [] 0 x end = CPanic).
  { intros [So Sa]. destruct (length text) as [|n] eqn:Ln; [lia|]. cbn [collect].
    replace (Z.of_nat d <? 0)%Z with false by lia.
    destruct y as [|v|v|v|v|v]; cbn [shows] in Sx.
    - now rewrite Sx.
    - now rewrite Sx.
    - now destruct Sx as [-> _].
    - now destruct Sx as [-> _].
    - now destruct (Sa v).
    - now destruct (So v). }
  destruct Ie as [->|Ie]; [rewrite Sc by exact Se; reflexivity|].
  assert (IH' := IH Ie (fun v I => Sz v (or_intror I)) (fun v I => Dec' v (or_intror I))). clear IH.
  assert (Cs : exists ks, match snd x with TArray => COk [] | _ => collect (length text) (Z.of_nat d) [] 0 x end = COk ks \/ scalar y).
  { destruct (is_scalar_json y) eqn:Sy; [exists []; right; now apply is_scalar_spec|].
    destruct y as [|v|v|v|v|v]; try discriminate; cbn [shows] in Sx; destruct Sx as [Tx Vx]; rewrite Tx; [exists []; now left|].
    eexists. left. apply (collect_value (Z.of_nat d) (length text) d [] 0%Z x (JObj v)); [now split|apply Dec'; now left|exact Lx|lia|right].
    intros I. apply scalars_leads in I. inversion I as [? ? [So _]| |]; subst. now destruct (So v). }
  destruct Cs as (ks & [->|Sy]); [now rewrite IH'|]. now rewrite Sc.
Qed.
Print Assumptions C54_scalar_elements.
Example C54_scalar_example : exists els, value_text (b "[{""a"":1},null]") (JArr els) /\ decodable (JArr els) /\ In JNull els.
Proof.
  eexists. split; [apply value_of_document; [vm_compute; reflexivity|do 2 eexists; split; reflexivity|reflexivity]|].
  split; [apply names_decodable; reflexivity|right; now left].
Qed.

(** ** C55 *)
Theorem C55_error_keeps_keys_refuted : exists texts s text s', samples (new_sampler 3) texts s /\
  keys s = [b "a"] /\ sample s text = Sampled true s' /\ keys s' = [] /\ sample s' (b "{""a"":1}") = SamplePanic.
Proof.
  exists [b "{""a"":1}"]. eexists. exists (b "{""b"":}"). eexists.
  split; [eapply sm_more; [vm_compute; reflexivity|constructor]|]. repeat (split; [vm_compute; reflexivity|]). vm_compute. reflexivity.
Qed.
Print Assumptions C55_error_keeps_keys_refuted.

(** Only texts that do not look like an object or array from outside are refused without harm. *)
Theorem C55_outer_errors s c r : (c <> 123 /\ c <> 91) \/ (c = 123 /\ last (c :: r) 0 <> 125) \/ (c = 91 /\ last (c :: r) 0 <> 93) ->
  sample s (c :: r) = Sampled true s.
Proof.
  unfold sample, last_byte. intros [[A B]|[[-> A]|[-> A]]].
  - replace (c =? 123) with false by lia. now replace (c =? 91) with false by lia.
  - change (123 =? 123) with true. cbv iota. now replace (last (123 :: r) 0 =? 125) with false by lia.
  - change (91 =? 123) with false. change (91 =? 91) with true. cbv iota. now replace (last (91 :: r) 0 =? 93) with false by lia.
Qed.
Print Assumptions C55_outer_errors.
Example C55_example : sample (new_sampler 1) (b " {""a"":1}") = Sampled true (new_sampler 1).
Proof. apply C55_outer_errors. left. split; discriminate. Qed.

(** Any other failure loses everything. *)
Theorem C55_inner_errors n texts s text s' : samples (new_sampler n) texts s -> sample s text = Sampled true s' ->
  s' = s \/ (keys s' = [] /\ forall t, keys_at_threshold s' t = []).
Proof.
  intros H E. destruct (fresh n texts s H) as (kss & _ & ->).
  match type of E with sample ?s0 _ = _ => pose proof (sample_outcome s0 (put (concat kss) []) text eq_refl) as O end.
  destruct (outcome _ text); [congruence| |congruence|destruct O].
  destruct O as (s2 & E2 & _ & _ & K). rewrite E in E2. injection E2 as <-.
  destruct K as [K|K]; [now left|]. right. unfold keys, keys_at_threshold. rewrite K. now split.
Qed.
Print Assumptions C55_inner_errors.

(** ** C57: the counts are per scalar, not per document *)
Theorem C57_share_of_documents_refuted : exists t1 j1 t2 j2 s k, sampleable t1 j1 /\ sampleable t2 j2 /\
  samples (new_sampler 3) [t1; t2] s /\ (forall p, leads 3 j2 p -> shown p <> k) /\ In k (keys_at_threshold s 100).
Proof.
  exists (b "{""a"":[1,2]}"), (JObj [(b "a", JArr [JNum (b "1"); JNum (b "2")])]), (b "{}"), (JObj []). eexists. exists (b "a").
  split; [|split; [|split; [|split]]].
  - apply sampleable_by; vm_compute; reflexivity.
  - apply sampleable_by; vm_compute; reflexivity.
  - repeat (eapply sm_more; [vm_compute; reflexivity|]); constructor.
  - intros p L. apply scalars_leads in L. destruct L.
  - vm_compute. now left.
Qed.
Print Assumptions C57_share_of_documents_refuted.

(** ** C58 *)
Theorem C58_reset_refuted : exists s, sample (new_sampler 3) (b "{""b"":}") = Sampled true s /\
  sample (reset s) (b "{""a"":1}") = SamplePanic /\ exists s', sample (new_sampler 3) (b "{""a"":1}") = Sampled false s'.
Proof. eexists. split; [vm_compute; reflexivity|]. split; [vm_compute; reflexivity|]. eexists. vm_compute. reflexivity. Qed.
Print Assumptions C58_reset_refuted.

(** If no Sample failed, Reset gives exactly a new sampler. *)
Theorem C58_reset n texts s : samples (new_sampler n) texts s -> reset s = new_sampler n.
Proof. intros H. now destruct (fresh n texts s H) as (kss & _ & ->). Qed.
Print Assumptions C58_reset.
Example C58_example : exists s, samples (new_sampler 3) [doc1; doc2] s /\ keys s <> [] /\ reset s = new_sampler 3.
Proof.
  eexists. split; [repeat (eapply sm_more; [vm_compute; reflexivity|]); constructor|]. split; [vm_compute; discriminate|vm_compute; reflexivity].
Qed.
