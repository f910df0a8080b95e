(** C142: which texts Sample accepts, sampler/sampler.go:40-122. *)
From Verif Require Import Bytes GoStrconv GoFloat Json JsonSpec JsonProofs Values JsonParser JsonParserProofs
  MatchSpec MatchProofs Sampler SamplerSpec SamplerProofs Prop_Sampler.
From Coq Require Import ZifyBool ZifyN ZifyNat.

(** Valid documents with blanks around them are refused. *)
Theorem C142_blanks s text w1 w2 j : value_text text j -> ws w1 -> ws w2 -> w1 ++ w2 <> [] ->
  sample s (w1 ++ text ++ w2) = Sampled true s.
Proof.
  intros V W1 W2 Ne. destruct w1 as [|c w1].
  - cbn [app] in *. destruct (value_head text j V) as (c & r & -> & _). cbn [app]. apply C55_outer_errors.
    destruct (exists_last Ne) as (w & x & ->). apply Forall_app in W2 as [_ W2]. inversion W2 as [|? ? Hx _]; subst.
    assert (La : last (c :: r ++ w ++ [x]) 0 = x) by (rewrite app_assoc; exact (last_last (c :: r ++ w) x 0)).
    rewrite La. destruct (N.eq_dec c 123) as [->|N1]; [right; left|destruct (N.eq_dec c 91) as [->|N2]; [right; right|left; now split]];
      (split; [reflexivity|]); intros ->; destruct Hx as [H|[H|[H|H]]]; discriminate H.
  - cbn [app]. apply C55_outer_errors. left. inversion W1 as [|? ? Hc _]; subst. split; intros ->; destruct Hc as [H|[H|[H|H]]]; discriminate H.
Qed.
Print Assumptions C142_blanks.
Theorem C142_valid_refuted : exists text j, document text j /\ (exists ms, j = JObj ms) /\ sample (new_sampler 3) text = Sampled true (new_sampler 3).
Proof.
  exists (b "{""a"":1}" ++ [10]), (JObj [(b "a", JNum (b "1"))]). split; [apply parse_json_spec; vm_compute; reflexivity|]. split; [eauto|]. vm_compute. reflexivity.
Qed.
Print Assumptions C142_valid_refuted.

(** Of a text that begins with a document and ends with the same bracket, only the document is
    looked at. *)
Lemma collect_rest d f text j x ty : sampleable text j -> (length (text ++ x) < f)%nat ->
  (ty = TObject /\ (exists ms, j = JObj ms)) \/ (ty = TArray /\ (exists els, j = JArr els)) ->
  collect f (Z.of_nat d) [] 0 (text ++ x, ty) = collect f (Z.of_nat d) [] 0 (text, ty).
Proof.
  intros (V & Dec & Root) L T. assert (Lt : (length text < f)%nat) by (rewrite app_length in L; lia).
  assert (Ne : ~ In [] (scalars_below d j)).
  { intros H. apply scalars_leads in H. inversion H as [? ? [So Sa]| |? els e ? Ie Na He]; subst.
    - destruct Root as [(ms & ->)|(els & -> & _)]; [now destruct (So ms)|now destruct (Sa els)].
    - destruct Root as [(ms & ?)|(els' & [= <-] & Ns)]; [discriminate|]. apply (Ns e Ie).
      inversion He; subst; [assumption|]. now destruct (Na els0). }
  rewrite (collect_value (Z.of_nat d) f d [] 0 (text, ty) j); [| |exact Dec|exact Lt|lia|now right].
  2:{ destruct T as [[-> (ms & ->)]|[-> (els & ->)]]; now split. }
  destruct f as [|f]; [lia|]. cbn [collect snd fst]. replace (Z.of_nat d <? 0)%Z with false by lia.
  destruct T as [[-> (ms & ->)]|[-> (els & ->)]].
  - destruct (object_each_value [] text ms x (Forall_nil _) V) as (l & A & F). cbn [app] in A.
    pose proof (object_each_sizes (text ++ x)) as Sz. rewrite A in *. cbn [fst] in Sz.
    destruct (decoded_all ms) as (Ok0 & Src & Fm).
    { intros [raw w] I0. apply Dec. eapply hn_here; eauto. }
    rewrite Ok0. destruct d as [|d].
    + rewrite (gather_all shows_member _ (fun _ => []) _ _ F).
      * cbn [scalars_below map]. f_equal. clear. now induction (fst (decoded ms)).
      * intros y z Iy _ _. destruct f as [|f]; [apply Sz in Iy; lia|]. cbn [collect]. reflexivity.
    + rewrite (gather_all shows_member _ (fun m => map (fun p => tl (add_segment [] (fst m) ++ flat p)) (scalars_below d (snd m))) _ _ F).
      * f_equal. rewrite (Fm (fun n w => map (fun p => tl (add_segment [] n ++ flat p)) (scalars_below d w))).
        cbn [scalars_below]. rewrite map_flat_map. apply flat_map_ext'. intros [raw w] _. cbn [fst snd].
        destruct (unescape raw) as [n|]; [|reflexivity]. rewrite map_map. apply map_ext. intros p. now rewrite add_segment_flat.
      * intros y z Iy Iz [E Sx]. rewrite E. apply (collect_value _ f d _ _ (snd y) (snd z)); [exact Sx| |apply Sz in Iy; lia|lia|left; apply add_segment_nonempty].
        intros raw H. apply Dec. destruct (Src z Iz) as (rk & I0 & _). eapply hn_member; eauto.
  - destruct (array_each_value [] text els x (Forall_nil _) V) as (l & A & F). cbn [app] in A.
    pose proof (array_each_sizes (text ++ x)) as Sz. rewrite A in *. cbn [fst] in Sz.
    cbn [scalars_below]. rewrite map_flat_map.
    apply (gather_all shows _ _ _ _ F). intros y e Iy Ie Sx.
    assert (Dec' : decodable e) by (intros raw H; apply Dec; eapply hn_element; eauto).
    assert (Ne' : (forall l', e <> JArr l') -> ~ In [] (scalars_below d e)).
    { intros Na H. apply Ne. cbn [scalars_below]. apply in_flat_map. exists e. split; [exact Ie|]. destruct e; auto. now destruct (Na els0). }
    assert (Ly : (length (fst y) < f)%nat) by (apply Sz in Iy; lia).
    assert (G : (forall l', e <> JArr l') -> collect f (Z.of_nat d) [] 0 y = COk (map (fun p => tl ([] ++ flat p)) (scalars_below d e))).
    { intros Na. apply (collect_value (Z.of_nat d) f d [] 0 y e Sx Dec' Ly); [lia|right; exact (Ne' Na)]. }
    destruct e as [|z|z|z|z|z]; cbn [shows] in Sx.
    + rewrite <- G by discriminate. now rewrite Sx.
    + rewrite <- G by discriminate. now rewrite Sx.
    + rewrite <- G by discriminate. now destruct Sx as [-> _].
    + rewrite <- G by discriminate. now destruct Sx as [-> _].
    + now destruct Sx as [-> _].
    + rewrite <- G by discriminate. now destruct Sx as [-> _].
Qed.

Theorem C142_rest d texts s text j x : samples (new_sampler (Z.of_nat d)) texts s -> sampleable text j -> last (text ++ x) 0 = last text 0 ->
  exists s', sample s text = Sampled false s' /\ sample s (text ++ x) = Sampled false s'.
Proof.
  intros H Sa La. destruct (fresh (Z.of_nat d) texts s H) as (kss & F & ->).
  assert (E : outcome (Z.of_nat d) (text ++ x) = outcome (Z.of_nat d) text).
  { pose proof Sa as (V & Dec & Root). unfold outcome, last_byte. rewrite La. destruct (value_head text j V) as (c & r & Et & _).
    assert (En : forall ty, collect (S (length (text ++ x))) (Z.of_nat d) [] 0 (text, ty) = collect (S (length text)) (Z.of_nat d) [] 0 (text, ty))
      by (intros ty; apply collect_enough; cbn [fst]; rewrite ?app_length; lia).
    assert (Hc : forall ty k, c = k -> (ty = TObject /\ (exists ms, j = JObj ms)) \/ (ty = TArray /\ (exists els, j = JArr els)) ->
      collect (S (length (text ++ x))) (Z.of_nat d) [] 0 (text ++ x, ty) = collect (S (length text)) (Z.of_nat d) [] 0 (text, ty)).
    { intros ty k _ T. rewrite (collect_rest d (S (length (text ++ x))) text j x ty Sa ltac:(lia) T). apply En. }
    clear Sa En. subst text. cbn [app] in *.
    destruct Root as [(ms & ->)|(els & -> & Ns)].
    - assert (c = 123) by (inversion V; congruence). subst c. change (123 =? 123) with true. cbv iota.
      destruct (last (123 :: r) 0 =? 125); [|reflexivity]. apply (Hc TObject 123 eq_refl). left. eauto.
    - assert (c = 91) by (inversion V; congruence). subst c. change (91 =? 123) with false. change (91 =? 91) with true. cbv iota.
      destruct (last (91 :: r) 0 =? 93); [|reflexivity]. apply (Hc TArray 91 eq_refl). right. eauto. }
  rewrite (outcome_document d text j Sa) in E.
  match goal with |- exists s', sample ?s0 _ = _ /\ _ => pose proof (sample_outcome s0 (put (concat kss) []) text eq_refl) as O1;
    pose proof (sample_outcome s0 (put (concat kss) []) (text ++ x) eq_refl) as O2 end.
  cbn [sp_max] in O1, O2. rewrite (outcome_document d text j Sa) in O1. rewrite E in O2. eexists. split; [exact O1|exact O2].
Qed.
Print Assumptions C142_rest.
(** So two documents one after the other count as one, and the second is ignored; what is
    not JSON at all is accepted. *)
Theorem C142_invalid_refuted : exists text s, (forall j, ~ document text j) /\ sample (new_sampler 3) text = Sampled false s /\
  text = b "{""a"":1}{""b"":2}" /\ keys s = [b "a"] /\ scanned s = 1%Z.
Proof.
  exists (b "{""a"":1}{""b"":2}"). eexists. split; [|split; [vm_compute; reflexivity|split; [reflexivity|split; reflexivity]]].
  intros j D. apply parse_json_spec in D. vm_compute in D. discriminate D.
Qed.
Print Assumptions C142_invalid_refuted.
Theorem C142_syntax_refuted : forall text, In text [b "{""a"":1x}"; b "{""a"":01}"; b "{""a"":1,}"; b "{""a"":""\q""}"] ->
  (forall j, ~ document text j) /\ exists s, sample (new_sampler 3) text = Sampled false s /\ keys s = [b "a"].
Proof.
  intros text H. assert (P : parse_json text = None /\ exists s, sample (new_sampler 3) text = Sampled false s /\ keys s = [b "a"]).
  { destruct H as [<-|[<-|[<-|[<-|[]]]]]; (split; [vm_compute; reflexivity|]; eexists; split; [vm_compute; reflexivity|reflexivity]). }
  destruct P as [P Q]. split; [|exact Q]. intros j D. apply parse_json_spec in D. congruence.
Qed.
Print Assumptions C142_syntax_refuted.
Example C142_hypotheses : sampleable (b "{""a"":1}") (JObj [(b "a", JNum (b "1"))]) /\ last (b "{""a"":1}" ++ b "{""b"":2}") 0 = last (b "{""a"":1}") 0.
Proof. split; [apply sampleable_by; vm_compute; reflexivity|reflexivity]. Qed.
