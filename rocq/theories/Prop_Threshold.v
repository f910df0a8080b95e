(** C56, C83: the threshold of the key sampler. *)
From Verif Require Import Bytes GoFloat Json JsonProofs Values MatchSpec Sampler SamplerSpec SamplerProofs Prop_Sampler ThresholdProofs.
From Coq Require Import ZifyBool ZifyN ZifyNat.

Lemma filter_keys m g k : wf m -> In k (map fst (filter (fun e => g (snd e)) m)) <-> g (mcount k m) = true /\ 0 < mcount k m.
Proof.
  intros Wm. rewrite in_map_iff. split.
  - intros ([k0 c] & <- & I). apply filter_In in I as [I G]. cbn [fst snd] in *. apply (mcount_in _ _ m Wm) in I as [-> Pc]. auto.
  - intros [G Pc]. exists (k, mcount k m). split; [reflexivity|]. apply filter_In. split; [|exact G].
    apply (mcount_in _ _ m Wm). auto.
Qed.

(** The keys at a threshold, before looking at the floating point comparison. *)
Lemma keys_compared n texts s t k : samples (new_sampler n) texts s ->
  In k (keys_at_threshold s t) <-> at_threshold (scanned s) t (count_of k s) = true /\ In k (keys s).
Proof.
  intros H. destruct (fresh n texts s H) as (kss & _ & ->).
  pose proof (put_wf (concat kss) [] wf_nil) as W. unfold keys_at_threshold, keys, count_of, scanned. cbn [sp_keys sp_docs].
  rewrite (in_count _ _ W). exact (filter_keys _ (at_threshold (Z.of_nat (length texts)) t) k W).
Qed.

Lemma keys_documents n texts s k : samples (new_sampler n) texts s -> In k (keys s) -> (0 < scanned s)%Z.
Proof.
  intros H I. destruct (fresh n texts s H) as (kss & F & ->). unfold keys in I. cbn [sp_keys scanned sp_docs] in *.
  destruct F; [destruct I|]. cbn. lia.
Qed.

(** ** C56 *)
Theorem C56_exact n texts s t k : samples (new_sampler n) texts s ->
  (scanned s <= 2 ^ 53)%Z -> (Z.abs t <= 2 ^ 53)%Z -> (Z.of_N (count_of k s) <= 2 ^ 53)%Z -> (t * scanned s < 2 ^ 52)%Z ->
  In k (keys_at_threshold s t) <-> In k (keys s) /\ (t * scanned s <= 100 * Z.of_N (count_of k s))%Z.
Proof.
  intros H Hs Ht Hc P. rewrite (keys_compared n texts s t k H). split.
  - intros [A I]. split; [exact I|]. apply (threshold_exact (scanned s)) in A; auto. pose proof (keys_documents _ _ _ _ H I). lia.
  - intros [I L]. split; [|exact I]. apply (threshold_exact (scanned s)); auto. pose proof (keys_documents _ _ _ _ H I). lia.
Qed.
Print Assumptions C56_exact.

(** In particular for percentages and fewer than 2^45 documents. *)
Theorem C56_percent n texts s t k : samples (new_sampler n) texts s ->
  (- 100 <= t <= 100)%Z -> (scanned s < 2 ^ 45)%Z -> (Z.of_N (count_of k s) <= 2 ^ 53)%Z ->
  In k (keys_at_threshold s t) <-> In k (keys s) /\ (t * scanned s <= 100 * Z.of_N (count_of k s))%Z.
Proof.
  intros H Ht Hs Hc. apply (C56_exact n texts); auto; try lia.
  assert (0 <= scanned s)%Z by (destruct (fresh n texts s H) as (kss & _ & ->); cbn; lia). nia.
Qed.
Print Assumptions C56_percent.

(** A higher threshold never gives more keys; a threshold of zero gives all. *)
Theorem C56_antitone n texts s t1 t2 k : samples (new_sampler n) texts s -> (t1 <= t2)%Z ->
  (- 100 <= t1)%Z -> (t2 <= 100)%Z -> (scanned s < 2 ^ 45)%Z -> (Z.of_N (count_of k s) <= 2 ^ 53)%Z ->
  In k (keys_at_threshold s t2) -> In k (keys_at_threshold s t1).
Proof.
  intros H Le A B D C. rewrite !(C56_percent n texts s _ k H) by lia.
  assert (0 <= scanned s)%Z by (destruct (fresh n texts s H) as (kss & _ & ->); cbn; lia). intros [I L]. split; [exact I|nia].
Qed.
Print Assumptions C56_antitone.
Theorem C56_all n texts s t k : samples (new_sampler n) texts s -> (- 100 <= t <= 0)%Z ->
  (scanned s < 2 ^ 45)%Z -> (Z.of_N (count_of k s) <= 2 ^ 53)%Z -> In k (keys_at_threshold s t) <-> In k (keys s).
Proof.
  intros H A D C. rewrite (C56_percent n texts s _ k H) by lia.
  assert (0 <= scanned s)%Z by (destruct (fresh n texts s H) as (kss & _ & ->); cbn; lia). split; [tauto|]. intros I. split; [exact I|nia].
Qed.
Print Assumptions C56_all.

(** Exactly on and just below the threshold: 29 percent of 100 documents. *)
Definition hundred : list bytes := repeat (b "{""a"":1,""b"":2}") 28 ++ [b "{""a"":1}"] ++ repeat (b "{}") 71.
Fixpoint sample_all (s : sampler) (l : list bytes) : option sampler :=
  match l with
  | [] => Some s
  | t :: l' => match sample s t with Sampled false s' => sample_all s' l' | _ => None end
  end.
Lemma sample_all_samples l s s' : sample_all s l = Some s' -> samples s l s'.
Proof.
  revert s. induction l as [|t l IH]; cbn; intros s H; [injection H as ->; constructor|].
  destruct (sample s t) as [[] s1| |] eqn:E; try discriminate. eapply sm_more; eauto.
Qed.
Example C56_example : exists s, samples (new_sampler 3) hundred s /\ keys_at_threshold s 29 = [b "a"] /\
  keys_at_threshold s 28 = [b "a"; b "b"] /\ keys_at_threshold s 30 = [].
Proof. eexists. split; [apply sample_all_samples; vm_compute; reflexivity|]. repeat split; vm_compute; reflexivity. Qed.

(** Without a bound on the number of documents the comparison is not exact: 99 percent of
    196632179097999 documents is more than 194665857307019. *)
Theorem C56_bound_refuted : exists docs t count, (t * docs > 100 * Z.of_N count)%Z /\ at_threshold docs t count = true.
Proof. exists 196632179097999%Z, 99%Z, 194665857307019. split; vm_compute; reflexivity. Qed.
Print Assumptions C56_bound_refuted.

(** ** C83: when no document has two scalars for one path, the threshold is a share of the documents *)
Definition occurs (d : nat) (k : bytes) (j : json) : Prop := exists p, leads d j p /\ shown p = k.
Definition once (d : nat) (j : json) : Prop := NoDup (map shown (scalars_below d j)).

Inductive number_of {A} (P : A -> Prop) : list A -> nat -> Prop :=
| no_nil : number_of P [] 0
| no_yes x l n : P x -> number_of P l n -> number_of P (x :: l) (S n)
| no_no x l n : ~ P x -> number_of P l n -> number_of P (x :: l) n.

Theorem C83_share d texts js s t k n : Forall2 sampleable texts js -> Forall (once d) js ->
  samples (new_sampler (Z.of_nat d)) texts s -> (- 100 <= t <= 100)%Z -> (Z.of_nat (length texts) < 2 ^ 45)%Z ->
  number_of (occurs d k) js n -> (0 < n)%nat ->
  In k (keys_at_threshold s t) <-> (t * Z.of_nat (length js) <= 100 * Z.of_nat n)%Z.
Proof.
  intros F O H Ht Hl Nn Pn.
  assert (Ln : length texts = length js) by (clear -F; induction F; cbn; auto).
  assert (Sc : scanned s = Z.of_nat (length js)) by (rewrite (history d texts js s F H); cbn; now rewrite Ln).
  assert (Cn : count_of k s = N.of_nat n /\ (n <= length js)%nat).
  { rewrite (C51_counts d texts js s k F H). clear -O Nn. induction Nn as [|j l n Hj _ IH|j l n Hj _ IH]; [now split| |];
      inversion O as [|? ? Oj Ol]; subst; destruct (IH Ol) as [E L]; cbn [flat_map length]; rewrite count_occ_app.
    - assert (count_occ bytes_dec (map shown (scalars_below d j)) k = 1%nat) as ->; [|lia].
      apply (proj1 (NoDup_count_occ' bytes_dec _) Oj). destruct Hj as (p & Lp & <-). apply in_map. now apply scalars_leads.
    - assert (count_occ bytes_dec (map shown (scalars_below d j)) k = 0%nat) as ->; [|lia].
      apply count_occ_not_In. intros I. apply Hj. apply in_map_iff in I as (p & E' & Ip). exists p. split; [now apply scalars_leads|exact E']. }
  destruct Cn as [Cn Le].
  rewrite (C56_percent (Z.of_nat d) texts s t k H) by lia. rewrite Sc, Cn.
  assert (In k (keys s)); [|rewrite nat_N_Z; tauto].
  apply (proj2 (C51_keys d texts js s F H)). clear -Nn Pn. induction Nn as [|j l n (p & Lp & E) _ _|j l n _ _ IH]; [lia| |].
  - exists j, p. repeat split; [now left|exact Lp|now symmetry].
  - destruct (IH Pn) as (j' & p & I & L & E). exists j', p. repeat split; [now right|exact L|exact E].
Qed.
Print Assumptions C83_share.
Example C83_example : let j := tree (b "{""a"":[{""x"":1},{""y"":2}],""b"":null}") in
  sampleable (b "{""a"":[{""x"":1},{""y"":2}],""b"":null}") j /\ once 2 j /\ occurs 2 (b "a.y") j.
Proof.
  split; [apply sampleable_by; vm_compute; reflexivity|]. split.
  - unfold once. repeat constructor; vm_compute; intuition discriminate.
  - exists [b "a"; b "y"]. split; [apply scalars_leads; vm_compute; auto|reflexivity].
Qed.
