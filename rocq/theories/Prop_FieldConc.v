(** C141: mark called by several goroutines at a time. *)
From Verif Require Import Bytes Json Values JsonParser FieldStats FieldStatsConc Prop_FieldStats Prop_FieldExamples.
From Coq Require Import ZifyBool ZifyN ZifyNat.

(** The calls, all still to be made; and all over. *)
Definition at_once (cs : list (list jvalue * bool)) : list (list micro) := map (fun c => call_micros (fst c) (snd c)) cs.
Definition over (ts : list (list micro)) : Prop := Forall (fun t => t = []) ts.

(** ** The model of one call at a time is this one, one call after the other *)
Lemma crun_trans s s1 s2 : crun s s1 -> crun s1 s2 -> crun s s2.
Proof. induction 1; intros; [assumption|]. econstructor; eauto. Qed.
Lemma crun_step fs ts1 m t ts2 fs' ms s : do_micro m fs = Ok (fs', ms) -> crun (fs', ts1 ++ (ms ++ t) :: ts2) s -> crun (fs, ts1 ++ (m :: t) :: ts2) s.
Proof. intros E R. eapply cr_more; [apply cs_go; exact E|exact R]. Qed.

Lemma set_set {A} i (x y : A) l : set_nth i x (set_nth i y l) = set_nth i x l.
Proof. revert i. induction l as [|z l IH]; intros [|i]; cbn; [reflexivity..|now rewrite IH]. Qed.
Lemma mark_value_micro a fs v fs' : mark_value a fs v = Ok fs' -> forall ts1 t ts2 s, crun (fs', ts1 ++ t :: ts2) s ->
  crun (fs, ts1 ++ (MSeen (which (snd v) a) :: MLoad (which (snd v) a) v :: t) :: ts2) s.
Proof.
  unfold mark_value. intros E ts1 t ts2 s R. destruct (nth_error (fs_types fs) (which (snd v) a)) as [e|] eqn:Ee; [|discriminate E].
  assert (Li : (which (snd v) a < length (fs_types fs))%nat) by (apply nth_error_Some; congruence).
  eapply crun_step; [cbn [do_micro]; rewrite Ee; reflexivity|]. cbn [app]. eapply crun_step; [reflexivity|]. cbn [fs_sampled].
  destruct ((which (snd v) a <? 6)%nat && (fs_sampled fs mod field_mark_window =? 0)).
  - cbn [en_examples en_seen en_matched] in E. destruct (en_examples e) as [el|] eqn:Ex; [|discriminate E]. injection E as <-. cbn [app].
    eapply (crun_step _ _ _ _ _ _ []); [|exact R]. cbn [do_micro fs_types fs_sampled]. rewrite nth_error_set by exact Li. rewrite Nat.eqb_refl. cbn [en_examples en_seen en_matched].
    cbn [bind]. now rewrite set_set.
  - injection E as <-. exact R.
Qed.
Lemma mark_values_micro a vs : forall fs fs', mark_values a fs vs = Ok fs' -> forall ts1 ts2 s, crun (fs', ts1 ++ [] :: ts2) s ->
  crun (fs, ts1 ++ flat_map (fun v => [MSeen (which (snd v) a); MLoad (which (snd v) a) v]) vs :: ts2) s.
Proof.
  induction vs as [|v vs IH]; intros fs fs' E ts1 ts2 s R; cbn [mark_values flat_map app] in *; [injection E as <-; exact R|].
  destruct (mark_value a fs v) as [fs1|] eqn:E1; [|discriminate E]. cbn [bind] in E. eapply mark_value_micro; [exact E1|]. eapply IH; eassumption.
Qed.
Lemma marked_micro fs cs fs' : marked fs cs fs' -> forall ts1 ts2 s, crun (fs', ts1 ++ repeat [] (length cs) ++ ts2) s -> crun (fs, ts1 ++ at_once cs ++ ts2) s.
Proof.
  induction 1 as [fs|fs vs a idx fs1 cs fs2 E M IH]; intros ts1 ts2 s R; [exact R|]. cbn [at_once map fst snd app length repeat] in *. fold (at_once cs).
  unfold call_micros. eapply crun_step; [reflexivity|]. cbn [app]. eapply mark_values_micro; [exact E|].
  change (ts1 ++ [] :: at_once cs ++ ts2) with (ts1 ++ [[]] ++ at_once cs ++ ts2). rewrite app_assoc. apply IH. now rewrite <- app_assoc.
Qed.
Theorem C141_one_by_one fs cs fs' : marked fs cs fs' -> crun (fs, at_once cs) (fs', repeat [] (length cs)).
Proof.
  intros M. pose proof (marked_micro fs cs fs' M [] [] (fs', repeat [] (length cs))) as H. cbn [app] in H. rewrite !app_nil_r in H. apply H, cr_done.
Qed.
Print Assumptions C141_one_by_one.

(** ** The counts *)
Definition is_inc (m : micro) : bool := match m with MInc => true | _ => false end.
Definition is_seen (i : nat) (m : micro) : bool := match m with MSeen j => Nat.eqb i j | _ => false end.
Definition left (p : micro -> bool) (ts : list (list micro)) : nat := length (filter p (concat ts)).
Definition seen_at (fs : field_stats) (i : nat) : N := match nth_error (fs_types fs) i with Some e => en_seen e | None => 0 end.
Definition micro_at (m : micro) : Prop := match m with MInc => True | MSeen i | MLoad i _ | MAdd i _ => (i < 12)%nat end.

Lemma left_split p ts1 t ts2 : left p (ts1 ++ t :: ts2) = (left p ts1 + length (filter p t) + left p ts2)%nat.
Proof. unfold left. rewrite concat_app. cbn [concat]. rewrite !filter_app, !app_length. lia. Qed.
Lemma left_over p ts : over ts -> left p ts = 0%nat.
Proof. induction 1 as [|t ts -> F IH]; [reflexivity|]. exact IH. Qed.

(** Either all the lists are there, or fewer than 1000 calls are made at all. *)
Record going (total : nat) (want : nat -> nat) (s : field_stats * list (list micro)) : Prop := {
  gg_types : length (fs_types (fst s)) = 12%nat;
  gg_micros : Forall (Forall micro_at) (snd s);
  gg_calls : fs_sampled (fst s) + N.of_nat (left is_inc (snd s)) = N.of_nat total;
  gg_seen : forall i, (i < 12)%nat -> seen_at (fst s) i + N.of_nat (left (is_seen i) (snd s)) = N.of_nat (want i);
  gg_started : Forall (fun t => match t with MInc :: t' => ~ In MInc t' | _ :: t' => ~ In MInc t' /\ fs_sampled (fst s) <> 0 | [] => True end) (snd s);
  gg_lists : Forall (fun e => en_examples e <> None) (fs_types (fst s)) \/
             (total < 1000)%nat /\ Forall (Forall (fun m => match m with MAdd _ _ => False | _ => True end)) (snd s)
}.

Lemma seen_at_set fs i j e : (i < length (fs_types fs))%nat ->
  seen_at {| fs_sampled := fs_sampled fs; fs_types := set_nth i e (fs_types fs) |} j = if Nat.eqb j i then en_seen e else seen_at fs j.
Proof. intros H. unfold seen_at. cbn [fs_types]. rewrite nth_error_set by exact H. now destruct (Nat.eqb j i). Qed.

Lemma going_step total want s s' : cstep s s' -> going total want s -> going total want s'.
Proof.
  intros [fs ts1 m t ts2 fs' ms E] G. destruct G as [G1 G2 G3 G4 G5 G6]. cbn [fst snd] in *.
  pose proof G2 as G2'. apply Forall_app in G2' as [G2a G2b]. inversion G2b as [|? ? G2c G2d]; subst. inversion G2c as [|? ? Hm G2t]; subst.
  pose proof G5 as G5'. apply Forall_app in G5' as [G5a G5b]. inversion G5b as [|? ? G5c G5d]; subst.
  rewrite left_split in G3. assert (G4' : forall i, (i < 12)%nat -> seen_at fs i + N.of_nat (left (is_seen i) ts1 + length (filter (is_seen i) (m :: t)) + left (is_seen i) ts2) = N.of_nat (want i)) by (intros i Hi; rewrite <- left_split; now apply G4).
  assert (Keep : forall f, fs_sampled f <> 0 -> forall l : list (list micro), Forall (fun t => match t with MInc :: t' => ~ In MInc t' | _ :: t' => ~ In MInc t' /\ fs_sampled fs <> 0 | [] => True end) l ->
    Forall (fun t => match t with MInc :: t' => ~ In MInc t' | _ :: t' => ~ In MInc t' /\ fs_sampled f <> 0 | [] => True end) l).
  { intros f Hf l. apply Forall_impl. intros [|[] t']; tauto. }
  assert (Tail : forall f, fs_sampled f <> 0 -> ~ In MInc t -> match t with MInc :: t' => ~ In MInc t' | _ :: t' => ~ In MInc t' /\ fs_sampled f <> 0 | [] => True end).
  { intros f Hf Ht. destruct t as [|[] t']; cbn in Ht; tauto. }
  destruct m as [|i|i v|i v]; cbn [do_micro] in E.
  - injection E as <- <-. cbn [app filter is_inc is_seen length] in *. split; cbn [fst snd fs_types fs_sampled].
    + exact G1.
    + apply Forall_app; split; [exact G2a|]. now constructor.
    + rewrite left_split. lia.
    + intros i Hi. rewrite left_split. exact (G4' i Hi).
    + apply Forall_app; split; [|constructor]; [apply (Keep {| fs_sampled := fs_sampled fs + 1; fs_types := fs_types fs |})|apply (Tail {| fs_sampled := fs_sampled fs + 1; fs_types := fs_types fs |})|apply (Keep {| fs_sampled := fs_sampled fs + 1; fs_types := fs_types fs |})]; cbn [fs_sampled]; try lia; assumption.
    + destruct G6 as [G6|[Lt G6]]; [left; exact G6|right]. split; [exact Lt|]. apply Forall_app in G6 as [A B0]. inversion B0 as [|? ? B1 B2]; subst. inversion B1; subst. apply Forall_app; split; [exact A|now constructor].
  - destruct (nth_error (fs_types fs) i) as [e|] eqn:Ee; [|discriminate E]. injection E as <- <-. cbn in Hm. cbn [app filter is_inc length] in *. destruct G5c as [Ni Ns].
    assert (Se : seen_at fs i = en_seen e) by (unfold seen_at; now rewrite Ee). split; cbn [fst snd fs_types fs_sampled].
    + now rewrite set_nth_length.
    + apply Forall_app; split; [exact G2a|]. now constructor.
    + rewrite left_split. exact G3.
    + intros j Hj. rewrite left_split, seen_at_set by lia. specialize (G4' j Hj). cbn [is_seen] in G4'. destruct (Nat.eqb_spec j i) as [Ej|Nj]; [rewrite Ej in *|]; cbn [length en_seen] in *; lia.
    + apply Forall_app; split; [exact G5a|]. constructor; [now apply Tail|exact G5d].
    + destruct G6 as [G6|[Lt G6]]; [left; apply Forall_set; [|exact G6]; cbn [en_examples]; apply nth_error_In in Ee; rewrite Forall_forall in G6; now apply G6|right].
      split; [exact Lt|]. apply Forall_app in G6 as [A B0]. inversion B0 as [|? ? B1 B2]; subst. inversion B1; subst. apply Forall_app; split; [exact A|now constructor].
  - injection E as <- <-. cbn in Hm. cbn [filter is_inc is_seen length] in *. destruct G5c as [Ni Ns].
    set (ms := if (i <? 6)%nat && (fs_sampled fs mod field_mark_window =? 0) then [MAdd i v] else []).
    assert (Ms : filter is_inc ms = [] /\ (forall j, filter (is_seen j) ms = []) /\ Forall micro_at ms /\ ~ In MInc ms).
    { unfold ms. destruct ((i <? 6)%nat && _); cbn; (split; [reflexivity|]; split; [reflexivity|]; split; [first [solve [constructor]|constructor; [exact Hm|constructor]]|]); [intros [X|[]]; discriminate|intros []]. }
    destruct Ms as (M1 & M2 & M3 & M4). split; cbn [fst snd].
    + exact G1.
    + apply Forall_app; split; [exact G2a|]. constructor; [apply Forall_app; now split|exact G2d].
    + rewrite left_split, filter_app, M1. exact G3.
    + intros j Hj. rewrite left_split, filter_app, M2. exact (G4' j Hj).
    + apply Forall_app; split; [exact G5a|]. constructor; [|exact G5d]. unfold ms. destruct ((i <? 6)%nat && _); [cbn [app]; now split|now apply Tail].
    + destruct G6 as [G6|[Lt G6]]; [left; exact G6|right]. split; [exact Lt|]. apply Forall_app in G6 as [A B0]. inversion B0 as [|? ? B1 B2]; subst. inversion B1; subst.
      apply Forall_app; split; [exact A|]. constructor; [|exact B2]. apply Forall_app. split; [|assumption]. unfold ms, field_mark_window.
      rewrite N.mod_small by lia. replace (fs_sampled fs =? 0) with false by lia. rewrite andb_false_r. constructor.
  - destruct (nth_error (fs_types fs) i) as [e|] eqn:Ee; [|discriminate E]. destruct (en_examples e) as [el|] eqn:Ex; [|discriminate E]. injection E as <- <-.
    cbn in Hm. cbn [app filter is_inc is_seen length] in *. destruct G5c as [Ni Ns].
    assert (Se : seen_at fs i = en_seen e) by (unfold seen_at; now rewrite Ee). split; cbn [fst snd fs_types fs_sampled].
    + now rewrite set_nth_length.
    + apply Forall_app; split; [exact G2a|]. now constructor.
    + rewrite left_split. exact G3.
    + intros j Hj. rewrite left_split, seen_at_set by lia. specialize (G4' j Hj). destruct (Nat.eqb_spec j i) as [Ej|Nj]; [rewrite Ej in *|]; cbn [en_seen] in *; lia.
    + apply Forall_app; split; [exact G5a|]. constructor; [now apply Tail|exact G5d].
    + destruct G6 as [G6|[Lt G6]]; [left; apply Forall_set; [discriminate|exact G6]|]. apply Forall_app in G6 as [A B0]. inversion B0 as [|? ? B1 B2]; subst. inversion B1 as [|? ? Fa _]; subst. exact (match Fa with end).
Qed.
Lemma going_run total want s s' : crun s s' -> going total want s -> going total want s'.
Proof. induction 1; eauto using going_step. Qed.
Lemma going_safe total want s : going total want s -> ~ panics_next s.
Proof.
  intros [G1 G2 G3 G4 G5 G6] (m & t & H & E). rewrite Forall_forall in G2. pose proof (G2 _ H) as F. inversion F as [|? ? Hm _]; subst.
  destruct m as [|i|i v|i v]; cbn [do_micro micro_at] in *; try discriminate E.
  - destruct (nth_error (fs_types (fst s)) i) eqn:Ee; [discriminate E|]. apply nth_error_None in Ee. lia.
  - destruct (nth_error (fs_types (fst s)) i) as [e|] eqn:Ee; [|apply nth_error_None in Ee; lia]. destruct (en_examples e) eqn:Ex; [discriminate E|].
    destruct G6 as [G6|[_ G6]]; rewrite Forall_forall in G6.
    + apply nth_error_In in Ee. now apply G6 in Ee.
    + pose proof (G6 _ H) as X. inversion X as [|? ? Fa _]; subst. exact (match Fa with end).
Qed.

Lemma call_seen t a vs a' : length (filter (is_seen (which t a)) (call_micros vs a')) = if Bool.eqb a' a then count_occ vtype_dec (map snd vs) t else 0%nat.
Proof.
  unfold call_micros. cbn [filter is_seen]. induction vs as [|v vs IH]; [now destruct (Bool.eqb a' a)|]. cbn [flat_map app filter is_seen map count_occ].
  destruct (Nat.eqb_spec (which t a) (which (snd v) a')) as [W|W].
  - apply which_inj in W as [-> ->]. cbn [length]. rewrite IH. rewrite Bool.eqb_reflx. now destruct (vtype_dec (snd v) (snd v)).
  - rewrite IH. destruct (Bool.eqb a' a) eqn:Ea; [|reflexivity]. apply Bool.eqb_prop in Ea as ->. destruct (vtype_dec (snd v) t) as [<-|]; [congruence|reflexivity].
Qed.
Lemma left_at_once t a cs : left (is_seen (which t a)) (at_once cs) = occurrences t a cs.
Proof.
  induction cs as [|[vs a'] cs IH]; [reflexivity|]. cbn [at_once map fst snd]. fold (at_once cs).
  change (call_micros vs a' :: at_once cs) with ([] ++ call_micros vs a' :: at_once cs). rewrite left_split, call_seen, IH. reflexivity.
Qed.
Lemma which_onto i : (i < 12)%nat -> exists t a, i = which t a.
Proof.
  intros H. do 12 (destruct i as [|i]; [first [now exists TString, false|now exists TString, true|now exists TNumber, false|now exists TNumber, true|now exists TObject, false|now exists TObject, true
    |now exists TBoolean, false|now exists TBoolean, true|now exists TArray, false|now exists TArray, true|now exists TNull, false|now exists TNull, true]|]). lia.
Qed.
Lemma going_start fs cs : fs_sampled fs = 0 -> length (fs_types fs) = 12%nat -> (forall i, seen_at fs i = 0) ->
  Forall (fun e => en_examples e <> None) (fs_types fs) \/ (length cs < 1000)%nat ->
  going (length cs) (fun i => left (is_seen i) (at_once cs)) (fs, at_once cs).
Proof.
  intros S0 L Se Ls. split; cbn [fst snd].
  - exact L.
  - apply Forall_forall. intros t H. apply in_map_iff in H as ([vs a] & <- & _). constructor; [exact I|]. apply Forall_forall. intros m H. apply in_flat_map in H as (v & _ & [<-|[<-|[]]]); apply which_lt.
  - rewrite S0. clear. induction cs as [|[vs a] cs IH]; [reflexivity|]. cbn [at_once map fst snd]. fold (at_once cs).
    change (call_micros vs a :: at_once cs) with ([] ++ call_micros vs a :: at_once cs). rewrite left_split. unfold call_micros. cbn [filter is_inc].
    assert (E : filter is_inc (flat_map (fun v => [MSeen (which (snd v) a); MLoad (which (snd v) a) v]) vs) = []) by (clear; induction vs; [reflexivity|assumption]).
    rewrite E. cbn [length] in *. change (left is_inc []) with 0%nat. lia.
  - intros i _. rewrite Se. reflexivity.
  - apply Forall_forall. intros t H. apply in_map_iff in H as ([vs a] & <- & _). cbn. intros H. apply in_flat_map in H as (v & _ & [H|[H|[]]]); discriminate.
  - destruct Ls as [Ls|Ls]; [left; exact Ls|right]. split; [exact Ls|]. apply Forall_forall. intros t H. apply in_map_iff in H as ([vs a] & <- & _).
    constructor; [exact I|]. apply Forall_forall. intros m H. apply in_flat_map in H as (v & _ & [<-|[<-|[]]]); exact I.
Qed.

(** With the example lists there, or with fewer than 1000 calls: in whatever order the calls go on,
    none panics, and when all are over the counts are those of the calls. *)
Theorem C141_counts fs0 cs fs ts : fs0 = with_lists \/ (fs0 = new_field_stats /\ (length cs < 1000)%nat) -> crun (fs0, at_once cs) (fs, ts) ->
  ~ panics_next (fs, ts) /\
  (over ts -> fs_sampled fs = N.of_nat (length cs) /\ forall t a, seen fs t a = N.of_nat (occurrences t a cs)).
Proof.
  intros H R. assert (G : going (length cs) (fun i => left (is_seen i) (at_once cs)) (fs, ts)).
  { eapply going_run; [exact R|]. destruct H as [->|[-> Lt]]; apply going_start; try reflexivity.
    - intros i. do 12 (destruct i as [|i]; [reflexivity|]). unfold seen_at. now destruct i.
    - left. repeat constructor; discriminate.
    - intros i. do 12 (destruct i as [|i]; [reflexivity|]). unfold seen_at. now destruct i.
    - right. exact Lt. }
  split; [exact (going_safe _ _ _ G)|]. intros O. destruct G as [G1 G2 G3 G4 G5 G6]. cbn [fst snd] in *. split.
  - rewrite (left_over is_inc ts O) in G3. lia.
  - intros t a. specialize (G4 (which t a) (which_lt t a)). rewrite (left_over _ ts O), left_at_once in G4. unfold seen_at in G4. unfold seen. lia.
Qed.
Print Assumptions C141_counts.

(** ** The examples *)
(** Two calls are over only after the counter was raised past 1000: none of the 1001 calls, each with a
    number, leaves an example. *)
Definition one_number : list jvalue * bool := ([(b "7", TNumber)], false).
Definition numbers_seen (n : N) : field_stats :=
  {| fs_sampled := n; fs_types := set_nth 2 {| en_seen := n; en_matched := 0; en_examples := Some empty_examples |} (fs_types with_lists) |}.
Lemma run_numbers n : (n < 1000)%nat -> marked with_lists (repeat one_number n) (numbers_seen (N.of_nat n)).
Proof.
  intros H. assert (G : forall n k, (n + k < 1000)%nat -> marked (numbers_seen (N.of_nat k)) (repeat one_number n) (numbers_seen (N.of_nat (n + k)))).
  { clear. induction n as [|n IH]; intros k H; [constructor|]. cbn [repeat]. eapply (mk_more _ _ _ 0%Z).
    - unfold mark, numbers_seen. cbn [mark_values mark_value snd which type_index nth_error fs_types set_nth with_lists repeat]. cbn [fs_sampled en_seen en_matched en_examples].
      unfold mark_value. cbn [snd which type_index nth_error fs_types Nat.add fs_sampled].
      replace ((N.of_nat k + 1) mod field_mark_window =? 0) with false by (unfold field_mark_window; rewrite N.mod_small by lia; lia).
      rewrite andb_false_r. cbn [bind set_nth en_seen en_matched en_examples]. reflexivity.
    - replace (S n + k)%nat with (n + S k)%nat by lia. specialize (IH (S k) ltac:(lia)). unfold numbers_seen, with_lists in IH. cbn [fs_types repeat set_nth] in IH.
      replace (N.of_nat k + 1) with (N.of_nat (S k)) by lia. exact IH. }
  specialize (G n 0%nat ltac:(lia)). rewrite Nat.add_0_r in G. exact G.
Qed.
Theorem C141_missed_refuted : exists cs fs ts, length cs = 1001%nat /\ Forall (fun c => c = one_number) cs /\
  crun (with_lists, at_once cs) (fs, ts) /\ over ts /\ list_at fs TNumber false = Some empty_examples.
Proof.
  exists (repeat one_number 999 ++ [one_number; one_number]), (numbers_seen 1001), (repeat [] 999 ++ [[]; []]).
  split; [rewrite app_length, repeat_length; reflexivity|].
  split; [apply Forall_app; split; [apply Forall_forall; intros c H; now apply repeat_spec in H|repeat constructor]|].
  split; [|split; [apply Forall_app; split; [apply Forall_forall; intros c H; now apply repeat_spec in H|repeat constructor]|reflexivity]].
  unfold at_once. rewrite map_app. fold (at_once (repeat one_number 999)). eapply (marked_micro _ _ _ (run_numbers 999 ltac:(lia)) []). cbn [app].
  rewrite repeat_length. generalize (repeat ([] : list micro) 999). intros r.
  cbn [map]. unfold one_number, call_micros. cbn [fst snd flat_map app which type_index].
  (* both raise the counter first *)
  eapply crun_step; [reflexivity|]. change (r ++ ?x :: ?l) with (r ++ [x] ++ l). rewrite app_assoc.
  eapply crun_step; [reflexivity|]. cbn [app]. eapply crun_step; [reflexivity|]. cbn [app]. eapply crun_step; [reflexivity|]. cbn [app].
  rewrite <- app_assoc. cbn [app]. eapply crun_step; [reflexivity|]. cbn [app]. eapply crun_step; [reflexivity|]. apply cr_done.
Qed.
Print Assumptions C141_missed_refuted.
(** And of 1000 calls two may leave an example. *)
Theorem C141_twice_refuted : exists cs fs ts el, length cs = 1000%nat /\ Forall (fun c => c = one_number) cs /\
  crun (with_lists, at_once cs) (fs, ts) /\ over ts /\ list_at fs TNumber false = Some el /\
  el = add_all [b "7"; b "7"] empty_examples.
Proof.
  exists (repeat one_number 998 ++ [one_number; one_number]).
  exists {| fs_sampled := 1000; fs_types := set_nth 2 {| en_seen := 1000; en_matched := 0; en_examples := Some (add_all [b "7"; b "7"] empty_examples) |} (fs_types with_lists) |}.
  exists (repeat [] 998 ++ [[]; []]), (add_all [b "7"; b "7"] empty_examples).
  split; [rewrite app_length, repeat_length; reflexivity|].
  split; [apply Forall_app; split; [apply Forall_forall; intros c H; now apply repeat_spec in H|repeat constructor]|].
  split; [|split; [apply Forall_app; split; [apply Forall_forall; intros c H; now apply repeat_spec in H|repeat constructor]|split; reflexivity]].
  unfold at_once. rewrite map_app. fold (at_once (repeat one_number 998)). eapply (marked_micro _ _ _ (run_numbers 998 ltac:(lia)) []). cbn [app].
  rewrite repeat_length. generalize (repeat ([] : list micro) 998). intros r.
  cbn [map]. unfold one_number, call_micros. cbn [fst snd flat_map app which type_index].
  eapply crun_step; [reflexivity|]. change (r ++ ?x :: ?l) with (r ++ [x] ++ l). rewrite app_assoc.
  eapply crun_step; [reflexivity|]. cbn [app]. eapply crun_step; [reflexivity|]. cbn [app]. eapply crun_step; [reflexivity|]. cbn [app].
  eapply crun_step; [reflexivity|]. cbn [app].
  rewrite <- app_assoc. cbn [app]. eapply crun_step; [reflexivity|]. cbn [app]. eapply crun_step; [reflexivity|]. cbn [app]. eapply crun_step; [reflexivity|]. apply cr_done.
Qed.
Print Assumptions C141_twice_refuted.
(** Two calls of one number each that overlap, all over. *)
Example C141_example : crun (new_field_stats, at_once [one_number; one_number])
  ({| fs_sampled := 2; fs_types := set_nth 2 {| en_seen := 2; en_matched := 0; en_examples := None |} (fs_types new_field_stats) |}, [[]; []]).
Proof.
  cbn [at_once map]. unfold one_number, call_micros. cbn [fst snd flat_map app which type_index].
  apply (crun_step _ []) with (1 := eq_refl). cbn [app].
  match goal with |- crun (?f, [?x; ?y]) _ => change [x; y] with ([x] ++ [y]) end. eapply crun_step; [reflexivity|]. cbn [app].
  do 2 (eapply (crun_step _ []); [reflexivity|]; cbn [app]).
  match goal with |- crun (?f, [?x; ?y]) _ => change [x; y] with ([x] ++ [y]) end. eapply crun_step; [reflexivity|]. cbn [app].
  match goal with |- crun (?f, [?x; ?y]) _ => change [x; y] with ([x] ++ [y]) end. eapply crun_step; [reflexivity|]. cbn [app]. apply cr_done.
Qed.
