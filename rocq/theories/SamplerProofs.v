(** The sampler: what it collects does not depend on its state; on documents it collects the
    scalars. *)
From Verif Require Import Bytes GoStrconv GoFloat Json JsonSpec JsonProofs Values JsonParser JsonParserProofs
  MatchSpec MatchProofs Sampler SamplerSpec.
From Coq Require Import ZifyBool ZifyN ZifyNat Permutation.

(** ** Lengths and progress of the scanners, on arbitrary bytes *)
Lemma skip_ws_length s : (length (skip_ws s) <= length s)%nat.
Proof. destruct (skip_ws_split s) as (w & E & _). rewrite E at 2. rewrite app_length. lia. Qed.

Lemma next_token_length s t : next_token s = Some t -> (length t <= length s)%nat /\ t <> [].
Proof.
  unfold next_token. pose proof (skip_ws_length s). destruct (skip_ws s); [discriminate|].
  intros [= <-]. split; [lia|discriminate].
Qed.

Lemma string_end_length s : forall o e k e' t, string_end o e s = Some (k, e', t) -> length s = S (length k + length t).
Proof.
  induction s as [|c s IH]; intros o e k e' t; cbn; [discriminate|].
  destruct (c =? 34).
  - destruct o; [|intros [= <- <- <-]; reflexivity].
    destruct (string_end false e s) as [[[k1 e1] t1]|] eqn:E; [|discriminate]. intros [= <- <- <-].
    apply IH in E. cbn. lia.
  - destruct (c =? 92).
    + destruct (string_end (negb o) true s) as [[[k1 e1] t1]|] eqn:E; [|discriminate]. intros [= <- <- <-].
      apply IH in E. cbn. lia.
    + destruct (string_end false e s) as [[[k1 e1] t1]|] eqn:E; [|discriminate]. intros [= <- <- <-].
      apply IH in E. cbn. lia.
Qed.

Lemma block_end_length op cl s : forall l st k t, block_end op cl l st s = Some (k, t) ->
  length s = (length k + length t)%nat /\ k <> [].
Proof.
  induction s as [|c s IH]; intros l st k t; cbn; [discriminate|].
  assert (M : forall l' st', match block_end op cl l' st' s with Some (k0, t0) => Some (c :: k0, t0) | None => None end = Some (k, t) ->
    S (length s) = (length k + length t)%nat /\ k <> []).
  { intros l' st'. destruct (block_end op cl l' st' s) as [[k1 t1]|] eqn:E; [|discriminate]. intros [= <- <-].
    apply IH in E as [E _]. split; [cbn; lia|discriminate]. }
  destruct st as [o|].
  - destruct (c =? 34); apply M.
  - destruct (c =? 34); [apply M|]. destruct (c =? op); [apply M|]. destruct (c =? cl); [|apply M].
    destruct l as [|[|l]]; [discriminate| |apply M]. intros [= <- <-]. split; [reflexivity|discriminate].
Qed.

Lemma token_end_length s v t : token_end s = (v, t) -> length s = (length v + length t)%nat.
Proof.
  revert v t. induction s as [|c s IH]; intros v t; cbn; [now intros [= <- <-]|].
  destruct (is_ws c || (c =? 44) || (c =? 125) || (c =? 93)); [now intros [= <- <-]|].
  destruct (token_end s) as [a u]. intros [= <- <-]. cbn. f_equal. now apply IH.
Qed.

Lemma get_type_length s v ty t : get_type s = Some (v, ty, t) ->
  (length v + length t <= length s)%nat /\ (length t < length s)%nat.
Proof.
  destruct s as [|c r]; [discriminate|]. unfold get_type.
  destruct (c =? 34) eqn:Q.
  { destruct (string_end false false r) as [[[k e] u]|] eqn:E; [|discriminate]. intros [= <- <- <-].
    apply string_end_length in E. cbn. lia. }
  destruct (c =? 91) eqn:Q1.
  { destruct (block_end 91 93 0 None (c :: r)) as [[k u]|] eqn:E; [|discriminate]. intros [= <- <- <-].
    apply block_end_length in E as [E Nk]. destruct k; [congruence|]. cbn in *. lia. }
  destruct (c =? 123) eqn:Q2.
  { destruct (block_end 123 125 0 None (c :: r)) as [[k u]|] eqn:E; [|discriminate]. intros [= <- <- <-].
    apply block_end_length in E as [E Nk]. destruct k; [congruence|]. cbn in *. lia. }
  destruct (token_end (c :: r)) as [w u] eqn:E. pose proof (token_end_length _ _ _ E) as L.
  intros H. assert (A : w = v /\ u = t /\ w <> []).
  { destruct ((c =? 116) || (c =? 102)).
    - destruct (beqb w (b "true") || beqb w (b "false")) eqn:T; [|discriminate]. injection H as <- <- <-.
      repeat split. intros ->. discriminate.
    - destruct ((c =? 117) || (c =? 110)).
      + destruct (beqb w (b "null")) eqn:T; [|discriminate]. injection H as <- <- <-.
        repeat split. intros ->. discriminate.
      + destruct (is_digit c || (c =? 45)) eqn:D; [|discriminate]. injection H as <- <- <-.
        repeat split. intros ->. cbn in E. unfold is_ws in E.
        replace ((c =? 32) || (c =? 9) || (c =? 13) || (c =? 10) || (c =? 44) || (c =? 125) || (c =? 93)) with false in E
          by (unfold is_digit in D; lia).
        destruct (token_end r). discriminate. }
  destruct A as (<- & <- & Nw). destruct w; [congruence|]. cbn in *. lia.
Qed.

Lemma get0_length s v ty t : get0 s = Some (v, ty, t) ->
  (length v + length t <= length s)%nat /\ (length t < length s)%nat.
Proof.
  unfold get0. destruct (next_token s) as [u|] eqn:E; [|discriminate]. apply next_token_length in E as [E _].
  intros H. apply get_type_length in H. lia.
Qed.

(** The bound on the number of rounds is never reached. *)
Lemma array_loop_enough f1 : forall f2 s, (length s < f1)%nat -> (length s < f2)%nat ->
  array_loop f1 s = array_loop f2 s.
Proof.
  induction f1 as [|f1 IH]; intros f2 s L1 L2; [lia|]. destruct f2 as [|f2]; [lia|]. cbn [array_loop].
  destruct (get0 s) as [[[v t] r]|] eqn:G; [|reflexivity]. apply get0_length in G.
  destruct (next_token r) as [[|c r']|] eqn:E; [reflexivity| |reflexivity].
  apply next_token_length in E as [E _]. cbn in E.
  destruct (c =? 93); [reflexivity|]. destruct (c =? 44); [|reflexivity]. now rewrite (IH f2 r') by lia.
Qed.

Lemma object_loop_enough f1 : forall f2 s, (length s < f1)%nat -> (length s < f2)%nat ->
  object_loop f1 s = object_loop f2 s.
Proof.
  induction f1 as [|f1 IH]; intros f2 s L1 L2; [lia|]. destruct f2 as [|f2]; [lia|]. cbn [object_loop].
  destruct s as [|c r]; [reflexivity|]. destruct (c =? 34); [|reflexivity].
  destruct (string_end false false r) as [[[k e] r1]|] eqn:Se; [|reflexivity]. apply string_end_length in Se.
  destruct (if e then unescape k else Some k); [|reflexivity].
  destruct (next_token r1) as [[|d r2]|] eqn:E; [reflexivity| |reflexivity].
  apply next_token_length in E as [E _]. cbn in E. destruct (d =? 58); [|reflexivity].
  destruct (get0 r2) as [[[v t] r3]|] eqn:G; [|reflexivity]. apply get0_length in G.
  destruct (next_token r3) as [[|x r4]|] eqn:E3; [reflexivity| |reflexivity].
  apply next_token_length in E3 as [E3 _]. cbn in E3. destruct (x =? 125); [reflexivity|].
  destruct (x =? 44); [|reflexivity]. destruct (next_token r4) as [r5|] eqn:E4; [|reflexivity].
  apply next_token_length in E4 as [E4 _]. cbn in L1, L2. now rewrite (IH f2 r5) by lia.
Qed.

Lemma array_loop_sizes f : forall s v, In v (fst (array_loop f s)) -> (length (fst v) <= length s)%nat.
Proof.
  induction f as [|f IH]; intros s v; cbn [array_loop]; [intros []|].
  destruct (get0 s) as [[[x t] r]|] eqn:G; [|intros []]. apply get0_length in G.
  assert (One : In v [(x, t)] -> (length (fst v) <= length s)%nat) by (intros [<-|[]]; cbn; lia).
  destruct (next_token r) as [[|c r']|] eqn:E; [exact One| |exact One].
  apply next_token_length in E as [E _]. cbn in E.
  destruct (c =? 93); [exact One|]. destruct (c =? 44); [|exact One].
  specialize (IH r' v). destruct (array_loop f r') as [l ok]. cbn in *. intros [<-|I]; [cbn; lia|].
  specialize (IH I). lia.
Qed.

Lemma array_each_sizes s v : In v (fst (array_each s)) -> (length (fst v) < length s)%nat.
Proof.
  unfold array_each. destruct (next_token s) as [[|c s1]|] eqn:E; try (intros []; fail).
  apply next_token_length in E as [E _]. cbn in E.
  destruct (next_token s1) as [[|d r]|] eqn:E1; try (intros []; fail).
  apply next_token_length in E1 as [E1 _].
  destruct (d =? 93); [intros []|]. intros I. apply array_loop_sizes in I. lia.
Qed.

Lemma object_loop_sizes f : forall s m, In m (fst (object_loop f s)) -> (length (fst (snd m)) <= length s)%nat.
Proof.
  induction f as [|f IH]; intros s m; cbn [object_loop]; [intros []|].
  destruct s as [|c r]; [intros []|]. destruct (c =? 34); [|destruct (c =? 125); intros []].
  destruct (string_end false false r) as [[[k e] r1]|] eqn:Se; [|intros []]. apply string_end_length in Se.
  destruct (if e then unescape k else Some k) as [k'|]; [|intros []].
  destruct (next_token r1) as [[|d r2]|] eqn:E; try (intros []; fail).
  apply next_token_length in E as [E _]. cbn in E. destruct (d =? 58); [|intros []].
  destruct (get0 r2) as [[[v t] r3]|] eqn:G; [|intros []]. apply get0_length in G.
  assert (One : In m [(k', (v, t))] -> (length (fst (snd m)) <= length (c :: r))%nat) by (intros [<-|[]]; cbn; lia).
  destruct (next_token r3) as [[|x r4]|] eqn:E3; [exact One| |exact One].
  apply next_token_length in E3 as [E3 _]. cbn in E3. destruct (x =? 125); [exact One|].
  destruct (x =? 44); [|exact One]. destruct (next_token r4) as [r5|] eqn:E4; [|exact One].
  apply next_token_length in E4 as [E4 _].
  specialize (IH r5 m). destruct (object_loop f r5) as [l ok]. cbn in *. intros [<-|I]; [cbn; lia|].
  specialize (IH I). lia.
Qed.

Lemma object_each_sizes s m : In m (fst (object_each s)) -> (length (fst (snd m)) < length s)%nat.
Proof.
  unfold object_each. destruct (next_token s) as [[|c s1]|] eqn:E; try (intros []; fail).
  apply next_token_length in E as [E _]. cbn in E. destruct (c =? 123); [|intros []].
  destruct (next_token s1) as [[|d r]|] eqn:E1; try (intros []; fail).
  apply next_token_length in E1 as [E1 _].
  destruct (d =? 125); [intros []|]. intros I. apply object_loop_sizes in I. lia.
Qed.

(** ** What is collected, independently of the map *)
Inductive cres := COk (ks : list bytes) | CErr | CPanic | CFuel.

Fixpoint gather {A} (step : A -> cres) (l : list A) (ok : bool) : cres :=
  match l with
  | [] => if ok then COk [] else CErr
  | x :: l' =>
    match step x with
    | COk ks => match gather step l' ok with COk ks' => COk (ks ++ ks') | r => r end
    | r => r
    end
  end.

Fixpoint collect (fuel : nat) (max_depth : Z) (path : bytes) (depth : Z) (v : jvalue) : cres :=
  match fuel with
  | 0%nat => CFuel
  | S f =>
    if (max_depth <? depth)%Z then COk []
    else
      match snd v with
      | TObject =>
        let (ms, ok) := object_each (fst v) in
        gather (fun m => collect f max_depth (add_segment path (fst m)) (depth + 1) (snd m)) ms ok
      | TArray =>
        let (els, ok) := array_each (fst v) in
        gather (fun e => match snd e with TArray => COk [] | _ => collect f max_depth path depth e end) els ok
      | _ => match path with _ :: k => COk [k] | [] => CPanic end
      end
  end.

Definition put (ks : list bytes) (m : kmap) : kmap := fold_left (fun m k => incr k m) ks m.

Definition applied (c : cres) (m : kmap) : sres :=
  match c with COk ks => SOk (Some (put ks m)) | CErr => SErr | CPanic => SPanic | CFuel => SFuel end.

Lemma each_gather {A} (step : option kmap -> A -> sres) (cstep : A -> cres) l ok : forall m,
  (forall x m', In x l -> step (Some m') x = applied (cstep x) m') ->
  each step l ok (Some m) = applied (gather cstep l ok) m.
Proof.
  induction l as [|x l IH]; intros m H; cbn.
  - now destruct ok.
  - rewrite H by now left. destruct (cstep x) as [ks| | |]; cbn; try reflexivity.
    rewrite IH by (intros; apply H; now right).
    destruct (gather cstep l ok); cbn; try reflexivity. unfold put. now rewrite fold_left_app.
Qed.

Lemma sample_collect fuel max : forall path depth v m,
  sample_in fuel max path depth (Some m) v = applied (collect fuel max path depth v) m.
Proof.
  induction fuel as [|f IH]; intros path depth v m; [reflexivity|]. cbn [sample_in collect].
  destruct (max <? depth)%Z; [reflexivity|].
  destruct (snd v); try (destruct path; reflexivity).
  - destruct (object_each (fst v)) as [ms ok]. apply each_gather. intros x m' _. apply IH.
  - destruct (array_each (fst v)) as [els ok]. apply each_gather. intros x m' _.
    destruct (snd x); try apply IH. reflexivity.
Qed.

Lemma gather_cong {A} (f g : A -> cres) l ok : (forall x, In x l -> f x = g x) -> gather f l ok = gather g l ok.
Proof.
  induction l as [|x l IH]; intros H; [reflexivity|]. cbn. rewrite (H x) by now left.
  rewrite IH by (intros; apply H; now right). reflexivity.
Qed.

Lemma collect_enough max f1 : forall f2 path depth (v : jvalue), (length (fst v) < f1)%nat -> (length (fst v) < f2)%nat ->
  collect f1 max path depth v = collect f2 max path depth v.
Proof.
  induction f1 as [|f1 IH]; intros f2 path depth v L1 L2; [lia|]. destruct f2 as [|f2]; [lia|].
  cbn [collect]. destruct (max <? depth)%Z; [reflexivity|]. destruct (snd v) eqn:Tv; try reflexivity.
  - pose proof (object_each_sizes (fst v)) as Sz. destruct (object_each (fst v)) as [ms ok]. cbn in Sz.
    apply gather_cong. intros m I. apply Sz in I. apply IH; lia.
  - pose proof (array_each_sizes (fst v)) as Sz. destruct (array_each (fst v)) as [els ok]. cbn in Sz.
    apply gather_cong. intros m I. apply Sz in I. destruct (snd m); try reflexivity; apply IH; lia.
Qed.

Lemma gather_fuel {A} (f : A -> cres) l ok : (forall x, In x l -> f x <> CFuel) -> gather f l ok <> CFuel.
Proof.
  induction l as [|x l IH]; intros H; cbn; [destruct ok; discriminate|].
  pose proof (H x (or_introl eq_refl)). destruct (f x); try congruence.
  assert (G : gather f l ok <> CFuel) by (apply IH; intros; apply H; now right).
  destruct (gather f l ok); congruence.
Qed.

Lemma collect_no_fuel max f : forall path depth (v : jvalue), (length (fst v) < f)%nat -> collect f max path depth v <> CFuel.
Proof.
  induction f as [|f IH]; intros path depth v L; [lia|]. cbn [collect].
  destruct (max <? depth)%Z; [discriminate|]. destruct (snd v) eqn:Tv; try (destruct path; discriminate).
  - pose proof (object_each_sizes (fst v)) as Sz. destruct (object_each (fst v)) as [ms ok]. cbn in Sz.
    apply gather_fuel. intros m I. apply Sz in I. apply IH; lia.
  - pose proof (array_each_sizes (fst v)) as Sz. destruct (array_each (fst v)) as [els ok]. cbn in Sz.
    apply gather_fuel. intros m I. apply Sz in I. destruct (snd m); try discriminate; apply IH; lia.
Qed.

Lemma gather_panic {A} (f : A -> cres) l ok : (forall x, In x l -> f x <> CPanic) -> gather f l ok <> CPanic.
Proof.
  induction l as [|x l IH]; intros H; cbn; [destruct ok; discriminate|].
  pose proof (H x (or_introl eq_refl)). destruct (f x); try congruence.
  assert (G : gather f l ok <> CPanic) by (apply IH; intros; apply H; now right).
  destruct (gather f l ok); congruence.
Qed.

Lemma add_segment_nonempty path k : add_segment path k <> [].
Proof. unfold add_segment. destruct path; discriminate. Qed.

Lemma collect_no_panic max f : forall path depth (v : jvalue), path <> [] \/ snd v = TObject -> collect f max path depth v <> CPanic.
Proof.
  induction f as [|f IH]; intros path depth v H; [discriminate|]. cbn [collect].
  destruct (max <? depth)%Z; [discriminate|]. destruct (snd v) eqn:T;
    try (destruct path; [destruct H; [congruence|discriminate]|discriminate]).
  - destruct (object_each (fst v)) as [ms ok]. apply gather_panic. intros m _. apply IH. left. apply add_segment_nonempty.
  - destruct (array_each (fst v)) as [els ok]. apply gather_panic. intros m _.
    destruct (snd m) eqn:Tm; try discriminate; apply IH; destruct H as [H|H]; try congruence; now left.
Qed.

(** Sample as a whole. *)
Definition outcome (max : Z) (data : bytes) : cres :=
  match data with
  | [] => CPanic
  | c :: _ =>
    if c =? 123 then if last_byte data =? 125 then collect (S (length data)) max [] 0 (data, TObject) else CErr
    else if c =? 91 then if last_byte data =? 93 then collect (S (length data)) max [] 0 (data, TArray) else CErr
    else CErr
  end.

Lemma sample_outcome s m data : sp_keys s = Some m ->
  match outcome (sp_max s) data with
  | COk ks => sample s data = Sampled false {| sp_max := sp_max s; sp_keys := Some (put ks m); sp_docs := sp_docs s + 1 |}
  | CErr => exists s', sample s data = Sampled true s' /\ sp_max s' = sp_max s /\ sp_docs s' = sp_docs s /\
              (s' = s \/ sp_keys s' = None)
  | CPanic => sample s data = SamplePanic
  | CFuel => False
  end.
Proof.
  intros K. unfold outcome, sample. destruct data as [|c r]; [reflexivity|].
  assert (Go : forall ty, match collect (S (length (c :: r))) (sp_max s) [] 0 (c :: r, ty) with
    | COk ks => match sample_in (S (length (c :: r))) (sp_max s) [] 0 (sp_keys s) (c :: r, ty) with
                | SOk keys => Sampled false {| sp_max := sp_max s; sp_keys := keys; sp_docs := sp_docs s + 1 |}
                | SErr => Sampled true {| sp_max := sp_max s; sp_keys := None; sp_docs := sp_docs s |}
                | SPanic => SamplePanic | SFuel => SampleFuel end
                = Sampled false {| sp_max := sp_max s; sp_keys := Some (put ks m); sp_docs := sp_docs s + 1 |}
    | CErr => exists s', match sample_in (S (length (c :: r))) (sp_max s) [] 0 (sp_keys s) (c :: r, ty) with
                | SOk keys => Sampled false {| sp_max := sp_max s; sp_keys := keys; sp_docs := sp_docs s + 1 |}
                | SErr => Sampled true {| sp_max := sp_max s; sp_keys := None; sp_docs := sp_docs s |}
                | SPanic => SamplePanic | SFuel => SampleFuel end = Sampled true s' /\ sp_max s' = sp_max s /\
                  sp_docs s' = sp_docs s /\ (s' = s \/ sp_keys s' = None)
    | CPanic => match sample_in (S (length (c :: r))) (sp_max s) [] 0 (sp_keys s) (c :: r, ty) with
                | SOk keys => Sampled false {| sp_max := sp_max s; sp_keys := keys; sp_docs := sp_docs s + 1 |}
                | SErr => Sampled true {| sp_max := sp_max s; sp_keys := None; sp_docs := sp_docs s |}
                | SPanic => SamplePanic | SFuel => SampleFuel end = SamplePanic
    | CFuel => False
    end).
  { intros ty. rewrite K, sample_collect.
    pose proof (collect_no_fuel (sp_max s) (S (length (c :: r))) [] 0 (c :: r, ty) ltac:(cbn; lia)) as Nf.
    destruct (collect _ _ _ _ _); cbn [applied]; try reflexivity; [|congruence].
    eexists. split; [reflexivity|]. cbn. auto. }
  assert (Er : exists s', Sampled true s = Sampled true s' /\ sp_max s' = sp_max s /\ sp_docs s' = sp_docs s /\ (s' = s \/ sp_keys s' = None)).
  { exists s. auto. }
  destruct (c =? 123).
  - destruct (last_byte (c :: r) =? 125); [apply Go|exact Er].
  - destruct (c =? 91); [|exact Er]. destruct (last_byte (c :: r) =? 93); [apply Go|exact Er].
Qed.

(** ** The map *)
Definition mcount (k : bytes) (m : kmap) : N := fold_right (fun e n => if beqb k (fst e) then snd e + n else n) 0 m.

Lemma beqb_neq x y : beqb x y = false <-> x <> y.
Proof. rewrite <- beqb_eq. destruct (beqb x y); split; congruence. Qed.
Lemma beqb_refl x : beqb x x = true.
Proof. now apply beqb_eq. Qed.

Lemma mcount_cons k x n m : mcount k ((x, n) :: m) = if beqb k x then n + mcount k m else mcount k m.
Proof. reflexivity. Qed.

Lemma mcount_incr k k' m : mcount k (incr k' m) = mcount k m + (if beqb k k' then 1 else 0).
Proof.
  induction m as [|[x n] m IH]; cbn [incr].
  - rewrite mcount_cons. destruct (beqb k k'); cbn; lia.
  - destruct (beqb k' x) eqn:E; rewrite !mcount_cons.
    + apply beqb_eq in E. subst x. destruct (beqb k k'); lia.
    + rewrite IH. destruct (beqb k x); lia.
Qed.

Definition bytes_dec : forall x y : bytes, {x = y} + {x <> y} := list_eq_dec N.eq_dec.

Lemma mcount_put k ks : forall m, mcount k (put ks m) = mcount k m + N.of_nat (count_occ bytes_dec ks k).
Proof.
  induction ks as [|x ks IH]; intros m; [unfold put; cbn [fold_left count_occ]; lia|]. cbn [put fold_left]. fold (put ks (incr x m)).
  rewrite IH, mcount_incr. cbn [count_occ]. destruct (bytes_dec x k) as [->|N0].
  - rewrite beqb_refl. lia.
  - assert (beqb k x = false) as -> by (apply beqb_neq; congruence). lia.
Qed.

(** Every key once, with a positive count. *)
Definition wf (m : kmap) : Prop := NoDup (map fst m) /\ Forall (fun e => 0 < snd e) m.

Lemma incr_in k m x : In x (map fst (incr k m)) <-> x = k \/ In x (map fst m).
Proof.
  induction m as [|[y n] m IH]; cbn; [firstorder|]. destruct (beqb k y) eqn:E; cbn.
  - apply beqb_eq in E. subst y. firstorder.
  - rewrite IH. firstorder.
Qed.

Lemma incr_wf k m : wf m -> wf (incr k m).
Proof.
  intros [Nd F]. induction m as [|[y n] m IH]; cbn.
  - split; repeat constructor. intros [].
  - inversion Nd as [|? ? Ny Nd']; inversion F as [|? ? Py F']; subst. cbn in Py. destruct (beqb k y) eqn:E.
    + split; [exact Nd|]. constructor; [cbn; lia|exact F'].
    + destruct (IH Nd' F') as [A B]. split; cbn; constructor; try assumption.
      rewrite incr_in. intros [->|I]; [rewrite beqb_refl in E; discriminate|contradiction].
Qed.

Lemma put_wf ks : forall m, wf m -> wf (put ks m).
Proof. induction ks as [|k ks IH]; intros m W; [exact W|]. cbn. apply IH. now apply incr_wf. Qed.

Lemma wf_nil : wf [].
Proof. split; constructor. Qed.

Lemma in_count k m : wf m -> (In k (map fst m) <-> 0 < mcount k m).
Proof.
  intros [_ F]. induction F as [|[y n] m Py _ IH]; [cbn; split; [intros []|lia]|]. rewrite mcount_cons. cbn in Py |- *.
  destruct (beqb k y) eqn:E.
  - apply beqb_eq in E. split; [lia|]. now left.
  - apply beqb_neq in E. rewrite <- IH. firstorder congruence.
Qed.

(** The count stored under a key. *)
Lemma mcount_in k n m : wf m -> (In (k, n) m <-> n = mcount k m /\ 0 < n).
Proof.
  intros [Nd F]. induction m as [|[y c] m IH]; [cbn; split; [intros []|lia]|]. rewrite mcount_cons. cbn [In].
  inversion Nd as [|? ? Ny Nd']; inversion F as [|? ? Py F']; subst. cbn in Py.
  assert (Z0 : ~ In k (map fst m) -> mcount k m = 0).
  { intros A. rewrite (in_count k m (conj Nd' F')) in A. lia. }
  destruct (beqb k y) eqn:E.
  - apply beqb_eq in E. subst y. rewrite (Z0 Ny). split.
    + intros [[= <-]|I]; [lia|]. exfalso. apply Ny. now apply (in_map fst) in I.
    + intros [-> _]. left. f_equal. lia.
  - apply beqb_neq in E. rewrite <- (IH Nd' F'). split; [intros [[= ? ?]|I]; [congruence|exact I]|tauto].
Qed.

(** ** Documents *)
Definition flat (p : list bytes) : bytes := concat (map (fun n => b "." ++ shown_name n) p).

Lemma flat_shown p : p <> [] -> flat p = b "." ++ shown p.
Proof.
  induction p as [|n p IH]; [congruence|]. intros _. unfold flat. cbn [map concat]. fold (flat p).
  destruct p as [|n2 p]; [cbn; now rewrite app_nil_r|]. rewrite IH by discriminate. reflexivity.
Qed.

Lemma add_segment_flat path k p : add_segment path k ++ flat p = path ++ flat (k :: p).
Proof.
  unfold add_segment, flat, shown_name, has_byte. cbn [map concat]. rewrite <- !app_assoc. reflexivity.
Qed.

Lemma gather_all {A B} (R : A -> B -> Prop) (step : A -> cres) (g : B -> list bytes) l js :
  Forall2 R l js -> (forall x y, In x l -> In y js -> R x y -> step x = COk (g y)) ->
  gather step l true = COk (flat_map g js).
Proof.
  induction 1 as [|x y l js H _ IH]; intros S0; [reflexivity|]. cbn.
  rewrite (S0 x y) by (auto; now left). rewrite IH; [reflexivity|]. intros; apply S0; auto; now right.
Qed.

Lemma decoded_all ms : (forall m, In m ms -> unescape (fst m) <> None) ->
  snd (decoded ms) = true /\
  (forall m, In m (fst (decoded ms)) -> exists raw, In (raw, snd m) ms /\ unescape raw = Some (fst m)) /\
  (forall (G : bytes -> json -> list bytes),
     flat_map (fun m => G (fst m) (snd m)) (fst (decoded ms)) =
     flat_map (fun m => match unescape (fst m) with Some n => G n (snd m) | None => [] end) ms).
Proof.
  induction ms as [|[k v] ms IH]; intros D; [repeat split; intros _ []|]. cbn [decoded].
  pose proof (D (k, v) (or_introl eq_refl)) as Dk. cbn in Dk. destruct (unescape k) as [n|] eqn:U; [|congruence].
  destruct IH as (A & B & C); [intros; apply D; now right|]. destruct (decoded ms) as [l ok]. cbn in *.
  split; [exact A|]. split.
  - intros m [<-|I]; [exists k; auto|]. destruct (B m I) as (raw & I' & U'). eauto.
  - intros G. cbn. rewrite U. now rewrite C.
Qed.

Lemma map_flat_map {A B C} (f : B -> C) (g : A -> list B) l : map f (flat_map g l) = flat_map (fun x => map f (g x)) l.
Proof. induction l as [|x l IH]; [reflexivity|]. cbn. now rewrite map_app, IH. Qed.

Lemma flat_map_ext' {A B} (f g : A -> list B) l : (forall x, In x l -> f x = g x) -> flat_map f l = flat_map g l.
Proof. induction l as [|x l IH]; intros H; [reflexivity|]. cbn. rewrite (H x), IH; auto; [intros; apply H; now right|now left]. Qed.

Lemma collect_value max f : forall d path depth v j, shows v j -> decodable j -> (length (fst v) < f)%nat ->
  (max - depth = Z.of_nat d)%Z -> path <> [] \/ ~ In [] (scalars_below d j) ->
  collect f max path depth v = COk (map (fun p => tl (path ++ flat p)) (scalars_below d j)).
Proof.
  induction f as [|f IH]; intros d path depth v j Sh Dec L Dp Pth; [lia|]. cbn [collect].
  replace (max <? depth)%Z with false by lia.
  assert (Sc : scalars_below d j = [[]] -> match path with _ :: k => COk [k] | [] => CPanic end =
    COk (map (fun p => tl (path ++ flat p)) (scalars_below d j))).
  { intros E. rewrite E in *. destruct path as [|c k]; [destruct Pth as [Pth|Pth]; [congruence|exfalso; apply Pth; now left]|].
    cbn. now rewrite app_nil_r. }
  destruct j as [|x|x|x|els|ms]; cbn [shows] in Sh.
  - rewrite Sh. now apply Sc.
  - rewrite Sh. now apply Sc.
  - destruct Sh as [-> _]. now apply Sc.
  - destruct Sh as [-> _]. now apply Sc.
  - destruct Sh as [-> V].
    destruct (array_each_value [] (fst v) els [] (Forall_nil _) V) as (l & A & F).
    cbn [app] in A. rewrite app_nil_r in A. pose proof (array_each_sizes (fst v)) as Sz. rewrite A in *. cbn [fst] in Sz.
    cbn [scalars_below]. rewrite map_flat_map.
    apply (gather_all shows _ _ _ _ F). intros x e Ix Ie Sx.
    assert (Dec' : decodable e) by (intros raw H; apply Dec; eapply hn_element; eauto).
    assert (Pth' : (forall l', e <> JArr l') -> path <> [] \/ ~ In [] (scalars_below d e)).
    { intros Na. destruct Pth as [Pth|Pth]; [now left|]. right. intros I. apply Pth. cbn [scalars_below].
      apply in_flat_map. exists e. split; [exact Ie|]. destruct e; auto. now destruct (Na els0). }
    assert (Lx : (length (fst x) < f)%nat) by (apply Sz in Ix; lia).
    destruct e as [|y|y|y|y|y]; cbn [shows] in Sx.
    + rewrite <- (IH d path depth x JNull Sx Dec' Lx Dp (Pth' ltac:(discriminate))). now rewrite Sx.
    + rewrite <- (IH d path depth x (JBool y) Sx Dec' Lx Dp (Pth' ltac:(discriminate))). now rewrite Sx.
    + rewrite <- (IH d path depth x (JNum y) Sx Dec' Lx Dp (Pth' ltac:(discriminate))). now destruct Sx as [-> _].
    + rewrite <- (IH d path depth x (JStr y) Sx Dec' Lx Dp (Pth' ltac:(discriminate))). now destruct Sx as [-> _].
    + now destruct Sx as [-> _].
    + rewrite <- (IH d path depth x (JObj y) Sx Dec' Lx Dp (Pth' ltac:(discriminate))). now destruct Sx as [-> _].
  - destruct Sh as [-> V].
    destruct (object_each_value [] (fst v) ms [] (Forall_nil _) V) as (l & A & F).
    cbn [app] in A. rewrite app_nil_r in A. pose proof (object_each_sizes (fst v)) as Sz. rewrite A in *. cbn [fst] in Sz.
    destruct (decoded_all ms) as (Ok0 & Src & Fm).
    { intros [raw w] I. apply Dec. eapply hn_here; eauto. }
    rewrite Ok0.
    destruct d as [|d].
    + rewrite (gather_all shows_member _ (fun _ => []) _ _ F).
      * cbn [scalars_below map]. f_equal. clear. now induction (fst (decoded ms)).
      * intros x y Ix _ _. destruct f as [|f]; [apply Sz in Ix; lia|]. cbn [collect].
        now replace (max <? depth + 1)%Z with true by lia.
    + rewrite (gather_all shows_member _ (fun m => map (fun p => tl (add_segment path (fst m) ++ flat p)) (scalars_below d (snd m))) _ _ F).
      * f_equal. rewrite (Fm (fun n w => map (fun p => tl (add_segment path n ++ flat p)) (scalars_below d w))).
        cbn [scalars_below]. rewrite map_flat_map. apply flat_map_ext'. intros [raw w] _. cbn [fst snd].
        destruct (unescape raw) as [n|]; [|reflexivity]. rewrite map_map. apply map_ext. intros p.
        now rewrite add_segment_flat.
      * intros x y Ix Iy [E Sx]. rewrite E. apply (IH d _ _ (snd x) (snd y)); [exact Sx| |apply Sz in Ix; lia|lia|left; apply add_segment_nonempty].
        intros raw H. apply Dec. destruct (Src y Iy) as (rk & I & _). eapply hn_member; eauto.
Qed.

(** The list of scalars is that of [leads]. *)
Lemma nesting_element e els : In e els -> (nesting e < nesting (JArr els))%nat.
Proof.
  cbn [nesting]. induction els as [|a els IH]; [intros []|]. cbn [fold_right In]. intros [->|I]; [lia|].
  apply IH in I. lia.
Qed.

Lemma nesting_member m ms : In m ms -> (nesting (snd m) < nesting (JObj ms))%nat.
Proof.
  cbn [nesting]. induction ms as [|a ms IH]; [intros []|]. cbn [fold_right In]. intros [->|I]; [lia|].
  apply IH in I. lia.
Qed.

Lemma leads_scalar d k p : scalar k -> (leads d k p <-> p = []).
Proof.
  intros [A B]. split.
  - intros H. destruct H; [reflexivity|now destruct (A ms)|now destruct (B els)].
  - intros ->. constructor. now split.
Qed.

Lemma leads_array d els p : leads d (JArr els) p <-> exists e, In e els /\ (forall l, e <> JArr l) /\ leads d e p.
Proof.
  split.
  - intros H. inversion H as [? ? [_ Sa]| |? ? e ? Ie Na He]; subst; [now destruct (Sa els)|]. eauto.
  - intros (e & Ie & Na & He). eapply ld_array; eauto.
Qed.

Lemma leads_object d ms p : leads d (JObj ms) p <->
  exists d' raw name v p', d = S d' /\ p = name :: p' /\ In (raw, v) ms /\ unescape raw = Some name /\ leads d' v p'.
Proof.
  split.
  - intros H. inversion H as [? ? [So _]|? ? raw nm w p' Im U Hw|]; subst; [now destruct (So ms)|]. eauto 10.
  - intros (d' & raw & name & v & p' & -> & -> & I & U & H). eapply ld_member; eauto.
Qed.

Lemma scalars_leads j : forall d p, In p (scalars_below d j) <-> leads d j p.
Proof.
  assert (K : forall n j, (nesting j < n)%nat -> forall d p, In p (scalars_below d j) <-> leads d j p).
  2: exact (K (S (nesting j)) j (Nat.lt_succ_diag_r _)).
  intros n. induction n as [|n IH]; intros k L d p; [lia|].
  assert (Sc : scalar k -> (In p [[]] <-> leads d k p)).
  { intros Sk. rewrite (leads_scalar d k p Sk). cbn. split; [intros [<-|[]]; reflexivity|intros ->; now left]. }
  destruct k as [|x|x|x|els|ms]; try (apply Sc; split; discriminate).
  - rewrite leads_array. cbn [scalars_below]. rewrite in_flat_map. split.
    + intros (e & Ie & H). exists e. split; [exact Ie|].
      assert (Na : forall l, e <> JArr l) by (intros l ->; destruct H). split; [exact Na|].
      apply IH; [apply nesting_element in Ie; lia|]. destruct e; auto. now destruct (Na els0).
    + intros (e & Ie & Na & H). exists e. split; [exact Ie|].
      apply IH in H; [|apply nesting_element in Ie; lia]. destruct e; auto. now destruct (Na els0).
  - rewrite leads_object. destruct d as [|d].
    + split; [intros []|]. intros (d' & raw & name & v & p' & E & _). discriminate.
    + cbn [scalars_below]. rewrite in_flat_map. split.
      * intros ([raw w] & Im & H). cbn [fst snd] in H. destruct (unescape raw) as [nm|] eqn:U; [|destruct H].
        apply in_map_iff in H as (p' & <- & H). exists d, raw, nm, w, p'. repeat (split; [auto|]).
        apply IH; [apply nesting_member in Im; cbn [snd] in Im; lia|exact H].
      * intros (d' & raw & nm & w & p' & [= <-] & -> & Im & U & H). exists (raw, w). split; [exact Im|].
        cbn [fst snd]. rewrite U. apply in_map. apply IH; [apply nesting_member in Im; cbn [snd] in Im; lia|exact H].
Qed.

(** Sampling a document. *)
Lemma outcome_document d text j : sampleable text j ->
  outcome (Z.of_nat d) text = COk (map shown (scalars_below d j)).
Proof.
  intros (V & Dec & Root). unfold outcome.
  assert (Ne : ~ In [] (scalars_below d j)).
  { intros I. apply scalars_leads in I. inversion I as [? ? [So Sa]| |? els e ? Ie Na He]; subst.
    - destruct Root as [(ms & ->)|(els & -> & _)]; [now destruct (So ms)|now destruct (Sa els)].
    - destruct Root as [(ms & ?)|(els' & [= <-] & Ns)]; [discriminate|]. apply (Ns e Ie).
      inversion He; subst; [assumption|]. now destruct (Na els0). }
  assert (Sh : map (fun p => tl ([] ++ flat p)) (scalars_below d j) = map shown (scalars_below d j)).
  { apply map_ext_in. intros p I. cbn [app]. rewrite flat_shown; [reflexivity|]. intros ->. contradiction. }
  rewrite <- Sh. destruct Root as [(ms & ->)|(els & -> & _)].
  - assert (Hd : exists s, text = 123 :: s ++ [125]) by (inversion V; eauto). destruct Hd as (s & ->).
    change (123 =? 123) with true. cbv iota. unfold last_byte.
    replace (last (123 :: s ++ [125]) 0) with 125 by (change (123 :: s ++ [125]) with ((123 :: s) ++ [125]); now rewrite last_last).
    change (125 =? 125) with true. cbv iota.
    apply collect_value; [now split|exact Dec|cbn; lia|lia|now right].
  - assert (Hd : exists s, text = 91 :: s ++ [93]) by (inversion V; eauto). destruct Hd as (s & ->).
    change (91 =? 123) with false. change (91 =? 91) with true. cbv iota. unfold last_byte.
    replace (last (91 :: s ++ [93]) 0) with 93 by (change (91 :: s ++ [93]) with ((91 :: s) ++ [93]); now rewrite last_last).
    change (93 =? 93) with true. cbv iota.
    apply collect_value; [now split|exact Dec|cbn; lia|lia|now right].
Qed.

(** ** Histories *)
Lemma samples_outcomes max texts : forall s m kss, sp_max s = max -> sp_keys s = Some m ->
  Forall2 (fun t ks => outcome max t = COk ks) texts kss ->
  samples s texts {| sp_max := max; sp_keys := Some (put (concat kss) m); sp_docs := sp_docs s + Z.of_nat (length texts) |}.
Proof.
  induction texts as [|t texts IH]; intros s m kss M K F; inversion F as [|? ks ? kss' E F']; subst.
  - cbn. replace (sp_docs s + 0)%Z with (sp_docs s) by lia. destruct s; cbn in *; subst. constructor.
  - pose proof (sample_outcome s m t K) as Sm. rewrite E in Sm. econstructor; [exact Sm|].
    match goal with |- samples ?s1 _ _ => pose proof (IH s1 (put ks m) kss' eq_refl eq_refl F') as R end.
    cbn [sp_docs] in R. cbn [concat]. unfold put in *. rewrite fold_left_app.
    replace (sp_docs s + Z.of_nat (length (t :: texts)))%Z with (sp_docs s + 1 + Z.of_nat (length texts))%Z by (cbn [length]; lia).
    exact R.
Qed.

Lemma samples_inv texts : forall s s' m, samples s texts s' -> sp_keys s = Some m ->
  exists kss, Forall2 (fun t ks => outcome (sp_max s) t = COk ks) texts kss /\
    s' = {| sp_max := sp_max s; sp_keys := Some (put (concat kss) m); sp_docs := sp_docs s + Z.of_nat (length texts) |}.
Proof.
  induction texts as [|t texts IH]; intros s s' m H K; inversion H as [|? ? s1 ? ? E H']; subst.
  - exists []. split; [constructor|]. cbn. replace (sp_docs s' + 0)%Z with (sp_docs s') by lia. destruct s'; cbn in *; now subst.
  - pose proof (sample_outcome s m t K) as Sm. destruct (outcome (sp_max s) t) as [ks| | |] eqn:O1.
    + rewrite Sm in E. injection E as <-. destruct (IH _ _ (put ks m) H' eq_refl) as (kss & F & ->). cbn [sp_max sp_docs] in *.
      exists (ks :: kss). split; [now constructor|]. cbn [concat]. unfold put. rewrite fold_left_app. f_equal. cbn [length]. lia.
    + destruct Sm as (s2 & Sm & _). rewrite Sm in E. discriminate.
    + rewrite Sm in E. discriminate.
    + destruct Sm.
Qed.

Lemma samples_fun s texts s1 s2 : samples s texts s1 -> samples s texts s2 -> s1 = s2.
Proof.
  intros A. revert s2. induction A as [|s t s1' texts s2' E _ IH]; intros s3 B; inversion B; subst; [reflexivity|].
  apply IH. congruence.
Qed.
