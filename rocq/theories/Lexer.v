(** Recognisers for the parts of the grammar without actions. *)
From Verif Require Import Bytes Utf8 Utf8Proofs Oracles Ast PegSyntax Grammar Actions Engine EngineBasics CleanEval.

(** A recogniser splits off a prefix. *)
Definition scanner := list N -> option (list N * list N).

Fixpoint slit (ic : bool) (w : list N) (rs : list N) : option (list N * list N) :=
  match w with
  | [] => Some ([], rs)
  | x :: w' =>
    match rs with
    | [] => None
    | y :: r =>
      if (if ic then to_lower y else y) =? x
      then match slit ic w' r with Some (t, r') => Some (y :: t, r') | None => None end
      else None
    end
  end.
Definition sseq (sc : expr -> scanner) : list expr -> scanner :=
  fix go es rs :=
    match es with
    | [] => Some ([], rs)
    | e :: es' =>
      match sc e rs with
      | Some (t, r) => match go es' r with Some (t', r') => Some (t ++ t', r') | None => None end
      | None => None
      end
    end.
Definition schoice (sc : expr -> scanner) : list expr -> scanner :=
  fix go es rs :=
    match es with
    | [] => None
    | e :: es' => match sc e rs with Some x => Some x | None => go es' rs end
    end.
Fixpoint sstar (g : scanner) (k : nat) (rs : list N) : option (list N * list N) :=
  match k with
  | O => None
  | S k' =>
    match g rs with
    | Some (t, r) => match sstar g k' r with Some (t', r') => Some (t ++ t', r') | None => None end
    | None => Some ([], rs)
    end
  end.

Fixpoint sc (k : nat) (e : expr) (rs : list N) {struct k} : option (list N * list N) :=
  match k with
  | 0%nat => None
  | S k' =>
    match e with
    | ELit w ic _ => slit ic w rs
    | EClass _ chars ranges ic invd =>
      match rs with
      | [] => None
      | x :: r => if xorb invd (in_class chars ranges (if ic then to_lower x else x)) then Some ([x], r) else None
      end
    | EAny => match rs with [] => None | x :: r => Some ([x], r) end
    | ENot e => match sc k' e rs with Some _ => None | None => Some ([], rs) end
    | EOpt e => match sc k' e rs with Some x => Some x | None => Some ([], rs) end
    | ESeq es => sseq (sc k') es rs
    | EChoice es => schoice (sc k') es rs
    | EStar e => sstar (sc k' e) (S (length rs)) rs
    | EPlus e =>
      match sstar (sc k' e) (S (length rs)) rs with
      | Some ([], _) => None
      | x => x
      end
    | ERule r => sc k' (rules r) rs
    | _ => None
    end
  end.

(** [pure k e]: [e] contains neither actions nor labels, and [k] levels suffice. *)
Fixpoint pure (k : nat) (e : expr) {struct k} : bool :=
  match k with
  | 0%nat => false
  | S k' =>
    match e with
    | ELit _ _ _ | EClass _ _ _ _ _ | EAny => true
    | ENot e | EOpt e | EStar e | EPlus e => pure k' e
    | ESeq es | EChoice es => forallb (pure k') es
    | ERule r => pure k' (rules r)
    | _ => false
    end
  end.

Definition cmove (c : cursor) (t r : list N) : cursor := {| pre := rev t ++ pre c; crs := r |}.

Lemma clit_slit ic w : forall c,
  match slit ic w (crs c) with
  | Some (t, r) => crs c = t ++ r /\ clit ic w c = Some (cmove c t r)
  | None => clit ic w c = None
  end.
Proof.
  induction w as [|x w IH]; intros c; cbn [slit clit].
  - split; auto. destruct c; reflexivity.
  - destruct (crs c) as [|y r] eqn:E; auto. destruct (_ =? x); auto.
    specialize (IH {| pre := y :: pre c; crs := r |}). cbn [crs pre] in IH.
    destruct (slit ic w r) as [[t r']|]; auto. destruct IH as [-> ->]. split; auto.
    unfold cmove. cbn. now rewrite <- app_assoc.
Qed.

Section WithOracles.
Context (O : oracles) (recs : list (list string * expr)) (Hr : recs_ok recs).

Definition scans (e : expr) (g : scanner) : Prop := forall f c,
  match g (crs c) with
  | Some (t, r) => crs c = t ++ r /\ exists v, cev O recs e f c = COk v f (cmove c t r)
  | None => cev O recs e f c = CNo
  end.

Lemma cmove_cmove c t r t' r' : cmove (cmove c t r) t' r' = cmove c (t ++ t') r'.
Proof. unfold cmove. cbn. now rewrite rev_app_distr, app_assoc. Qed.

Lemma sseq_cev g es : Forall (fun e => scans e (g e)) es -> forall acc f c,
  match sseq g es (crs c) with
  | Some (t, r) => crs c = t ++ r /\ exists v, cseq (cev O recs) es acc f c = COk v f (cmove c t r)
  | None => cseq (cev O recs) es acc f c = CNo
  end.
Proof.
  induction 1 as [|e es He _ IH]; intros acc f c; cbn [sseq cseq].
  - split; auto. exists (VList (rev acc)). destruct c; reflexivity.
  - specialize (He f c). destruct (g e (crs c)) as [[t r]|]; [|now rewrite He].
    destruct He as (E1 & v & E2). rewrite E2.
    specialize (IH (v :: acc) f (cmove c t r)). cbn [cmove crs] in IH.
    unfold sseq in IH. fold (sseq g) in IH. destruct (sseq g es r) as [[t' r']|]; auto.
    destruct IH as (-> & v' & ->). split; [now rewrite <- app_assoc|].
    exists v'. now rewrite cmove_cmove.
Qed.

Lemma schoice_cev g es : Forall (fun e => scans e (g e)) es -> forall f c,
  match schoice g es (crs c) with
  | Some (t, r) => crs c = t ++ r /\ exists v, cchoice (cev O recs) es f c = COk v f (cmove c t r)
  | None => cchoice (cev O recs) es f c = CNo
  end.
Proof.
  induction 1 as [|e es He _ IH]; intros f c; cbn [schoice cchoice]; auto.
  specialize (He [] c). destruct (g e (crs c)) as [[t r]|].
  - destruct He as (E1 & v & E2). rewrite E2. split; auto. now exists v.
  - rewrite He. apply IH.
Qed.

(** The loop bound of the recogniser and of the evaluator agree. *)
Lemma sstar_cev e g : scans e g -> (forall rs t r, g rs = Some (t, r) -> rs = t ++ r /\ t <> []) ->
  forall k acc f c, (length (crs c) < k)%nat ->
  exists t r, sstar g k (crs c) = Some (t, r) /\ crs c = t ++ r /\
    (t = [] -> cstar (cev O recs) k e acc f c = COk (VList (rev acc)) f c) /\
    exists l, cstar (cev O recs) k e acc f c = COk (VList (rev acc ++ l)) f (cmove c t r) /\ (l = [] <-> t = []).
Proof.
  intros He Hg. induction k as [|k IH]; intros acc f c Hk; [lia|]. cbn [sstar cstar].
  specialize (He [] c). destruct (g (crs c)) as [[t r]|] eqn:Eg.
  - destruct He as (E1 & v & E2). rewrite E2. destruct (Hg _ _ _ Eg) as [_ Ht].
    destruct (IH (v :: acc) f (cmove c t r)) as (t' & r' & S1 & S2 & _ & l & S3 & _).
    { cbn. rewrite E1, app_length in Hk. destruct t; [congruence|]. cbn in Hk. lia. }
    cbn [cmove crs] in S1, S2. rewrite S1. exists (t ++ t'), r'. split; auto.
    split; [now rewrite E1, S2, app_assoc|]. split; [destruct t; [congruence|discriminate]|].
    exists (v :: l). rewrite S3, cmove_cmove. split; [cbn; now rewrite <- app_assoc|].
    split; [discriminate|destruct t; [congruence|discriminate]].
  - rewrite He. exists [], (crs c). split; auto. split; auto. split; auto.
    exists []. rewrite app_nil_r. split; [destruct c; reflexivity|tauto].
Qed.

Lemma scans_split e g : wf e = true -> scans e g -> forall rs t r, g rs = Some (t, r) ->
  rs = t ++ r /\ (nullable e = false -> t <> []).
Proof.
  intros Hw He rs t r Eg. specialize (He [] {| pre := []; crs := rs |}). cbn [crs] in He. rewrite Eg in He.
  destruct He as (E1 & v & E2). split; auto. intros Hn ->.
  pose proof (cev_good O recs e [] {| pre := []; crs := rs |} Hw Hr) as G. rewrite E2 in G.
  destruct G as [_ G]. specialize (G Hn). cbn in G. rewrite E1 in G. cbn in G. lia.
Qed.

Theorem sc_cev k : forall e, pure k e = true -> wf e = true -> scans e (sc k e).
Proof.
  induction k as [|k IH]; intros e Hp Hw; [discriminate|]. intros f c.
  rewrite (cev_unfold O recs Hr) by exact Hw.
  destruct e as [a e|l|l|l e|r|w ic want|v chars ranges ic invd| |e|e|e|e|e rc ls|l|cd]; cbn [pure] in Hp; try discriminate;
    cbn [wf] in Hw; apply andb_true_iff in Hw as [_ Hw]; cbn [sc].
  - assert (F : Forall (fun e => scans e (sc k e)) l).
    { apply Forall_forall. intros e He. apply IH; eapply forallb_forall in He; eauto. }
    apply (sseq_cev _ _ F [] f c).
  - assert (F : Forall (fun e => scans e (sc k e)) l).
    { apply Forall_forall. intros e He. apply IH; eapply forallb_forall in He; eauto. }
    apply (schoice_cev _ _ F f c).
  - specialize (IH (rules r) Hp (wf_rules r) [] c). destruct (sc k (rules r) (crs c)) as [[t r']|].
    + destruct IH as (E1 & v & ->). split; auto. exists v. reflexivity.
    + now rewrite IH.
  - pose proof (clit_slit ic w c) as E. destruct (slit ic w (crs c)) as [[t r]|].
    + destruct E as [E1 ->]. split; auto. eauto.
    + now rewrite E.
  - destruct (crs c) as [|x r] eqn:E; auto. destruct (xorb _ _); auto. split; auto. eexists; reflexivity.
  - destruct (crs c) as [|x r] eqn:E; auto. split; auto. eexists; reflexivity.
  - specialize (IH e Hp Hw [] c). destruct (sc k e (crs c)) as [[t r']|].
    + destruct IH as (E1 & v & ->). auto.
    + rewrite IH. split; auto. exists VNil. destruct c; reflexivity.
  - apply andb_true_iff in Hw as [Hw Hn]. apply negb_true_iff in Hn.
    pose proof (IH e Hp Hw) as HS.
    destruct (sstar_cev e (sc k e) HS) with (k := S (length (crs c))) (acc := @nil val) (f := f) (c := c)
      as (t & r & S1 & S2 & _ & l & S3 & _); [|lia|].
    + intros rs t r Eg. destruct (scans_split e _ Hw HS rs t r Eg); auto.
    + rewrite S1. split; auto. eauto.
  - apply andb_true_iff in Hw as [Hw Hn]. apply negb_true_iff in Hn.
    pose proof (IH e Hp Hw) as HS.
    destruct (sstar_cev e (sc k e) HS) with (k := S (length (crs c))) (acc := @nil val) (f := f) (c := c)
      as (t & r & S1 & S2 & _ & l & S3 & S4); [|lia|].
    + intros rs t r Eg. destruct (scans_split e _ Hw HS rs t r Eg); auto.
    + rewrite S1, S3. destruct t as [|x t].
      * assert (l = []) by tauto. subst l. reflexivity.
      * split; auto. cbn [rev app]. destruct l as [|y l]; [exfalso; destruct S4 as [S4 _]; specialize (S4 eq_refl); discriminate|].
        cbn [plus_res]. eauto.
  - specialize (IH e Hp Hw [] c). destruct (sc k e (crs c)) as [[t r']|].
    + destruct IH as (E1 & v & ->). split; auto. eauto.
    + rewrite IH. split; auto. exists VNil. destruct c; reflexivity.
Qed.

(** The frequently needed forms. *)
Lemma cev_pure k e f c : pure k e = true -> wf e = true ->
  match sc k e (crs c) with
  | Some (t, r) => crs c = t ++ r /\ exists v, cev O recs e f c = COk v f (cmove c t r)
  | None => cev O recs e f c = CNo
  end.
Proof. intros. now apply sc_cev. Qed.

Lemma cev_token k a e f c : pure k e = true -> wf (EAction a e) = true ->
  cev O recs (EAction a e) f c =
  match sc k e (crs c) with
  | Some (t, r) =>
    match run_action O a f (pos_at c) (encode t) with
    | AOk v => COk v f (cmove c t r)
    | AErr _ k => CBad {| pe_kind := k; pe_pos := pos_at c |}
    | APanic => CPan
    end
  | None => CNo
  end.
Proof.
  intros Hp Hw. rewrite (cev_unfold O recs Hr) by exact Hw.
  cbn [wf] in Hw. apply andb_true_iff in Hw as [_ Hw].
  pose proof (cev_pure k e f c Hp Hw) as E. destruct (sc k e (crs c)) as [[t r]|].
  - destruct E as (E1 & v & ->). unfold ctext. rewrite (between_adv c t (cmove c t r)) by exact E1. reflexivity.
  - now rewrite E.
Qed.
End WithOracles.
