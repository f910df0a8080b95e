(** A simplified evaluator used only in proofs: it works on code points, forgets the error
    bookkeeping of the parser, and stops as soon as the parser would record an error.
    Bridge.v relates it to the model of the parser (Engine.v). *)
From Verif Require Import Bytes Utf8 Utf8Proofs Oracles Ast PegSyntax Grammar Actions Engine EngineBasics.

(** Text already read (reversed) and text to come. *)
Record cursor := { pre : list N; crs : list N }.

(** Code points since the last line feed. *)
Fixpoint since (l : list N) : Z :=
  match l with [] => 0 | x :: r => if N.eqb x 10 then 0 else 1 + since r end%Z.
Fixpoint lfs (l : list N) : Z :=
  match l with [] => 0 | x :: r => (if N.eqb x 10 then 1 else 0) + lfs r end%Z.
Fixpoint width (l : list N) : Z :=
  match l with [] => 0 | x :: r => Z.of_nat (length (encode_rune x)) + width r end%Z.
Definition hd_nl (l : list N) : bool := match l with x :: _ => x =? 10 | [] => false end.
Definition pos_at (c : cursor) : position :=
  if hd_nl (crs c)
  then {| line := 2 + lfs (pre c); col := 0; off := width (pre c) |}
  else {| line := 1 + lfs (pre c); col := 1 + since (pre c); off := width (pre c) |}.

Inductive cres :=
| COk (v : val) (f : frame) (c : cursor)
| CNo
| CBad (e : perr)   (** an error has been recorded; [e] is the first one *)
| CPan          (** a panic, no error recorded before *)
| CFuel.

Definition cpop (f : frame) (r : cres) : cres := match r with COk v _ c => COk v f c | _ => r end.

Fixpoint cseq (ev : expr -> frame -> cursor -> cres) (es : list expr) (acc : list val) (f : frame) (c : cursor) : cres :=
  match es with
  | [] => COk (VList (rev acc)) f c
  | e :: es' =>
    match ev e f c with
    | COk v f' c' => cseq ev es' (v :: acc) f' c'
    | r => r
    end
  end.
Fixpoint cchoice (ev : expr -> frame -> cursor -> cres) (es : list expr) (f : frame) (c : cursor) : cres :=
  match es with
  | [] => CNo
  | e :: es' => match ev e [] c with CNo => cchoice ev es' f c | r => cpop f r end
  end.
Fixpoint cstar (ev : expr -> frame -> cursor -> cres) (k : nat) (e : expr) (acc : list val) (f : frame) (c : cursor) : cres :=
  match k with
  | O => CFuel
  | S k' =>
    match ev e [] c with
    | COk v _ c' => cstar ev k' e (v :: acc) f c'
    | CNo => COk (VList (rev acc)) f c
    | r => r
    end
  end.
Fixpoint cthrow (ev : expr -> frame -> cursor -> cres) (l : string) (recs : list (list string * expr))
    (f : frame) (c : cursor) : cres :=
  match recs with
  | [] => CNo
  | (ls, e) :: recs' =>
    if existsb (String.eqb l) ls
    then match ev e f c with CNo => cthrow ev l recs' f c | r => r end
    else cthrow ev l recs' f c
  end.
Fixpoint clit (ic : bool) (want : list N) (c : cursor) : option cursor :=
  match want with
  | [] => Some c
  | w :: ws =>
    match crs c with
    | [] => None
    | x :: r => if (if ic then to_lower x else x) =? w then clit ic ws {| pre := x :: pre c; crs := r |} else None
    end
  end.

(** Code points between two cursors, and their bytes. *)
Definition between (c c' : cursor) : list N := firstn (length (crs c) - length (crs c')) (crs c).
Definition ctext (c c' : cursor) : bytes := encode (between c c').

Definition plus_res (r : cres) : cres := match r with COk (VList []) _ _ => CNo | _ => r end.

Section WithOracles.
Context (O : oracles).

Fixpoint ceval (n : nat) (recs : list (list string * expr)) (e : expr) (f : frame) (c : cursor) {struct n} : cres :=
  match n with
  | 0%nat => CFuel
  | S n' =>
    let ev := ceval n' recs in
    match e with
    | EAction a e1 =>
      match ev e1 f c with
      | COk _ f' c' =>
        match run_action O a f' (pos_at c) (ctext c c') with
        | AOk v => COk v f' c'
        | AErr _ k => CBad {| pe_kind := k; pe_pos := pos_at c |}
        | APanic => CPan
        end
      | r => r
      end
    | ESeq es => cseq ev es [] f c
    | EChoice es => cchoice ev es f c
    | ELabel l e1 =>
      match ev e1 [] c with COk v _ c' => COk v (set_label l v f) c' | r => r end
    | ERule r => cpop f (ev (rules r) [] c)
    | ELit w ic want =>
      match clit ic w c with Some c' => COk (VBytes (ctext c c')) f c' | None => CNo end
    | EClass _ chars ranges ic invd =>
      match crs c with
      | [] => CNo
      | x :: r =>
        if xorb invd (in_class chars ranges (if ic then to_lower x else x))
        then COk (VBytes (encode [x])) f {| pre := x :: pre c; crs := r |} else CNo
      end
    | EAny =>
      match crs c with
      | [] => CNo
      | x :: r => COk (VBytes (encode [x])) f {| pre := x :: pre c; crs := r |}
      end
    | ENot e1 =>
      match ev e1 [] c with COk _ _ _ => CNo | CNo => COk VNil f c | r => r end
    | EStar e1 => cstar ev (S (length (crs c))) e1 [] f c
    | EPlus e1 => plus_res (cstar ev (S (length (crs c))) e1 [] f c)
    | EOpt e1 => match ev e1 [] c with COk v _ c' => COk v f c' | CNo => COk VNil f c | r => r end
    | ERecover e1 r ls => ceval n' ((ls, r) :: recs) e1 f c
    | EThrow l => cthrow ev l recs f c
    | EState cd => CBad {| pe_kind := run_code cd; pe_pos := pos_at c |}
    end
  end.

(** ** Progress *)
Definition cadv (c c' : cursor) : Prop := exists t, crs c = t ++ crs c' /\ pre c' = rev t ++ pre c.

Lemma cadv_refl c : cadv c c.
Proof. exists []. split; reflexivity. Qed.
Lemma cadv_trans c d e : cadv c d -> cadv d e -> cadv c e.
Proof.
  intros (t & H1 & H2) (u & H3 & H4). exists (t ++ u). rewrite rev_app_distr, <- !app_assoc, <- H3, <- H2. auto.
Qed.
Lemma cadv_step x r p : cadv {| pre := p; crs := x :: r |} {| pre := x :: p; crs := r |}.
Proof. exists [x]. split; reflexivity. Qed.
Lemma cadv_len c d : cadv c d -> (length (crs d) <= length (crs c))%nat.
Proof. intros (t & -> & _). rewrite app_length. lia. Qed.
Lemma cadv_same c d : cadv c d -> length (crs d) = length (crs c) -> d = c.
Proof.
  intros (t & H1 & H2) H. rewrite H1, app_length in H. destruct t; [|cbn in H; lia].
  destruct c, d; cbn in *. congruence.
Qed.
Lemma between_adv c t d : crs c = t ++ crs d -> between c d = t.
Proof.
  intros H. unfold between. rewrite H, app_length.
  replace (length t + length (crs d) - length (crs d))%nat with (length t + 0)%nat by lia.
  rewrite firstn_app_2. cbn. apply app_nil_r.
Qed.

Definition cgood (nl : bool) (c : cursor) (r : cres) : Prop :=
  match r with
  | COk _ _ c' => cadv c c' /\ (nl = false -> (length (crs c') < length (crs c))%nat)
  | _ => True
  end.

Lemma clit_good ic w : forall c c', clit ic w c = Some c' -> cadv c c' /\ (w <> [] -> (length (crs c') < length (crs c))%nat).
Proof.
  induction w as [|w ws IH]; intros c c'; cbn [clit].
  - intros [= <-]. split; [apply cadv_refl|congruence].
  - destruct c as [p rs]; cbn [crs pre]. destruct rs as [|x r]; [discriminate|].
    destruct (_ =? w); [|discriminate]. intros H. apply IH in H as [H1 _].
    split; [eapply cadv_trans; [apply cadv_step|auto]|]. intros _. apply cadv_len in H1. cbn in *. lia.
Qed.

Section Loops.
Variable ev : expr -> frame -> cursor -> cres.
Hypothesis Hev : forall e f c, wf e = true -> cgood (nullable e) c (ev e f c).

Lemma cseq_good es : forall acc f c, forallb wf es = true ->
  cgood (forallb nullable es) c (cseq ev es acc f c).
Proof.
  induction es as [|e es IH]; intros acc f c Hw; cbn [cseq].
  - cbn. split; [apply cadv_refl|discriminate].
  - cbn in Hw. apply andb_true_iff in Hw as [He Hes].
    pose proof (Hev e f c He) as G. destruct (ev e f c) as [v f' c'| | | |]; cbn [cgood]; auto.
    destruct G as [G1 G2]. specialize (IH (v :: acc) f' c' Hes).
    destruct (cseq ev es (v :: acc) f' c') as [v2 f2 c2| | | |]; cbn in *; auto.
    destruct IH as [I1 I2]. split; [eapply cadv_trans; eauto|].
    intros En. apply cadv_len in G1, I1. apply andb_false_iff in En as [En|En]; [specialize (G2 En)|specialize (I2 En)]; lia.
Qed.

Lemma cchoice_good es : forall f c, forallb wf es = true ->
  cgood (existsb nullable es) c (cchoice ev es f c).
Proof.
  induction es as [|e es IH]; intros f c Hw; cbn [cchoice]; [exact I|].
  cbn in Hw. apply andb_true_iff in Hw as [He Hes].
  pose proof (Hev e [] c He) as G. destruct (ev e [] c) as [v f' c'| | | |]; cbn in *; auto.
  - destruct G as [G1 G2]. split; auto. intros En. apply orb_false_iff in En as [En _]. auto.
  - specialize (IH f c Hes). destruct (cchoice ev es f c) as [v2 f2 c2| | | |]; cbn in *; auto.
    destruct IH as [I1 I2]. split; auto. intros En. apply orb_false_iff in En as [_ En]. auto.
Qed.

Lemma cstar_good e k : wf e = true -> forall acc f c,
  match cstar ev k e acc f c with
  | COk v f' c' => f' = f /\ cadv c c' /\ exists l, v = VList (rev acc ++ l) /\ (l = [] -> c' = c) /\
      (l <> [] -> nullable e = false -> (length (crs c') < length (crs c))%nat)
  | CNo => False
  | _ => True
  end.
Proof.
  intros Hw. induction k as [|k IH]; intros acc f c; cbn [cstar]; auto.
  pose proof (Hev e [] c Hw) as G. destruct (ev e [] c) as [v f' c'| | | |]; cbn in G; auto.
  - destruct G as [G1 G2]. specialize (IH (v :: acc) f c').
    destruct (cstar ev k e (v :: acc) f c') as [v2 f2 c2| | | |]; auto.
    destruct IH as (-> & I1 & l & -> & I2 & I3). split; [auto|split; [eapply cadv_trans; eauto|]].
    exists (v :: l). split; [cbn; now rewrite <- app_assoc|]. split; [discriminate|].
    intros _ En. specialize (G2 En). apply cadv_len in I1. lia.
  - split; [auto|split; [apply cadv_refl|]]. exists []. rewrite app_nil_r. repeat split; auto; congruence.
Qed.

Lemma cthrow_good l recs : Forall (fun p => wf (snd p) = true) recs -> forall f c,
  cgood true c (cthrow ev l recs f c).
Proof.
  induction 1 as [|[ls e] recs He _ IH]; intros f c; cbn [cthrow]; [exact I|].
  destruct (existsb _ ls); auto.
  pose proof (Hev e f c He) as G. destruct (ev e f c) as [v f' c'| | | |]; cbn in *; auto.
  destruct G; split; auto. discriminate.
Qed.
End Loops.

Theorem ceval_good n : forall recs e f c, wf e = true -> recs_ok recs -> cgood (nullable e) c (ceval n recs e f c).
Proof.
  induction n as [|n IH]; intros recs e f c Hw Hr; [exact I|].
  cbn [ceval].
  assert (Hev : forall e f c, wf e = true -> cgood (nullable e) c (ceval n recs e f c)) by (intros; apply IH; auto).
  assert (Hrr : Forall (fun p => wf (snd p) = true) recs) by (eapply Forall_impl; [|exact Hr]; cbn; tauto).
  destruct e as [a e|l|l|l e|r|w ic want|v chars ranges ic invd| |e|e|e|e|e rc ls|l|cd]; cbn zeta;
    cbn [wf] in Hw; apply andb_true_iff in Hw as [_ Hw]; cbn [nullable].
  - pose proof (Hev e f c Hw) as G. destruct (ceval n recs e f c); auto.
    destruct (run_action _ _ _ _ _); cbn; auto.
  - apply cseq_good; auto.
  - apply cchoice_good; auto.
  - pose proof (Hev e [] c Hw) as G. destruct (ceval n recs e [] c); auto.
  - pose proof (Hev (rules r) [] c (wf_rules r)) as G. destruct (ceval n recs (rules r) [] c); cbn in *; auto.
    destruct G as [G1 G2]. split; auto. intros En. apply G2.
    destruct (nullable (rules r)) eqn:E; auto. apply null_rules in E. congruence.
  - destruct (clit ic w c) eqn:E; [|exact I]. apply clit_good in E as [E1 E2]. split; auto.
    destruct w; [discriminate|]. intros _. apply E2. discriminate.
  - destruct c as [p [|x r]]; cbn [crs pre]; [exact I|]. destruct (xorb _ _); [|exact I].
    split; [apply cadv_step|]. cbn. lia.
  - destruct c as [p [|x r]]; cbn [crs pre]; [exact I|]. split; [apply cadv_step|]. cbn. lia.
  - pose proof (Hev e [] c Hw) as G. destruct (ceval n recs e [] c); cbn; auto.
    split; [apply cadv_refl|discriminate].
  - apply andb_true_iff in Hw as [Hw Hn].
    pose proof (cstar_good _ Hev e (S (length (crs c))) Hw [] f c) as G.
    destruct (cstar _ _ _ _ _ _); cbn; auto. destruct G as (_ & G & _). split; auto. discriminate.
  - apply andb_true_iff in Hw as [Hw Hn]. apply negb_true_iff in Hn.
    pose proof (cstar_good _ Hev e (S (length (crs c))) Hw [] f c) as G.
    destruct (cstar _ _ _ _ _ _) as [v2 f2 c2| | | |]; cbn; auto.
    destruct G as (_ & G & l & -> & G1 & G2). cbn [rev app]. destruct l; cbn; auto.
    split; auto. intros _. apply G2; auto. discriminate.
  - pose proof (Hev e [] c Hw) as G. destruct (ceval n recs e [] c); cbn in *; auto.
    + destruct G. split; auto. discriminate.
    + split; [apply cadv_refl|discriminate].
  - apply andb_true_iff in Hw as [Hw Hd]. apply andb_true_iff in Hw as [Hw Hrc].
    apply IH; auto. constructor; auto. cbn. split; auto. now apply Nat.leb_le.
  - apply cthrow_good; auto.
  - exact I.
Qed.

(** ** Termination *)
Section LoopsFuel.
Variable ev : expr -> frame -> cursor -> cres.
Variable n : nat.
Hypothesis Hev : forall e f c, wf e = true -> cgood (nullable e) c (ev e f c).
Hypothesis Hf : forall e f c, wf e = true -> (slack * length (crs c) + depth e <= n)%nat -> ev e f c <> CFuel.

Lemma cseq_fuel es : forall acc f c, forallb wf es = true ->
  (slack * length (crs c) + seq_depth depth es <= n \/ slack * length (crs c) + slack <= n)%nat ->
  cseq ev es acc f c <> CFuel.
Proof.
  induction es as [|e es IH]; intros acc f c Hw Hn; cbn [cseq]; [discriminate|].
  cbn in Hw. apply andb_true_iff in Hw as [He Hes].
  cbn [seq_depth] in Hn. fold (seq_depth depth) in Hn.
  pose proof (wf_inv e He) as Hd.
  assert (Hne : ev e f c <> CFuel) by (apply Hf; auto; destruct Hn; lia).
  pose proof (Hev e f c He) as G.
  destruct (ev e f c) as [v f' c'| | | |]; try discriminate; [|congruence].
  destruct G as (G1 & G3). apply IH; auto. apply cadv_len in G1.
  destruct (nullable e) eqn:En.
  - destruct Hn; [left|right]; unfold slack in *; lia.
  - right. specialize (G3 eq_refl). unfold slack in *. destruct Hn; lia.
Qed.

Lemma cchoice_fuel es : forall f c, forallb wf es = true ->
  (slack * length (crs c) + max_depth depth es <= n)%nat -> cchoice ev es f c <> CFuel.
Proof.
  induction es as [|e es IH]; intros f c Hw Hn; cbn [cchoice]; [discriminate|].
  cbn in Hw. apply andb_true_iff in Hw as [He Hes].
  cbn [max_depth] in Hn. fold (max_depth depth) in Hn.
  assert (Hne : ev e [] c <> CFuel) by (apply Hf; auto; lia).
  destruct (ev e [] c) as [v f' c'| | | |]; try discriminate; [|congruence].
  apply IH; auto. lia.
Qed.

Lemma cstar_fuel e k : wf e = true -> nullable e = false -> forall acc f c,
  (slack * length (crs c) + depth e <= n)%nat -> (length (crs c) < k)%nat -> cstar ev k e acc f c <> CFuel.
Proof.
  intros Hw Hnl. induction k as [|k IH]; intros acc f c Hn Hk; cbn [cstar]; [lia|].
  assert (Hne : ev e [] c <> CFuel) by (apply Hf; auto; lia).
  pose proof (Hev e [] c Hw) as G.
  destruct (ev e [] c) as [v f' c'| | | |]; try discriminate; [|congruence].
  destruct G as (G1 & G3). specialize (G3 Hnl). apply IH; unfold slack in *; lia.
Qed.

Lemma cthrow_fuel l recs : recs_ok recs -> forall f c,
  (slack * length (crs c) + throw_depth <= n)%nat -> cthrow ev l recs f c <> CFuel.
Proof.
  induction 1 as [|[ls e] recs [Hw Hd] _ IH]; intros f c Hn; cbn [cthrow]; [discriminate|].
  cbn in Hw, Hd. destruct (existsb _ ls); [|apply IH; auto].
  assert (Hne : ev e f c <> CFuel) by (apply Hf; auto; lia).
  destruct (ev e f c) as [v f' c'| | | |]; try discriminate; [|congruence]. apply IH; auto.
Qed.
End LoopsFuel.

Theorem ceval_fuel n : forall recs e f c, wf e = true -> recs_ok recs ->
  (slack * length (crs c) + depth e <= n)%nat -> ceval n recs e f c <> CFuel.
Proof.
  induction n as [|n IH]; intros recs e f c Hw Hr Hn.
  { destruct e; cbn in Hn; unfold depth in Hn; cbn in Hn; lia. }
  cbn [ceval].
  assert (Hg : forall e f c, wf e = true -> cgood (nullable e) c (ceval n recs e f c))
    by (intros; apply ceval_good; auto).
  assert (Hf : forall e f c, wf e = true -> (slack * length (crs c) + depth e <= n)%nat -> ceval n recs e f c <> CFuel)
    by (intros; apply IH; auto).
  destruct e as [a e|l|l|l e|r|w ic want|v chars ranges ic invd| |e|e|e|e|e rc ls|l|cd]; cbn zeta;
    cbn [wf] in Hw; apply andb_true_iff in Hw as [_ Hw]; unfold depth in Hn; cbn [depth_with] in Hn;
    fold depth in Hn.
  - specialize (Hf e f c Hw ltac:(lia)). destruct (ceval n recs e f c); try discriminate; [|congruence].
    destruct (run_action _ _ _ _ _); discriminate.
  - eapply cseq_fuel; eauto. left. lia.
  - eapply cchoice_fuel; eauto. lia.
  - specialize (Hf e [] c Hw ltac:(lia)). destruct (ceval n recs e [] c); try discriminate; congruence.
  - pose proof (rank_rules r). specialize (Hf (rules r) [] c (wf_rules r) ltac:(lia)).
    destruct (ceval n recs (rules r) [] c); try discriminate; congruence.
  - destruct (clit ic w c); discriminate.
  - destruct (crs c); try discriminate. destruct (xorb _ _); discriminate.
  - destruct (crs c); discriminate.
  - specialize (Hf e [] c Hw ltac:(lia)). destruct (ceval n recs e [] c); try discriminate; congruence.
  - apply andb_true_iff in Hw as [Hw Hnl]. apply negb_true_iff in Hnl. eapply cstar_fuel; eauto; lia.
  - apply andb_true_iff in Hw as [Hw Hnl]. apply negb_true_iff in Hnl.
    assert (E : cstar (ceval n recs) (S (length (crs c))) e [] f c <> CFuel)
      by (eapply cstar_fuel; eauto; lia).
    destruct (cstar _ _ _ _ _ _) as [v2 f2 c2| | | |]; try discriminate; try congruence.
    destruct v2; try discriminate. destruct l; discriminate.
  - specialize (Hf e [] c Hw ltac:(lia)). destruct (ceval n recs e [] c); try discriminate; congruence.
  - apply andb_true_iff in Hw as [Hw Hd]. apply andb_true_iff in Hw as [Hw Hrc].
    apply IH; auto; [|lia]. constructor; auto. cbn. split; auto. now apply Nat.leb_le.
  - eapply cthrow_fuel; eauto. lia.
  - discriminate.
Qed.

(** ** More fuel does not change the result *)
Section LoopsMono.
Variables ev ev' : expr -> frame -> cursor -> cres.
Hypothesis Hm : forall e f c, ev e f c <> CFuel -> ev' e f c = ev e f c.

Lemma cseq_mono es : forall acc f c, cseq ev es acc f c <> CFuel -> cseq ev' es acc f c = cseq ev es acc f c.
Proof.
  induction es as [|e es IH]; intros acc f c H; cbn [cseq] in *; auto.
  rewrite Hm by (intros E; rewrite E in H; cbn in H; congruence). destruct (ev e f c); auto.
Qed.
Lemma cchoice_mono es : forall f c, cchoice ev es f c <> CFuel -> cchoice ev' es f c = cchoice ev es f c.
Proof.
  induction es as [|e es IH]; intros f c H; cbn [cchoice] in *; auto.
  rewrite Hm by (intros E; rewrite E in H; cbn in H; congruence). destruct (ev e [] c); auto.
Qed.
Lemma cstar_mono e k : forall acc f c, cstar ev k e acc f c <> CFuel -> cstar ev' k e acc f c = cstar ev k e acc f c.
Proof.
  induction k as [|k IH]; intros acc f c H; cbn [cstar] in *; auto.
  rewrite Hm by (intros E; rewrite E in H; cbn in H; congruence). destruct (ev e [] c); auto.
Qed.
Lemma cthrow_mono l recs : forall f c, cthrow ev l recs f c <> CFuel -> cthrow ev' l recs f c = cthrow ev l recs f c.
Proof.
  induction recs as [|[ls e] recs IH]; intros f c H; cbn [cthrow] in *; auto.
  destruct (existsb _ ls); auto.
  rewrite Hm by (intros E; rewrite E in H; cbn in H; congruence). destruct (ev e f c); auto.
Qed.
End LoopsMono.

Lemma ceval_mono n : forall m recs e f c, (n <= m)%nat -> ceval n recs e f c <> CFuel -> ceval m recs e f c = ceval n recs e f c.
Proof.
  induction n as [|n IH]; intros m recs e f c Hle H; [cbn in H; congruence|].
  destruct m as [|m]; [lia|].
  assert (Hm : forall recs e f c, ceval n recs e f c <> CFuel -> ceval m recs e f c = ceval n recs e f c)
    by (intros; apply IH; auto; lia). clear IH.
  cbn [ceval] in H |- *.
  destruct e as [a e|l|l|l e|r|w ic want|v chars ranges ic invd| |e|e|e|e|e rc ls|l|cd]; auto;
    try (rewrite Hm by (intros E; rewrite E in H; cbn in H; congruence); reflexivity).
  - apply cseq_mono; auto.
  - apply cchoice_mono; auto.
  - apply cstar_mono; auto.
  - f_equal. apply cstar_mono; auto. intros E. rewrite E in H. cbn in H. congruence.
  - apply cthrow_mono; auto.
Qed.

(** ** The evaluator without fuel, and its equations *)
Definition need (e : expr) (c : cursor) : nat := (slack * length (crs c) + depth e)%nat.
Definition cev (recs : list (list string * expr)) (e : expr) (f : frame) (c : cursor) : cres :=
  ceval (need e c) recs e f c.

Lemma cev_ceval n recs e f c : wf e = true -> recs_ok recs -> (need e c <= n)%nat -> ceval n recs e f c = cev recs e f c.
Proof. intros. apply ceval_mono; auto. apply ceval_fuel; auto. Qed.

Lemma ceval_cev n recs e f c : wf e = true -> recs_ok recs -> ceval n recs e f c <> CFuel -> ceval n recs e f c = cev recs e f c.
Proof.
  intros Hw Hr H. destruct (Nat.le_ge_cases n (need e c)).
  - symmetry. apply ceval_mono; auto.
  - now apply cev_ceval.
Qed.

Lemma cev_good recs e f c : wf e = true -> recs_ok recs -> cgood (nullable e) c (cev recs e f c).
Proof. intros. now apply ceval_good. Qed.
Lemma cev_fuel recs e f c : wf e = true -> recs_ok recs -> cev recs e f c <> CFuel.
Proof. intros. now apply ceval_fuel. Qed.

Section Equations.
Variable recs : list (list string * expr).
Hypothesis Hr : recs_ok recs.
Let ev := cev recs.

(** One unfolding of the evaluator, with sub-results given without fuel. *)
Lemma cev_unfold e f c : wf e = true ->
  cev recs e f c =
  match e with
  | EAction a e1 =>
    match cev recs e1 f c with
    | COk _ f' c' =>
      match run_action O a f' (pos_at c) (ctext c c') with
      | AOk v => COk v f' c' | AErr _ k => CBad {| pe_kind := k; pe_pos := pos_at c |} | APanic => CPan end
    | r => r
    end
  | ESeq es => cseq (cev recs) es [] f c
  | EChoice es => cchoice (cev recs) es f c
  | ELabel l e1 => match cev recs e1 [] c with COk v _ c' => COk v (set_label l v f) c' | r => r end
  | ERule r => cpop f (cev recs (rules r) [] c)
  | ELit w ic want => match clit ic w c with Some c' => COk (VBytes (ctext c c')) f c' | None => CNo end
  | EClass _ chars ranges ic invd =>
    match crs c with
    | [] => CNo
    | x :: r =>
      if xorb invd (in_class chars ranges (if ic then to_lower x else x))
      then COk (VBytes (encode [x])) f {| pre := x :: pre c; crs := r |} else CNo
    end
  | EAny => match crs c with [] => CNo | x :: r => COk (VBytes (encode [x])) f {| pre := x :: pre c; crs := r |} end
  | ENot e1 => match cev recs e1 [] c with COk _ _ _ => CNo | CNo => COk VNil f c | r => r end
  | EStar e1 => cstar (cev recs) (S (length (crs c))) e1 [] f c
  | EPlus e1 => plus_res (cstar (cev recs) (S (length (crs c))) e1 [] f c)
  | EOpt e1 => match cev recs e1 [] c with COk v _ c' => COk v f c' | CNo => COk VNil f c | r => r end
  | ERecover e1 r ls => cev ((ls, r) :: recs) e1 f c
  | EThrow l => cthrow (cev recs) l recs f c
  | EState cd => CBad {| pe_kind := run_code cd; pe_pos := pos_at c |}
  end.
Proof.
  intros Hw. pose proof (cev_fuel recs e f c Hw Hr) as Hf.
  unfold cev at 1. unfold cev at 1 in Hf. destruct (need e c) as [|n] eqn:En; [cbn in Hf; congruence|].
  cbn [ceval] in Hf |- *. clear En. cbn [wf] in Hw.
  destruct e as [a e|l|l|l e|r|w ic want|v chars ranges ic invd| |e|e|e|e|e rc ls|l|cd]; auto;
    cbn [wf] in Hw; apply andb_true_iff in Hw as [_ Hw]; cbn zeta in *.
  - rewrite <- (ceval_cev n) by (auto; intros E; rewrite E in Hf; cbn in Hf; congruence). reflexivity.
  - (* seq *)
    symmetry. revert Hf Hw. generalize (@nil val) f c. induction l as [|e l IH]; intros acc f0 c0 Hf Hw; cbn [cseq] in *; auto.
    cbn in Hw. apply andb_true_iff in Hw as [He Hw].
    rewrite <- (ceval_cev n) by (auto; intros E; rewrite E in Hf; cbn in Hf; congruence).
    destruct (ceval n recs e f0 c0); auto.
  - symmetry. revert Hf Hw. generalize f c. induction l as [|e l IH]; intros f0 c0 Hf Hw; cbn [cchoice] in *; auto.
    cbn in Hw. apply andb_true_iff in Hw as [He Hw].
    rewrite <- (ceval_cev n) by (auto; intros E; rewrite E in Hf; cbn in Hf; congruence).
    destruct (ceval n recs e [] c0); auto.
  - rewrite <- (ceval_cev n) by (auto; intros E; rewrite E in Hf; cbn in Hf; congruence). reflexivity.
  - rewrite <- (ceval_cev n) by (auto using wf_rules; intros E; rewrite E in Hf; cbn in Hf; congruence). reflexivity.
  - rewrite <- (ceval_cev n) by (auto; intros E; rewrite E in Hf; cbn in Hf; congruence). reflexivity.
  - apply andb_true_iff in Hw as [Hw _].
    assert (G : forall k acc f c, cstar (ceval n recs) k e acc f c <> CFuel ->
              cstar (ceval n recs) k e acc f c = cstar (cev recs) k e acc f c).
    { clear - Hr Hw. induction k as [|k IH]; intros acc f c H; cbn [cstar] in *; auto.
      rewrite <- (ceval_cev n) by (auto; intros E; rewrite E in H; cbn in H; congruence).
      destruct (ceval n recs e [] c); auto. }
    now apply G.
  - apply andb_true_iff in Hw as [Hw _].
    assert (G : forall k acc f c, cstar (ceval n recs) k e acc f c <> CFuel ->
              cstar (ceval n recs) k e acc f c = cstar (cev recs) k e acc f c).
    { clear - Hr Hw. induction k as [|k IH]; intros acc f c H; cbn [cstar] in *; auto.
      rewrite <- (ceval_cev n) by (auto; intros E; rewrite E in H; cbn in H; congruence).
      destruct (ceval n recs e [] c); auto. }
    f_equal. apply G. intros E. rewrite E in Hf. cbn in Hf. congruence.
  - rewrite <- (ceval_cev n) by (auto; intros E; rewrite E in Hf; cbn in Hf; congruence). reflexivity.
  - apply andb_true_iff in Hw as [Hw Hd]. apply andb_true_iff in Hw as [Hw Hrc].
    apply ceval_cev; auto. constructor; auto. cbn. split; auto. now apply Nat.leb_le.
  - assert (G : forall l0, recs_ok l0 -> cthrow (ceval n recs) l l0 f c <> CFuel ->
              cthrow (ceval n recs) l l0 f c = cthrow (cev recs) l l0 f c).
    { clear - Hr. induction 1 as [|[ls e] l0 [He Hd] _ IH]; intros H; cbn [cthrow] in *; auto.
      destruct (existsb _ ls); auto.
      rewrite <- (ceval_cev n) by (auto; intros E; rewrite E in H; cbn in H; congruence).
      destruct (ceval n recs e f c); auto. }
    now apply G.
Qed.
End Equations.
End WithOracles.
