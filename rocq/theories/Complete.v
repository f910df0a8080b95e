(** Whatever can follow the place of a syntax error is covered by the list of what was
    expected: compare the run on the rejected text with the run on a text that agrees with it up
    to that place and goes on with something the list does not mention. *)
From Verif Require Import Bytes Utf8 Utf8Proofs Oracles Ast PegSyntax Grammar Actions Engine EngineBasics CleanEval Bridge Viable Listed.
From Coq Require Import ZifyBool ZifyN ZifyNat.

(** ** Which texts an atom matches at their beginning *)
Definition hits (a : expr) (t : list N) : bool :=
  match a with
  | ELit s ic _ => if list_eq_dec N.eq_dec (map (lower_if ic) (firstn (length s) t)) s then true else false
  | EClass _ chars ranges ic invd => match t with x :: _ => xorb invd (in_class chars ranges (lower_if ic x)) | [] => false end
  | _ => false
  end.
Definition atom_want (a : expr) : string := match a with ELit _ _ w | EClass w _ _ _ _ => w | _ => "" end.
Definition covers (w : string) (t : list N) : bool :=
  (String.eqb w "!." && match t with [] => true | _ => false end) ||
  existsb (fun a => String.eqb (atom_want a) w && hits a t) atoms.
(** The text [u ++ t] has a literal of the grammar that begins in [u] and ends in [t]. *)
Definition crosses (u t : list N) : bool :=
  existsb (fun a => match a with
    | ELit s ic _ => existsb (fun k => Nat.leb k (length u) && hits a (skipn (length u - k) u ++ t)) (seq 1 (length s - 1))
    | _ => false end) atoms.

(** ** Progress of the list *)
Definition mfle (s s' : state) : Prop :=
  (off (mf_pos s) < off (mf_pos s'))%Z \/ (off (mf_pos s) = off (mf_pos s') /\ incl (mf_exp s) (mf_exp s')).
Lemma mfle_refl s : mfle s s.
Proof. right. split; [reflexivity|apply incl_refl]. Qed.
Lemma mfle_trans a c d : mfle a c -> mfle c d -> mfle a d.
Proof. unfold mfle. intros [H1|[H1 H2]] [H3|[H3 H4]]; try (left; lia). right. split; [lia|eapply incl_tran; eauto]. Qed.
Lemma mfle_mf s s' : mf s' = mf s -> mfle s s'.
Proof. unfold mf, mfle. intros [= -> ->]. right. split; [reflexivity|apply incl_refl]. Qed.
Lemma mfle_fail inv fl p w s : mfle s (fail_at inv fl p w s).
Proof.
  unfold fail_at. destruct (negb _); [apply mfle_refl|]. destruct (Z.ltb_spec (off p) (off (mf_pos s))); [apply mfle_refl|].
  destruct (Z.ltb_spec (off (mf_pos s)) (off p)); unfold mfle; cbn [mf_pos mf_exp]; [left; lia|]. right. split; [reflexivity|apply incl_appl, incl_refl].
Qed.
Lemma mfle_step p0 s s' : step p0 s s' -> mfle s s'.
Proof. destruct 1; [apply mfle_mf; reflexivity|apply mfle_mf, mf_read|apply mfle_mf; reflexivity|apply mfle_fail|apply mfle_mf; reflexivity]. Qed.
Lemma mfle_steps p0 s s' : steps p0 s s' -> mfle s s'.
Proof. induction 1 as [|a c d _ IH H]; [apply mfle_refl|]. eapply mfle_trans; [exact IH|eapply mfle_step; exact H]. Qed.

(** A failure at [p] (or behind it) has been recorded, at [p] with an entry in [W]. *)
Definition rec_at (p : position) (W : string -> Prop) (s : state) : Prop :=
  (off p < off (mf_pos s))%Z \/ (off p = off (mf_pos s) /\ exists w, W w /\ In w (mf_exp s)).
Lemma rec_mfle p W s s' : rec_at p W s -> mfle s s' -> rec_at p W s'.
Proof.
  unfold rec_at, mfle. intros [H1|(H1 & w & H2 & H3)] [H4|[H4 H5]]; try (left; lia). right. split; [lia|eauto].
Qed.
Lemma rec_steps p W p0 s s' : rec_at p W s -> steps p0 s s' -> rec_at p W s'.
Proof. intros H Hs. eapply rec_mfle; [exact H|eapply mfle_steps; exact Hs]. Qed.
Lemma rec_restore p W s pp : rec_at p W s -> rec_at p W (restore s pp).
Proof. unfold restore. destruct (_ =? _)%Z; exact (fun H => H). Qed.
Lemma rec_fail inv p w s (W : string -> Prop) : W (signed inv w) -> rec_at p W (fail_at inv inv p w s).
Proof.
  intros H. unfold fail_at. rewrite eqb_reflx. cbn [negb]. destruct (Z.ltb_spec (off p) (off (mf_pos s))); [left; lia|].
  destruct (Z.ltb_spec (off (mf_pos s)) (off p)); right; cbn [mf_pos mf_exp]; (split; [lia|]); exists (signed inv w); (split; [exact H|]); [now left|].
  apply in_or_app. right. now left.
Qed.
Lemma rec_weak p (W W' : string -> Prop) s : (forall w, W w -> W' w) -> rec_at p W s -> rec_at p W' s.
Proof. unfold rec_at. intros H [H1|(H1 & w & H2 & H3)]; [now left|]. right. split; [exact H1|]. exists w. auto. Qed.

(** ** Failing leaves a trace *)
Fixpoint flatr (n : nat) (e : expr) : bool :=
  match n with
  | 0%nat => false
  | S n' =>
    match e with
    | ELit [_] _ _ | EClass _ _ _ _ _ | EAny => true
    | ERule r => flatr n' (rules r)
    | EChoice es => forallb (flatr n') es && match es with [] => false | _ => true end
    | ENot e1 => flatr n' e1
    | _ => false
    end
  end.
Fixpoint recd (e : expr) : bool :=
  match e with
  | EAction _ e1 | ELabel _ e1 | EPlus e1 | ERecover e1 _ _ => recd e1
  | ESeq es => match not_any es with Some e1 => flatr 10 e1 | None => forallb recd es end
  | EChoice es => existsb recd es
  | ERule r => true
  | ELit _ _ _ | EClass _ _ _ _ _ | EAny | EStar _ | EOpt _ | EState _ => true
  | ENot e1 => flatr 10 e1
  | EThrow _ => false
  end.
Lemma recd_rules r : recd (rules r) = true.
Proof. destruct r; vm_compute; reflexivity. Qed.

Section T.
Context (O : oracles).

Lemma flat_rec k : forall n inv recs e f s, flatr k e = true -> wf e = true -> recs_ok recs ->
  match eval O n inv recs e f s with
  | RVal _ _ s' => inv = true -> rec_at (at_ (pt s)) (fun w => In w (wants k inv e)) s'
  | RFail s' => inv = false -> rec_at (at_ (pt s)) (fun w => In w (wants k inv e)) s'
  | _ => True end.
Proof.
  induction k as [|k IHk]; intros n inv recs e f s0 Hf Hw Hr; [discriminate|].
  destruct n as [|n]; [exact Logic.I|].
  cbn [eval]. set (s := tick s0). change (pt s0) with (pt s). clearbody s. clear s0.
  assert (Hg : forall inv p0 e f s, wf e = true -> adv p0 (pt s) -> good p0 (nullable e) s (eval O n inv recs e f s))
    by (intros; apply eval_good; auto).
  destruct e as [a e|l|l|l e|r|w ic want|v chars ranges ic invd| |e|e|e|e|e rc ls|l|cd]; try discriminate Hf; cbn [flatr] in Hf; cbn zeta;
    cbn [wf] in Hw; apply andb_true_iff in Hw as [_ Hw]; cbn [wants].
  - apply andb_true_iff in Hf as [Hf Hne].
    enough (Hl : forall s', pt s' = pt s -> 
      match choice_loop (eval O n inv recs) l f s' with
      | RVal _ _ s2 => inv = true -> rec_at (at_ (pt s)) (fun w => In w (flat_map (wants k inv) l)) s2
      | RFail s2 => inv = false -> l = [] \/ rec_at (at_ (pt s)) (fun w => In w (flat_map (wants k inv) l)) s2
      | _ => True end).
    { specialize (Hl s eq_refl). destruct (choice_loop _ l f s); auto. intros Hi. destruct (Hl Hi) as [E|E]; [rewrite E in Hne; discriminate Hne|exact E]. }
    clear Hne. induction l as [|e l IHl]; intros s' Ep; cbn [choice_loop]; [auto|].
    cbn [forallb] in Hf, Hw. apply andb_true_iff in Hf as [Hf1 Hf2]. apply andb_true_iff in Hw as [Hw1 Hw2].
    pose proof (IHk n inv recs e [] s' Hf1 Hw1 Hr) as B. pose proof (Hg inv (pt s') e [] s' Hw1 (adv_refl _)) as G.
    destruct (eval O n inv recs e [] s') as [v f' s2|s2|s2|]; auto.
    + cbn [pop]. intros Hi. rewrite <- Ep. eapply rec_weak; [|apply (B Hi)]. intros w Hin. cbn. apply in_or_app. now left.
    + destruct G as (G & _). assert (Ep2 : pt s2 = pt s) by congruence. specialize (IHl Hf2 Hw2 s2 Ep2).
      pose proof (choice_loop_good (pt s) (eval O n inv recs) (Hg inv (pt s)) l f s2 Hw2) as Gl.
      destruct (choice_loop (eval O n inv recs) l f s2) as [v f' s3|s3|s3|]; auto.
      * intros Hi. eapply rec_weak; [|apply (IHl Hi)]. intros w Hin. cbn. apply in_or_app. now right.
      * intros Hi. right. eapply rec_steps; [rewrite <- Ep; eapply rec_weak; [|apply (B Hi)]; intros w Hin; cbn; apply in_or_app; now left|].
        rewrite Ep2 in Gl. apply (Gl (adv_refl _)).
  - pose proof (IHk n inv recs (rules r) [] s Hf (wf_rules r) Hr) as B. destruct (eval O n inv recs (rules r) [] s); auto.
  - destruct (lit_loop ic w s) as [[s'|] s''].
    + intros ->. apply rec_fail. now left.
    + intros ->. apply rec_restore. apply rec_fail. now left.
  - destruct (at_eof (pt s)) eqn:E; [intros ->; apply rec_fail; now left|]. destruct (xorb _ _); intros ->; apply rec_fail; now left.
  - destruct (at_eof (pt s)) eqn:E; intros ->; apply rec_fail; now left.
  - pose proof (IHk n (negb inv) recs e [] s Hf Hw Hr) as B.
    destruct (eval O n (negb inv) recs e [] s) as [v f' s'|s'|s'|]; auto; intros ->; apply rec_restore, B; reflexivity.
Qed.

(** A failing expression has recorded a failure not before the place where it began, or there
    has been an error. *)
Definition trace (p : position) (s : state) : Prop := errs s <> [] \/ rec_at p (fun _ => True) s.
Lemma trace_steps p p0 s s' : trace p s -> steps p0 s s' -> trace p s'.
Proof. intros [H|H] Hs; [left; eapply errs_steps; eauto|right; eapply rec_steps; eauto]. Qed.
Lemma trace_restore p s pp : trace p s -> trace p (restore s pp).
Proof. unfold restore. destruct (_ =? _)%Z; exact (fun H => H). Qed.
Lemma trace_le p p' s : trace p' s -> (off p <= off p')%Z -> trace p s.
Proof.
  unfold trace, rec_at. intros [H|[H|(H & w & _ & Hw)]] Hl; [now left|right; left; lia|].
  right. destruct (Z.eq_dec (off p) (off p')) as [E|E]; [right; split; [lia|eauto]|left; lia].
Qed.
Lemma adv_le p p' : adv p p' -> (off (at_ p) <= off (at_ p'))%Z.
Proof. intros H. apply adv_spec in H as (t & _ & E). lia. Qed.

Definition fails_traced (ev : expr -> frame -> state -> res) (e : expr) : Prop :=
  forall f s, match ev e f s with RFail s' => trace (at_ (pt s)) s' | _ => True end.

Lemma seq_traced (ev : expr -> frame -> state -> res) start es :
  (forall p0 e f s, wf e = true -> adv p0 (pt s) -> good p0 (nullable e) s (ev e f s)) ->
  Forall (fails_traced ev) es -> forallb wf es = true -> forall acc f s,
  match seq_loop ev start es acc f s with RFail s' => trace (at_ (pt s)) s' | _ => True end.
Proof.
  intros Hg Hf. induction Hf as [|e es He _ IH]; intros Hw acc f s; cbn [seq_loop]; [exact Logic.I|].
  cbn [forallb] in Hw. apply andb_true_iff in Hw as [Hw1 Hw2].
  pose proof (He f s) as B. pose proof (Hg (pt s) e f s Hw1 (adv_refl _)) as G.
  destruct (ev e f s) as [v f' s'|s'|s'|]; auto.
  - specialize (IH Hw2 (v :: acc) f' s'). destruct (seq_loop ev start es (v :: acc) f' s'); auto.
    eapply trace_le; [exact IH|]. apply adv_le, G.
  - now apply trace_restore.
Qed.
Lemma notany_rec n recs e1 f s : flatr 10 e1 = true -> wf (ESeq [ENot e1; EAny]) = true -> recs_ok recs ->
  match eval O n false recs (ESeq [ENot e1; EAny]) f s with
  | RFail s' => rec_at (at_ (pt s)) (fun w => w = "."%string \/ In w (wants 10 true e1)) s' | _ => True end.
Proof.
  intros Hf Hw Hr. apply wf_seq2 in Hw as [Hw1 Hw2]. destruct n as [|n]; [exact Logic.I|]. cbn [eval seq_loop].
  change (pt s) with (pt (tick s)). set (s1 := tick s). clearbody s1.
  destruct n as [|n]; [exact Logic.I|]. cbn [eval]. change (pt s1) with (pt (tick s1)). set (s2 := tick s1). clearbody s2.
  cbn [wf] in Hw1. apply andb_true_iff in Hw1 as [_ Hw1].
  pose proof (flat_rec 10 n true recs e1 [] s2 Hf Hw1 Hr) as B. pose proof (eval_good O (pt s2) n true recs e1 [] s2 Hw1 Hr (adv_refl _)) as G. cbn [negb].
  destruct (eval O n true recs e1 [] s2) as [v f' s'|s'|s'|]; auto.
  - apply rec_restore, rec_restore. eapply rec_weak; [|apply B; reflexivity]. intros w Hin. now right.
  - destruct G as (G & _). rewrite restore_back by (rewrite G; apply adv_refl). cbn [set_pt pt tick]. destruct (at_eof (pt s2)) eqn:E; auto.
    apply rec_restore. apply (rec_fail false (at_ (pt s2)) "."). now left.
Qed.
Theorem traced n : forall recs e f s, recd e = true -> wf e = true -> recs_ok recs ->
  match eval O n false recs e f s with RFail s' => trace (at_ (pt s)) s' | _ => True end.
Proof.
  induction n as [|n IH]; intros recs e f s0 Hd Hw Hr; [exact Logic.I|].
  destruct (eval O (S n) false recs e f s0) as [|sf| |] eqn:Ev; auto. revert Ev.
  cbn [eval]. set (s := tick s0). change (pt s0) with (pt s). clearbody s. clear s0.
  assert (Hg : forall inv p0 e f s, wf e = true -> adv p0 (pt s) -> good p0 (nullable e) s (eval O n inv recs e f s))
    by (intros; apply eval_good; auto).
  assert (Ht : forall recs e f s, recd e = true -> wf e = true -> recs_ok recs -> match eval O n false recs e f s with RFail s' => trace (at_ (pt s)) s' | _ => True end) by (intros; apply IH; auto).
  destruct e as [a e|l|l|l e|r|w ic want|v chars ranges ic invd| |e|e|e|e|e rc ls|l|cd]; cbn zeta; try discriminate Hd; pose proof Hw as Hw0;
    cbn [wf] in Hw; apply andb_true_iff in Hw as [_ Hw]; cbn [recd] in Hd.
  - pose proof (Ht recs e f s Hd Hw Hr) as B. destruct (eval O n false recs e f s) as [v f' s'|s'|s'|]; try discriminate.
    + destruct (run_action _ _ _ _ _); discriminate.
    + now intros [= <-].
  - destruct (not_any l) as [e1|] eqn:En.
    + destruct l as [|[] [|[] [|]]]; try discriminate. injection En as ->. intros Ev.
      right.
      assert (B : forall s1, match seq_loop (eval O n false recs) (pt s1) [ENot e1; EAny] [] f s1 with RFail s' => rec_at (at_ (pt s1)) (fun _ => True) s' | _ => True end).
      { intros s1. clear - Hd Hw0 Hr. destruct n as [|n]; [exact Logic.I|]. apply wf_seq2 in Hw0 as [Hw1 Hw2]. cbn [seq_loop eval].
        change (pt s1) with (pt (tick s1)). set (s2 := tick s1). clearbody s2. cbn [wf] in Hw1. apply andb_true_iff in Hw1 as [_ Hw1].
        pose proof (flat_rec 10 n true recs e1 [] s2 Hd Hw1 Hr) as B. pose proof (eval_good O (pt s2) n true recs e1 [] s2 Hw1 Hr (adv_refl _)) as G. cbn [negb].
        destruct (eval O n true recs e1 [] s2) as [v f' s'|s'|s'|]; auto.
        - apply rec_restore, rec_restore. eapply rec_weak; [|apply B; reflexivity]. auto.
        - destruct G as (G & _). rewrite restore_back by (rewrite G; apply adv_refl). cbn [set_pt pt tick]. destruct (at_eof (pt s2)) eqn:E; auto.
          apply rec_restore. now apply (rec_fail false (at_ (pt s2)) "."). }
      specialize (B s). rewrite Ev in B. exact B.
    + intros Ev. pose proof (seq_traced (eval O n false recs) (pt s) l (Hg false)) as B.
      assert (Hfl : Forall (fails_traced (eval O n false recs)) l).
      { apply Forall_forall. intros e He f0 s0. rewrite forallb_forall in Hd, Hw. apply Ht; auto. }
      specialize (B Hfl Hw [] f s). rewrite Ev in B. exact B.
  - intros Ev. apply existsb_exists in Hd as (e & Hin & He).
    assert (Hl : forall s', pt s' = pt s -> (In e l \/ trace (at_ (pt s)) s') ->
      match choice_loop (eval O n false recs) l f s' with RFail s2 => trace (at_ (pt s)) s2 | _ => True end).
    { clear Ev Hin Hw0. induction l as [|e0 l IHl]; intros s' Ep Hor; cbn [choice_loop].
      - destruct Hor as [[]|Hor]. exact Hor.
      - cbn [forallb] in Hw. apply andb_true_iff in Hw as [Hw1 Hw2].
        pose proof (Hg false (pt s') e0 [] s' Hw1 (adv_refl _)) as G.
        pose proof (fun H => Ht recs e0 [] s' H Hw1 Hr) as B.
        destruct (eval O n false recs e0 [] s') as [v f' s2|s2|s2|]; auto; try exact Logic.I.
        destruct G as (G & Gs). apply IHl; [exact Hw2|congruence|]. destruct Hor as [[->|Hor]|Hor]; auto.
        + right. rewrite <- Ep. now apply B.
        + right. eapply trace_steps; eauto. }
    specialize (Hl s eq_refl (or_introl Hin)). rewrite Ev in Hl. exact Hl.
  - pose proof (Ht recs e [] s Hd Hw Hr) as B. destruct (eval O n false recs e [] s) as [v f' s'|s'|s'|]; try discriminate. now intros [= <-].
  - pose proof (Ht recs (rules r) [] s (recd_rules r) (wf_rules r) Hr) as B. destruct (eval O n false recs (rules r) [] s) as [v f' s'|s'|s'|]; try discriminate. now intros [= <-].
  - destruct (lit_loop ic w s) as [[s'|] s'']; [discriminate|]. intros [= <-]. apply trace_restore. right. apply (rec_fail false). exact Logic.I.
  - destruct (at_eof (pt s)) eqn:E; [|destruct (xorb _ _); [discriminate|]]; intros [= <-]; right; apply (rec_fail false); exact Logic.I.
  - destruct (at_eof (pt s)) eqn:E; [|discriminate]. intros [= <-]. right. apply (rec_fail false). exact Logic.I.
  - pose proof (flat_rec 10 n true recs e [] s Hd Hw Hr) as B. destruct (eval O n (negb false) recs e [] s) as [v f' s'|s'|s'|] eqn:Ee; try discriminate.
    cbn [negb] in Ee. rewrite Ee in B. intros [= <-]. apply trace_restore. right. eapply rec_weak; [|apply B; reflexivity]. auto.
  - intros Ev. apply andb_true_iff in Hw as [Hw _]. pose proof (star_loop_good (pt s) (eval O n false recs) (Hg false (pt s)) e (S (length (rest (pt s)))) Hw [] f s (adv_refl _)) as G.
    rewrite Ev in G. contradiction.
  - apply andb_true_iff in Hw as [Hw _]. cbn [star_loop].
    pose proof (Ht recs e [] s Hd Hw Hr) as B. destruct (eval O n false recs e [] s) as [v f' s'|s'|s'|]; try discriminate.
    + pose proof (Hg false (pt s) e [] s Hw (adv_refl _)) as G0.
      intros Ev. exfalso. clear - Ev Hg Hw.
      assert (Hne : forall k acc f0 s0, acc <> [] -> match star_loop (eval O n false recs) k e acc f0 s0 with RVal (VList []) _ _ => False | RFail _ => False | _ => True end).
      { induction k as [|k IHk]; intros acc f0 s0 Ha; cbn [star_loop]; [exact Logic.I|].
        destruct (eval O n false recs e [] s0); try exact Logic.I; [apply IHk; discriminate|].
        destruct (rev acc) eqn:Er; [|exact Logic.I]. apply Ha. apply (f_equal (@rev val)) in Er. now rewrite rev_involutive in Er. }
      specialize (Hne (length (rest (pt s))) [v] f s' ltac:(discriminate)). destruct (star_loop _ _ _ _ _ _) as [v2 f2 s2|s2|s2|]; try discriminate; try contradiction.
      destruct v2; try discriminate. destruct l; try discriminate. contradiction.
    + cbn. now intros [= <-].
  - pose proof (Ht recs e [] s) as B. destruct (eval O n false recs e [] s) as [v f' s'|s'|s'|]; discriminate.
  - apply andb_true_iff in Hw as [Hw Hdp]. apply andb_true_iff in Hw as [Hw Hrc].
    assert (Hr' : recs_ok ((ls, rc) :: recs)) by (constructor; auto; cbn; split; auto; now apply Nat.leb_le).
    pose proof (Ht ((ls, rc) :: recs) e f s Hd Hw Hr') as B. intros Ev. rewrite Ev in B. exact B.
  - discriminate.
Qed.
End T.

(** ** The two runs *)
Fixpoint ok3 (e : expr) : bool :=
  match e with
  | EAction _ e1 | ELabel _ e1 | EOpt e1 => ok3 e1
  | EStar e1 | EPlus e1 => ok3 e1 && recd e1
  | ESeq es => match not_any es with Some e1 => flatr 10 e1 && forallb aside (wants 10 true e1) | None => forallb ok3 es && forallb recd es end
  | EChoice es => forallb ok3 es
  | ERule (RStart | REOF | REOL | REscapedChar | RValueChars) => false
  | ERule _ => true
  | ELit _ _ _ | EClass _ _ _ _ _ => is_atom e
  | EAny | ENot _ => false
  | ERecover e1 rc _ => ok3 e1 && ok3 rc
  | EThrow _ | EState _ => true
  end.
Lemma ok3_rules r : ok3 (ERule r) = true -> ok3 (rules r) = true.
Proof. destruct r; try discriminate; intros _; vm_compute; reflexivity. Qed.

(** A look-ahead sees the same in both runs. *)
Lemma flat_same O O' k : forall n m inv recs e f f' s c x r, flatr k e = true -> wf e = true -> recs_ok recs ->
  cur_rune (pt s) = x -> at_eof (pt s) = false -> crs c = x :: r ->
  match eval O n inv recs e f s, ceval O' m recs e f' c with
  | RVal _ _ _, CNo => False
  | RFail _, COk _ _ _ => False
  | _, _ => True
  end.
Proof.
  induction k as [|k IHk]; intros n m inv recs e f f' s0 c x r Hf Hw Hr Hx Hn Hc; [discriminate|].
  destruct n as [|n]; [exact Logic.I|].
  destruct m as [|m]; [destruct (eval O (S n) inv recs e f s0); exact Logic.I|].
  cbn [eval ceval]. set (s := tick s0). assert (Hxs : cur_rune (pt s) = x) by exact Hx. assert (Hns : at_eof (pt s) = false) by exact Hn. clearbody s. clear Hx Hn s0.
  destruct e as [a e|l|l|l e|rr|w ic want|v chars ranges ic invd| |e|e|e|e|e rc ls|l|cd]; try discriminate Hf; cbn [flatr] in Hf; cbn zeta;
    cbn [wf] in Hw; apply andb_true_iff in Hw as [_ Hw].
  - apply andb_true_iff in Hf as [Hf _]. revert s Hxs Hns. induction l as [|e l IHl]; intros s Hxs Hns; cbn [choice_loop cchoice]; [exact Logic.I|].
    cbn [forallb] in Hf, Hw. apply andb_true_iff in Hf as [Hf1 Hf2]. apply andb_true_iff in Hw as [Hw1 Hw2].
    pose proof (IHk n m inv recs e [] [] s c x r Hf1 Hw1 Hr Hxs Hns Hc) as B. pose proof (eval_good O (pt s) n inv recs e [] s Hw1 Hr (adv_refl _)) as G.
    destruct (eval O n inv recs e [] s) as [v1 f1 s1|s1|s1|]; destruct (ceval O' m recs e [] c) as [v2 f2 c2| | | |]; try contradiction; cbn [pop cpop]; auto;
      try (destruct (choice_loop _ _ _ _); exact Logic.I).
    destruct G as (G & _). apply IHl; auto; now rewrite G.
  - pose proof (IHk n m inv recs (rules rr) [] [] s c x r Hf (wf_rules rr) Hr Hxs Hns Hc) as B.
    destruct (eval O n inv recs (rules rr) [] s); destruct (ceval O' m recs (rules rr) [] c); auto.
  - destruct w as [|y [|]]; try discriminate Hf. cbn [lit_loop clit]. cbn zeta. rewrite Hxs, Hc. destruct (_ =? y); exact Logic.I.
  - rewrite Hns, Hc, Hxs. destruct (xorb _ _); exact Logic.I.
  - rewrite Hns, Hc. exact Logic.I.
  - pose proof (IHk n m (negb inv) recs e [] [] s c x r Hf Hw Hr Hxs Hns Hc) as B.
    destruct (eval O n (negb inv) recs e [] s); destruct (ceval O' m recs e [] c); auto.
Qed.

Lemma clit_hits ic w : forall c c', clit ic w c = Some c' -> map (lower_if ic) (firstn (length w) (crs c)) = w.
Proof.
  induction w as [|y w IH]; intros c c'; cbn [clit]; [reflexivity|]. destruct (crs c) as [|x r] eqn:E; [discriminate|].
  destruct (N.eqb_spec (if ic then to_lower x else x) y) as [Ey|]; [|discriminate]. intros H. apply IH in H. cbn in *. rewrite H. f_equal. exact Ey.
Qed.
Lemma fail_at_pt inv fl p w s : pt (fail_at inv fl p w s) = pt s.
Proof. unfold fail_at. destruct (negb _); [reflexivity|]. destruct (_ <? _)%Z; [reflexivity|]. destruct (_ <? _)%Z; reflexivity. Qed.
Lemma hits_lit s ic want t : map (lower_if ic) (firstn (length s) t) = s -> hits (ELit s ic want) t = true.
Proof. intros E. cbn [hits]. destruct (list_eq_dec _ _ _); congruence. Qed.
Lemma covers_atom a t : In a atoms -> hits a t = true -> covers (atom_want a) t = true.
Proof. intros Ha H. unfold covers. apply orb_true_iff. right. apply existsb_exists. exists a. now rewrite H, String.eqb_refl. Qed.

Lemma plus_val v f s :
  (v = VList [] /\ match RVal v f s with RVal (VList []) _ s' => RFail s' | r => r end = RFail s) \/
  (v <> VList [] /\ match RVal v f s with RVal (VList []) _ s' => RFail s' | r => r end = RVal v f s).
Proof. destruct v as [| |l| | | | | | |]; try (right; split; [discriminate|reflexivity]); destruct l; first [now left|right; split; [discriminate|reflexivity]]. Qed.
Lemma plus_res_val v f c : v <> VList [] -> plus_res (COk v f c) = COk v f c.
Proof. destruct v; cbn; try reflexivity. destruct l; [congruence|reflexivity]. Qed.

Section Sim.
Context (O O' : oracles) (U more : list N) (after : bytes).
Hypothesis HU : scalars U.
Definition P : Z := Z.of_nat (length (encode U)).
Hypothesis NC : crosses U more = false.

Definition Rt (t t2 : list N) (s : state) (c : cursor) : Prop :=
  U = t ++ t2 /\ off (at_ (pt s)) = Z.of_nat (length (encode t)) /\ rest (pt s) = encode t2 ++ after /\ crs c = t2 ++ more.
Definition R (s : state) (c : cursor) : Prop := exists t t2, Rt t t2 s c.
(** What is known about the end of the run on the rejected text *)
Definition fin (s : state) : Prop :=
  errs s = [] /\ (off (mf_pos s) <= P)%Z /\
  (off (mf_pos s) = P -> forall w, In w (mf_exp s) -> covers w more = false /\ aside w = false).
Lemma fin_back p0 s s' : fin s' -> steps p0 s s' -> fin s.
Proof.
  intros (F1 & F2 & F3) Hs. pose proof (mfle_steps _ _ _ Hs) as M. split; [|destruct M as [M|[M1 M2]]].
  - destruct (errs s) eqn:E; [reflexivity|]. exfalso. apply (errs_steps _ _ _ Hs); [congruence|exact F1].
  - split; [lia|]. intros E. lia.
  - split; [lia|]. intros E w Hw. apply F3; [lia|auto].
Qed.
Lemma fin_eq s s' : fin s' -> errs s' = errs s -> mf s' = mf s -> fin s.
Proof. unfold fin, mf. intros F E [= E1 E2]. rewrite <- E, <- E1, <- E2. exact F. Qed.
Lemma fin_rec p W s : fin s -> rec_at p W s -> (P <= off p)%Z -> off p = P /\ exists w, W w /\ covers w more = false /\ aside w = false.
Proof.
  intros (F1 & F2 & F3) [H|(H & w & Hw & Hin)] Hp; [lia|]. assert (E : off (mf_pos s) = P) by lia. split; [lia|]. exists w. split; [exact Hw|auto].
Qed.
Lemma fin_trace p s : fin s -> trace p s -> (off p <= P)%Z.
Proof.
  intros F [H|H]; [destruct F as (F & _); congruence|]. destruct (Z.le_gt_cases P (off p)); [|lia]. destruct (fin_rec _ _ _ F H); lia.
Qed.
Lemma fin_restore s p : fin (restore s p) -> fin s.
Proof. unfold restore. destruct (_ =? _)%Z; exact (fun H => H). Qed.

Lemma R_pt s s' c : R s c -> pt s' = pt s -> R s' c.
Proof. unfold R, Rt. intros (t & t2 & H) E. exists t, t2. now rewrite E. Qed.
Lemma Rt_end t s c : Rt t [] s c -> off (at_ (pt s)) = P.
Proof. intros (E & H & _). rewrite app_nil_r in E. subst. exact H. Qed.
Lemma Rt_next t x t2 s c : Rt t (x :: t2) s c ->
  cur_rune (pt s) = x /\ at_eof (pt s) = false /\ R (read s) {| pre := x :: pre c; crs := t2 ++ more |} /\ crs c = x :: t2 ++ more.
Proof.
  intros (E & H1 & H2 & H3). assert (Hx : is_scalar x = true).
  { rewrite E in HU. apply Forall_app in HU as [_ HU']. now inversion HU'. }
  rewrite encode_cons, <- app_assoc in H2.
  assert (D : decode_rune (rest (pt s)) = (x, length (encode_rune x))) by (rewrite H2; now apply decode_encode_rune).
  split; [unfold cur_rune; now rewrite D|]. pose proof (encode_rune_len x) as Len. split.
  - unfold at_eof, cur_width. rewrite D. cbn [snd]. apply andb_false_iff. right. apply Nat.eqb_neq. lia.
  - split; [|exact H3]. exists (t ++ [x]), t2. split; [rewrite <- app_assoc; exact E|]. rewrite pt_read. split; [|split; [|reflexivity]].
    + rewrite next_point_off. unfold cur_width. rewrite D. cbn [snd]. rewrite encode_app, app_length. unfold encode at 2. cbn. rewrite app_nil_r. lia.
    + rewrite next_point_rest. unfold cur_width. rewrite D, H2. cbn [snd]. apply skipn_app_exact.
Qed.
Lemma read_off s : rest (pt s) <> [] -> (off (at_ (pt s)) < off (at_ (pt (read s))))%Z.
Proof. intros H. rewrite pt_read, next_point_off. pose proof (cur_width_bounds _ H). lia. Qed.

Definition sim_out (r : res) (o : cres) : Prop :=
  match r with
  | RVal _ _ s1 => fin s1 -> (P < off (at_ (pt s1)))%Z \/ match o with COk _ _ c1 => R s1 c1 | CNo => False | _ => True end
  | RFail s1 => fin s1 -> match o with COk _ _ _ => False | _ => True end
  | _ => True
  end.

Lemma sim_fuel r : sim_out r CFuel.
Proof. destruct r; cbn; auto. Qed.

Lemma lit_sim ic w : forallb (fun c => negb (c =? rune_error)) w = true -> forall s c t t2, Rt t t2 s c ->
  match lit_loop ic w s with
  | (Some s', _) => (P < off (at_ (pt s')))%Z \/ exists c', clit ic w c = Some c' /\ R s' c'
  | (None, _) => clit ic w c = None \/ exists r, w = map (lower_if ic) t2 ++ r /\ r <> [] /\ map (lower_if ic) (firstn (length r) more) = r
  end.
Proof.
  induction w as [|y w IH]; intros Hw s c t t2 H; cbn [lit_loop].
  - right. exists c. split; [reflexivity|]. exists t, t2. exact H.
  - pose proof Hw as Hw0. cbn [forallb] in Hw. apply andb_true_iff in Hw as [Hy Hw]. cbn zeta. destruct t2 as [|x t2].
    + pose proof (lit_loop_good (pt s) ic (y :: w) Hw0 s) as G. cbn [lit_loop] in G. cbn zeta in G.
      assert (Hnone : clit ic (y :: w) c = None \/ exists r, y :: w = map (lower_if ic) [] ++ r /\ r <> [] /\ map (lower_if ic) (firstn (length r) more) = r).
      { destruct (clit ic (y :: w) c) as [c'|] eqn:Ec; [|now left]. right. exists (y :: w). split; [reflexivity|]. split; [discriminate|].
        apply clit_hits in Ec. destruct H as (_ & _ & _ & H3). cbn in H3. rewrite H3 in Ec. exact Ec. }
      destruct (_ =? y); [|exact Hnone]. destruct (lit_loop ic w (read s)) as [[s'|] s'']; [|exact Hnone].
      left. destruct G as (G1 & _ & G3). specialize (G3 ltac:(discriminate)). rewrite <- (Rt_end _ _ _ H).
      destruct (adv_strict _ _ G1) as [E|E]; [congruence|]. apply adv_spec in G1 as (u & Eu & Eo). rewrite Eu, app_length in E. lia.
    + destruct (Rt_next _ _ _ _ _ H) as (C1 & C2 & (t' & t2' & C3) & C4). rewrite C1. cbn [clit]. rewrite C4.
      destruct (N.eqb_spec (if ic then to_lower x else x) y) as [Ey|Ey]; [|now left].
      assert (Et : t2' = t2).
      { destruct C3 as (_ & _ & _ & C3). cbn [crs] in C3. now apply app_inv_tail in C3. }
      subst t2'. specialize (IH Hw _ _ _ _ C3). destruct (lit_loop ic w (read s)) as [[s'|] s'']; [exact IH|].
      destruct IH as [IH|(r & -> & I2 & I3)]; [now left|]. right. exists r. split; [|auto]. cbn. f_equal. symmetry. exact Ey.
Qed.

Lemma star_late (ev : expr -> frame -> state -> res) e :
  (forall p0 f s, adv p0 (pt s) -> good p0 (nullable e) s (ev e f s)) -> fails_traced ev e ->
  forall k acc f s, (P < off (at_ (pt s)))%Z ->
  match star_loop ev k e acc f s with RVal _ _ s1 => fin s1 -> False | _ => True end.
Proof.
  intros Hg Ht. induction k as [|k IH]; intros acc f s Hp; cbn [star_loop]; [exact Logic.I|].
  pose proof (Hg (pt s) [] s (adv_refl _)) as G. pose proof (Ht [] s) as B. destruct (ev e [] s) as [v f' s'|s'|s'|]; auto.
  - apply IH. destruct G as (G & _). apply adv_le in G. lia.
  - intros F. pose proof (fin_trace _ _ F B). lia.
Qed.
Lemma star_sim (ev : expr -> frame -> state -> res) (ev' : expr -> frame -> cursor -> cres) e :
  (forall p0 e f s, wf e = true -> adv p0 (pt s) -> good p0 (nullable e) s (ev e f s)) -> wf e = true -> fails_traced ev e ->
  (forall f f' s c, R s c -> sim_out (ev e f s) (ev' e f' c)) ->
  forall k k' acc acc' f f' s c, (acc = [] <-> acc' = []) -> R s c ->
  match star_loop ev k e acc f s with
  | RVal v _ s1 => fin s1 -> match cstar ev' k' e acc' f' c with
      | COk v' _ c1 => R s1 c1 /\ (v = VList [] <-> v' = VList []) | CNo => False | _ => True end
  | _ => True
  end.
Proof.
  intros Hg Hw Ht Hs. induction k as [|k IH]; intros k' acc acc' f f' s c Ha HR; cbn [star_loop]; [exact Logic.I|].
  pose proof (Hg (pt s) e [] s Hw (adv_refl _)) as G. pose proof (Hs [] [] s c HR) as B.
  destruct k' as [|k']; [cbn [cstar]; destruct (ev e [] s) as [v1 f1 s1|s1|s1|]; auto; destruct (star_loop _ _ _ _ _ _); auto|]. cbn [cstar].
  destruct (ev e [] s) as [v1 f1 s1|s1|s1|]; auto.
  - pose proof (star_loop_good (pt s) ev (Hg (pt s)) e k Hw (v1 :: acc) f s1) as Gl.
    pose proof (star_late ev e (fun p0 f s => Hg p0 e f s Hw) Ht k (v1 :: acc) f s1) as Lt.
    destruct G as (G1 & G2 & _). specialize (Gl G1). cbn [sim_out] in B.
    destruct (ev' e [] c) as [v2 f2 c2| | | |].
    + specialize (IH k' (v1 :: acc) (v2 :: acc') f f' s1 c2).
      destruct (star_loop ev k e (v1 :: acc) f s1) as [v3 f3 s3|s3|s3|]; auto. intros F. destruct Gl as (_ & Gl & _).
      destruct (B (fin_back _ _ _ F Gl)) as [Hp|HR2]; [destruct (Lt Hp F)|]. apply IH; auto. split; discriminate.
    + destruct (star_loop ev k e (v1 :: acc) f s1) as [v3 f3 s3|s3|s3|]; auto. intros F. destruct Gl as (_ & Gl & _).
      destruct (B (fin_back _ _ _ F Gl)) as [Hp|[]]. destruct (Lt Hp F).
    + destruct (star_loop ev k e (v1 :: acc) f s1); auto.
    + destruct (star_loop ev k e (v1 :: acc) f s1); auto.
    + destruct (star_loop ev k e (v1 :: acc) f s1); auto.
  - intros F. cbn [sim_out] in B. specialize (B F). destruct G as (G & _). destruct (ev' e [] c); auto; [contradiction|].
    split; [eapply R_pt; eauto|]. assert (Hrv : forall l : list val, VList (rev l) = VList [] <-> l = []).
    { intros l. split; [|now intros ->]. intros [= E]. apply (f_equal (@rev val)) in E. now rewrite rev_involutive in E. }
    rewrite !Hrv. exact Ha.
Qed.

Definition recs3 (recs : list (list string * expr)) : Prop := Forall (fun p => ok3 (snd p) = true) recs.

Lemma seq_sim (ev : expr -> frame -> state -> res) (ev' : expr -> frame -> cursor -> cres) es :
  (forall p0 e f s, wf e = true -> adv p0 (pt s) -> good p0 (nullable e) s (ev e f s)) -> forallb wf es = true -> Forall (fails_traced ev) es ->
  Forall (fun e => forall f f' s c, R s c -> sim_out (ev e f s) (ev' e f' c)) es ->
  forall start acc acc' f f' s c, adv start (pt s) -> R s c -> sim_out (seq_loop ev start es acc f s) (cseq ev' es acc' f' c).
Proof.
  intros Hg. induction es as [|e es IH]; intros Hw Ht Hs start acc acc' f f' s c Hst HR; cbn [seq_loop cseq].
  - cbn [sim_out]. auto.
  - cbn [forallb] in Hw. apply andb_true_iff in Hw as [Hw1 Hw2]. inversion Ht as [|? ? Ht1 Ht2]; subst. inversion Hs as [|? ? Hs1 Hs2]; subst.
    pose proof (Hg (pt s) e f s Hw1 (adv_refl _)) as G. pose proof (Hs1 f f' s c HR) as B.
    destruct (ev e f s) as [v1 f1 s1|s1|s1|]; [| |exact Logic.I|exact Logic.I].
    + destruct G as (G1 & G2 & _). pose proof (adv_trans _ _ _ Hst G1) as Hst1.
      pose proof (seq_loop_good start ev (Hg start) start es (v1 :: acc) f1 s1 Hw2 (adv_refl _) Hst1) as Gl.
      pose proof (seq_traced ev start es Hg Ht2 Hw2 (v1 :: acc) f1 s1) as Tl.
      assert (Late : (P < off (at_ (pt s1)))%Z -> forall o, sim_out (seq_loop ev start es (v1 :: acc) f1 s1) o).
      { intros Hp o. destruct (seq_loop ev start es (v1 :: acc) f1 s1) as [v3 f3 s3|s3|s3|]; cbn [sim_out]; auto.
        - intros _. left. destruct Gl as (Gl & _). apply adv_le in Gl. lia.
        - intros F. pose proof (fin_trace _ _ F Tl). lia. }
      assert (Fb : match seq_loop ev start es (v1 :: acc) f1 s1 with RVal _ _ s3 | RFail s3 => fin s3 -> fin s1 | _ => True end).
      { destruct (seq_loop ev start es (v1 :: acc) f1 s1) as [v3 f3 s3|s3|s3|]; auto; intros F; eapply fin_back; [exact F|apply Gl|exact F|apply Gl]. }
      cbn [sim_out] in B.
      assert (Bo : forall o, match o with COk _ _ _ => False | CNo => False | _ => True end -> sim_out (seq_loop ev start es (v1 :: acc) f1 s1) o).
      { intros o Ho. destruct (seq_loop ev start es (v1 :: acc) f1 s1); cbn [sim_out]; auto; intros _; [right|]; destruct o; auto; contradiction. }
      destruct (ev' e f' c) as [v2 f2 c2| | | |]; try (apply Bo; exact Logic.I).
      * specialize (IH Hw2 Ht2 Hs2 start (v1 :: acc) (v2 :: acc') f1 f2 s1 c2 Hst1).
        destruct (seq_loop ev start es (v1 :: acc) f1 s1) as [v3 f3 s3|s3|s3|]; cbn [sim_out] in *; auto; intros F; (destruct (B (Fb F)) as [Hp|HR2]; [now apply Late|now apply IH]).
      * destruct (seq_loop ev start es (v1 :: acc) f1 s1) as [v3 f3 s3|s3|s3|]; cbn [sim_out] in *; auto. intros F. destruct (B (Fb F)) as [Hp|[]]. exact (Late Hp CNo F).
    + cbn [sim_out] in *. intros F. apply fin_restore in F. specialize (B F). destruct (ev' e f' c); auto; contradiction.
Qed.

Lemma choice_sim (ev : expr -> frame -> state -> res) (ev' : expr -> frame -> cursor -> cres) es :
  (forall p0 e f s, wf e = true -> adv p0 (pt s) -> good p0 (nullable e) s (ev e f s)) -> forallb wf es = true ->
  Forall (fun e => forall f f' s c, R s c -> sim_out (ev e f s) (ev' e f' c)) es ->
  forall f f' s c, R s c -> sim_out (choice_loop ev es f s) (cchoice ev' es f' c).
Proof.
  intros Hg. induction es as [|e es IH]; intros Hw Hs f f' s c HR; cbn [choice_loop cchoice]; [cbn; auto|].
  cbn [forallb] in Hw. apply andb_true_iff in Hw as [Hw1 Hw2]. inversion Hs as [|? ? Hs1 Hs2]; subst.
  pose proof (Hg (pt s) e [] s Hw1 (adv_refl _)) as G. pose proof (Hs1 [] [] s c HR) as B.
  destruct (ev e [] s) as [v1 f1 s1|s1|s1|]; cbn [pop]; [| |exact Logic.I|exact Logic.I].
  - cbn [sim_out] in *. intros F. destruct (B F) as [Hp|HR2]; [now left|]. right. destruct (ev' e [] c); cbn [cpop]; auto. contradiction.
  - cbn [sim_out] in B. destruct G as (G & _).
    pose proof (choice_loop_good (pt s) ev (Hg (pt s)) es f s1 Hw2 ltac:(rewrite G; apply adv_refl)) as Gl.
    assert (HR1 : R s1 c) by (eapply R_pt; eauto). specialize (IH Hw2 Hs2 f f' s1 c HR1).
    assert (Fb : match choice_loop ev es f s1 with RVal _ _ s3 | RFail s3 => fin s3 -> fin s1 | _ => True end).
    { destruct (choice_loop ev es f s1) as [v3 f3 s3|s3|s3|]; auto; intros F; eapply fin_back; [exact F|apply Gl|exact F|apply Gl]. }
    destruct (ev' e [] c) as [v2 f2 c2| | | |]; [|exact IH|..];
      destruct (choice_loop ev es f s1) as [v3 f3 s3|s3|s3|]; cbn [sim_out cpop] in *; auto; intros F; destruct (B (Fb F)).
Qed.
Lemma throw_sim (ev : expr -> frame -> state -> res) (ev' : expr -> frame -> cursor -> cres) l recs :
  (forall p0 e f s, wf e = true -> adv p0 (pt s) -> good p0 (nullable e) s (ev e f s)) -> recs_ok recs -> recs3 recs ->
  (forall e f f' s c, ok3 e = true -> wf e = true -> R s c -> sim_out (ev e f s) (ev' e f' c)) ->
  forall f f' s c, R s c -> sim_out (throw_loop ev l recs f s) (cthrow ev' l recs f' c).
Proof.
  intros Hg Hr Hr3 Hs. induction recs as [|[ls e] recs IH]; intros f f' s c HR; cbn [throw_loop cthrow]; [cbn; auto|].
  inversion Hr as [|? ? [Hw _] Hr']; subst. inversion Hr3 as [|? ? H3 Hr3']; subst. cbn [snd] in *. specialize (IH Hr' Hr3').
  destruct (existsb _ ls); [|now apply IH].
  pose proof (Hg (pt s) e f s Hw (adv_refl _)) as G. pose proof (Hs e f f' s c H3 Hw HR) as B.
  destruct (ev e f s) as [v1 f1 s1|s1|s1|]; [| |exact Logic.I|exact Logic.I].
  - cbn [sim_out] in *. intros F. destruct (B F) as [Hp|HR2]; [now left|]. right. destruct (ev' e f' c); auto. contradiction.
  - cbn [sim_out] in B. destruct G as (G & _).
    assert (Hwr : Forall (fun p => wf (snd p) = true) recs) by (eapply Forall_impl; [|exact Hr']; intros ? [? ?]; auto).
    pose proof (throw_loop_good (pt s) ev (Hg (pt s)) l recs Hwr f s1 ltac:(rewrite G; apply adv_refl)) as Gl.
    assert (HR1 : R s1 c) by (eapply R_pt; eauto). specialize (IH f f' s1 c HR1).
    assert (Fb : match throw_loop ev l recs f s1 with RVal _ _ s3 | RFail s3 => fin s3 -> fin s1 | _ => True end).
    { destruct (throw_loop ev l recs f s1) as [v3 f3 s3|s3|s3|]; auto; intros F; eapply fin_back; [exact F|apply Gl|exact F|apply Gl]. }
    destruct (ev' e f' c) as [v2 f2 c2| | | |]; [|exact IH|..];
      destruct (throw_loop ev l recs f s1) as [v3 f3 s3|s3|s3|]; cbn [sim_out] in *; auto; intros F; destruct (B (Fb F)).
Qed.

Theorem sim n : forall m recs e f f' s c, ok3 e = true -> wf e = true -> recs_ok recs -> recs3 recs -> R s c ->
  sim_out (eval O n false recs e f s) (ceval O' m recs e f' c).
Proof.
  induction n as [|n IH]; intros m recs e f f' s0 c Ho Hw Hr Hr3 HR0; [exact Logic.I|].
  destruct m as [|m].
  { destruct (eval O (S n) false recs e f s0); cbn; auto. }
  cbn [eval ceval]. assert (HR : R (tick s0) c) by exact HR0. remember (tick s0) as s eqn:Es. clear HR0.
  assert (Hg : forall p0 e f s, wf e = true -> adv p0 (pt s) -> good p0 (nullable e) s (eval O n false recs e f s))
    by (intros; apply eval_good; auto).
  assert (Ht : forall e, recd e = true -> wf e = true -> fails_traced (eval O n false recs) e) by (intros e0 H1 H2 f0 sx; apply traced; auto).
  assert (Hv : forall e f f' s c, ok3 e = true -> wf e = true -> R s c -> sim_out (eval O n false recs e f s) (ceval O' m recs e f' c)) by (intros; apply IH; auto).
  destruct e as [a e|l|l|l e|r|w ic want|v chars ranges ic invd| |e|e|e|e|e rc ls|l|cd]; cbn zeta; try discriminate Ho; pose proof Ho as Ho0; cbn [ok3] in Ho; pose proof Hw as Hw0;
    cbn [wf] in Hw; apply andb_true_iff in Hw as [_ Hw].
  - pose proof (Hv e f f' s c Ho Hw HR) as B. destruct (eval O n false recs e f s) as [v1 f1 s1|s1|s1|]; auto; [|cbn [sim_out] in *; destruct (ceval O' m recs e f' c); auto; destruct (run_action O' _ _ _ _); auto].
    cbn [sim_out] in B. destruct (run_action O _ _ _ _); cbn [sim_out]; auto.
    + intros F. destruct (B F) as [Hp|HR2]; [now left|]. right. destruct (ceval O' m recs e f' c); auto. destruct (run_action O' _ _ _ _); auto.
    + intros (F & _). discriminate F.
  - destruct (not_any l) as [e1|] eqn:En.
    + destruct l as [|[] [|[] [|]]]; try discriminate. injection En as ->. apply andb_true_iff in Ho as [Hf Ha].
      destruct HR as (t & t2 & H). destruct t2 as [|x t2].
      * pose proof (notany_rec O (S n) recs e1 f s0 Hf Hw0 Hr) as B. change (pt s0) with (pt (tick s0)) in B. 
        assert (Gs : good (pt s) false s (seq_loop (eval O n false recs) (pt s) [ENot e1; EAny] [] f s)).
        { pose proof (seq_loop_good (pt s) (eval O n false recs) (Hg (pt s)) (pt s) [ENot e1; EAny] [] f s Hw (adv_refl _) (adv_refl _)) as G.
          destruct (seq_loop _ _ _ _ _ _); cbn [good] in *; auto. }
        cbn [eval] in B. rewrite <- Es in B. rename B into Tr.
        pose proof (Rt_end _ _ _ H) as Ep.
        destruct (seq_loop (eval O n false recs) (pt s) [ENot e1; EAny] [] f s) as [v3 f3 s3|s3|s3|]; cbn [sim_out]; auto.
        -- intros _. left. destruct Gs as (G1 & _ & G3). specialize (G3 eq_refl). destruct (adv_strict _ _ G1) as [E|E]; [congruence|].
           apply adv_spec in G1 as (u & Eu & Eo). rewrite Eu, app_length in E. lia.
        -- intros F. destruct (fin_rec _ _ _ F Tr) as (_ & w & Hwin & _ & Hasd); [lia|]. exfalso. destruct Hwin as [->|Hwin]; [discriminate Hasd|].
           rewrite forallb_forall in Ha. rewrite (Ha w Hwin) in Hasd. discriminate.
      * destruct (Rt_next _ _ _ _ _ H) as (C1 & C2 & C3 & C4). apply wf_seq2 in Hw0 as [Hw1 Hw2].
        cbn [wf] in Hw1. apply andb_true_iff in Hw1 as [_ Hw1]. cbn [seq_loop cseq].
        destruct n as [|n]; [exact Logic.I|]. cbn [eval].
        destruct m as [|m]; [cbn [ceval]; apply sim_fuel|]. cbn [ceval].
        pose proof (flat_same O O' 10 n m true recs e1 [] [] (tick s) c x (t2 ++ more) Hf Hw1 Hr C1 C2 C4) as B.
        pose proof (eval_good O (pt s) n true recs e1 [] (tick s) Hw1 Hr (adv_refl _)) as G. cbn [negb].
        change (pt (tick s)) with (pt s).
        destruct (eval O n true recs e1 [] (tick s)) as [v1 f1 s1|s1|s1|]; [| |exact Logic.I|exact Logic.I].
        -- cbn [sim_out]. intros _. destruct (ceval O' m recs e1 [] c); auto. contradiction.
        -- destruct G as (G & _). rewrite restore_back by (rewrite G; apply adv_refl). cbn [set_pt pt tick]. rewrite C2.
           destruct (ceval O' m recs e1 [] c); try contradiction; [|cbn [sim_out]; auto..].
           rewrite C4. cbn [sim_out]. intros _. right. eapply R_pt; [exact C3|]. rewrite fail_at_pt, !pt_read. cbn [pt tick set_pt]. reflexivity.
    + apply andb_true_iff in Ho as [Ho1 Ho2]. apply seq_sim; auto; [|apply Forall_forall; intros e He; rewrite forallb_forall in Hw, Ho1, Ho2; auto|apply adv_refl].
      apply Forall_forall. intros e He. rewrite forallb_forall in Hw, Ho1, Ho2. auto.
  - apply choice_sim; auto. apply Forall_forall. intros e He. rewrite forallb_forall in Hw, Ho. auto.
  - pose proof (Hv e [] [] s c Ho Hw HR) as B. destruct (eval O n false recs e [] s) as [v1 f1 s1|s1|s1|]; auto; cbn [sim_out] in *; destruct (ceval O' m recs e [] c); auto.
  - pose proof (Hv (rules r) [] [] s c (ok3_rules r Ho0) (wf_rules r) HR) as B. destruct (eval O n false recs (rules r) [] s) as [v1 f1 s1|s1|s1|]; cbn [sim_out pop] in *; destruct (ceval O' m recs (rules r) [] c); auto.
  - apply is_atom_in in Ho. destruct HR as (t & t2 & H). pose proof (lit_sim ic w Hw s c t t2 H) as L. destruct (lit_loop ic w s) as [[s'|] s'']; cbn [sim_out].
    + intros _. rewrite fail_at_pt. destruct L as [L|(c' & L1 & L2)]; [now left|]. right. rewrite L1. eapply R_pt; [exact L2|apply fail_at_pt].
    + intros F. destruct L as [->|(r & L1 & L2 & L3)]; [exact Logic.I|]. exfalso.
      destruct t2 as [|x t2].
      * pose proof (rec_fail false (at_ (pt s)) want s'' (fun w => w = want) eq_refl) as Rc. apply (rec_restore _ _ _ (pt s)) in Rc. pose proof (Rt_end _ _ _ H) as Ep.
        destruct (fin_rec _ _ _ F Rc) as (_ & w1 & -> & Hc & _); [lia|]. cbn in L1. subst r.
        pose proof (covers_atom _ more Ho (hits_lit w ic want more L3)) as K. cbn [atom_want] in K. congruence.
      * assert (K : crosses U more = true); [|congruence]. unfold crosses. apply existsb_exists. exists (ELit w ic want). split; [exact Ho|].
        apply existsb_exists. exists (length (x :: t2)). destruct H as (HU1 & _).
        assert (Lw : length w = (length (x :: t2) + length r)%nat) by (rewrite L1, app_length, map_length; reflexivity).
        split; [apply in_seq; destruct r; [congruence|]; rewrite Lw; cbn [length]; lia|].
        rewrite HU1, app_length. apply andb_true_iff. split; [apply Nat.leb_le; lia|].
        replace (length t + length (x :: t2) - length (x :: t2))%nat with (length t) by lia. rewrite skipn_app_exact.
        apply hits_lit. rewrite Lw, firstn_app_2, map_app, L3. symmetry. exact L1.
  - apply is_atom_in in Ho. destruct HR as (t & t2 & H). destruct t2 as [|x t2].
    + pose proof (Rt_end _ _ _ H) as Ep. destruct H as (H0 & H1 & H2 & H3). cbn in H2, H3.
      assert (Hfl : forall s', s' = fail_at false false (at_ (pt s)) v s -> fin s' -> hits (EClass v chars ranges ic invd) more = false).
      { intros s' -> F. pose proof (rec_fail false (at_ (pt s)) v s (fun w => w = v) eq_refl) as Rc. destruct (fin_rec _ _ _ F Rc) as (_ & w1 & -> & Hc & _); [lia|].
        destruct (hits _ more) eqn:K; [|reflexivity]. apply (covers_atom _ more Ho) in K. cbn [atom_want] in K. congruence. }
      assert (Hout : forall s', s' = fail_at false false (at_ (pt s)) v s -> sim_out (RFail s') match crs c with
        | [] => CNo | x :: r => if xorb invd (in_class chars ranges (if ic then to_lower x else x))
        then COk (VBytes (encode [x])) f' {| pre := x :: pre c; crs := r |} else CNo end).
      { intros s' E. cbn [sim_out]. intros F. specialize (Hfl s' E F). rewrite H3. cbn [hits] in Hfl. destruct more as [|y r]; [exact Logic.I|].
        unfold lower_if in Hfl. rewrite Hfl. exact Logic.I. }
      destruct (at_eof (pt s)) eqn:Ee; [now apply Hout|]. destruct (xorb _ _) eqn:Ex; [|now apply Hout].
      cbn [sim_out]. intros _. left. rewrite fail_at_pt, <- Ep. apply read_off, noeof_rest, Ee.
    + destruct (Rt_next _ _ _ _ _ H) as (C1 & C2 & C3 & C4). rewrite C2, C1, C4. destruct (xorb _ _); cbn [sim_out]; auto.
  - apply andb_true_iff in Ho as [Ho1 Ho2]. apply andb_true_iff in Hw as [Hw _].
    pose proof (star_sim (eval O n false recs) (ceval O' m recs) e Hg Hw (Ht e Ho2 Hw) (fun f f' s c => Hv e f f' s c Ho1 Hw)
      (S (length (rest (pt s)))) (S (length (crs c))) [] [] f f' s c (conj (fun x => x) (fun x => x)) HR) as B.
    pose proof (star_loop_good (pt s) (eval O n false recs) (Hg (pt s)) e (S (length (rest (pt s)))) Hw [] f s (adv_refl _)) as G.
    destruct (star_loop _ _ _ _ _ _) as [v1 f1 s1|s1|s1|]; cbn [sim_out]; auto.
    + intros F. right. specialize (B F). destruct (cstar _ _ _ _ _ _); auto. now destruct B.
    + destruct G.
  - apply andb_true_iff in Ho as [Ho1 Ho2]. apply andb_true_iff in Hw as [Hw _].
    pose proof (star_sim (eval O n false recs) (ceval O' m recs) e Hg Hw (Ht e Ho2 Hw) (fun f f' s c => Hv e f f' s c Ho1 Hw)
      (S (length (rest (pt s)))) (S (length (crs c))) [] [] f f' s c (conj (fun x => x) (fun x => x)) HR) as B.
    pose proof (star_loop_good (pt s) (eval O n false recs) (Hg (pt s)) e (S (length (rest (pt s)))) Hw [] f s (adv_refl _)) as G.
    destruct (star_loop _ _ _ _ _ _) as [v1 f1 s1|s1|s1|]; [| destruct G|exact Logic.I|exact Logic.I].
    destruct (plus_val v1 f1 s1) as [[E1 ->]|[E1 ->]]; cbn [sim_out]; intros F; specialize (B F).
    + destruct (cstar _ _ _ _ _ _) as [v2 f2 c2| | | |]; cbn [plus_res]; auto. destruct B as [_ B]. now rewrite (proj1 B E1).
    + right. destruct (cstar _ _ _ _ _ _) as [v2 f2 c2| | | |]; [|exact B|exact B|exact B|exact B]. destruct B as [B1 B2].
      rewrite plus_res_val; [exact B1|]. intros E. apply E1. now apply B2.
  - pose proof (Hv e [] [] s c Ho Hw HR) as B. pose proof (Hg (pt s) e [] s Hw (adv_refl _)) as G.
    destruct (eval O n false recs e [] s) as [v1 f1 s1|s1|s1|]; cbn [sim_out] in *; auto.
    + intros F. destruct (B F) as [Hp|HR2]; [now left|]. right. destruct (ceval O' m recs e [] c); auto. contradiction.
    + intros F. right. specialize (B F). destruct G as (G & _). destruct (ceval O' m recs e [] c); auto; [contradiction|]. eapply R_pt; eauto.
  - apply andb_true_iff in Ho as [Ho1 Ho2]. apply andb_true_iff in Hw as [Hw Hd]. apply andb_true_iff in Hw as [Hw1 Hw2].
    apply IH; auto; constructor; auto. cbn. split; [auto|]. now apply Nat.leb_le.
  - apply throw_sim; auto.
  - cbn [sim_out]. intros (F & _). discriminate F.
Qed.
End Sim.
