(** What can stand in the list of what was expected: when the parser gives up without having
    recorded an error, the list has no entry of a look-ahead. *)
From Verif Require Import Bytes Utf8 Utf8Proofs Oracles Ast PegSyntax Grammar Actions Engine EngineBasics Bridge Viable.
From Coq Require Import ZifyBool ZifyN ZifyNat.

Definition fine (s : state) : Prop := forallb (fun w => negb (aside w)) (mf_exp s) = true.
Definition D1p (p : point) (s : state) : Prop := errs s <> [] \/ fine s \/ (off (mf_pos s) <= off (at_ p))%Z.
Definition D1 (s : state) : Prop := D1p (pt s) s.
Definition De (s : state) : Prop := errs s <> [] \/ fine s \/ (off (mf_pos s) < off (at_ (pt s)))%Z.
Definition Fe (s : state) : Prop := errs s <> [] \/ fine s.

Lemma Fe_De s : Fe s -> De s.
Proof. unfold Fe, De. tauto. Qed.
Lemma De_D1 s : De s -> D1 s.
Proof. unfold De, D1, D1p. intros [H|[H|H]]; auto. right. right. lia. Qed.
Lemma fail_D1p p inv fl w s : D1p p s -> D1p p (fail_at inv fl (at_ p) w s).
Proof.
  unfold D1p. rewrite errs_fail. intros [H|H]; [now left|right]. unfold fail_at. destruct (negb _); [exact H|].
  destruct (Z.ltb_spec (off (at_ p)) (off (mf_pos s))); [exact H|].
  destruct (Z.ltb_spec (off (mf_pos s)) (off (at_ p))); unfold fine in *; cbn [mf_pos mf_exp]; right; lia.
Qed.
Lemma fail_Fe fl w s s0 : aside w = false -> De s0 -> (errs s0 <> [] -> errs s <> []) -> mf s = mf s0 ->
  fl = false -> Fe (fail_at false fl (at_ (pt s0)) w s).
Proof.
  intros Ha H Er Em ->. unfold Fe. rewrite errs_fail. destruct H as [H|H]; [left; auto|right]. unfold mf in Em. injection Em as E1 E2.
  unfold fail_at. cbn [Bool.eqb negb]. rewrite E1. unfold fine in *. rewrite <- E2 in H.
  destruct (Z.ltb_spec (off (at_ (pt s0))) (off (mf_pos s0))).
  - destruct H as [H|H]; [exact H|lia].
  - destruct (Z.ltb_spec (off (mf_pos s0)) (off (at_ (pt s0)))); cbn [mf_exp].
    + cbn. now rewrite Ha.
    + rewrite forallb_app. cbn. rewrite Ha. destruct H as [H|H]; [now rewrite H|lia].
Qed.
Lemma fail_none w p s : fail_at false true p w s = s.
Proof. reflexivity. Qed.

Lemma errs_step p0 s s' : step p0 s s' -> errs s <> [] -> errs s' <> [].
Proof.
  destruct 1; intros B; auto.
  - unfold read, read_at. destruct (_ && _); [discriminate|exact B].
  - now rewrite errs_fail.
  - discriminate.
Qed.
Lemma errs_steps p0 s s' : steps p0 s s' -> errs s <> [] -> errs s' <> [].
Proof. induction 1; auto. intros. eapply errs_step; eauto. Qed.
Lemma mf_read s : mf (read s) = mf s.
Proof. unfold read, read_at. destruct (_ && _); reflexivity. Qed.
Lemma lit_mf ic w : forall s, let '(o, s') := lit_loop ic w s in mf s' = mf s /\ (forall s2, o = Some s2 -> mf s2 = mf s).
Proof.
  induction w as [|c w IH]; intros s; cbn [lit_loop].
  - split; [reflexivity|]. intros s2 E. now injection E as <-.
  - cbn zeta. destruct (_ =? c); [|split; [reflexivity|discriminate]].
    specialize (IH (read s)). destruct (lit_loop ic w (read s)) as [o s']. destruct IH as (I1 & I2).
    split; [now rewrite I1, mf_read|]. intros s2 E. now rewrite (I2 s2 E), mf_read.
Qed.
Lemma D1_move p s s' : D1p p s -> mf s' = mf s -> (errs s <> [] -> errs s' <> []) -> D1p p s'.
Proof. unfold mf, D1p, fine. intros H E Er. injection E as -> ->. tauto. Qed.
Lemma D1_adv p s : D1p p s -> adv p (pt s) -> D1 s.
Proof. unfold D1, D1p. intros H Ha. apply adv_spec in Ha as (t & _ & Ho). destruct H as [H|[H|H]]; auto. right. right. lia. Qed.
Lemma D1_strict p s : D1p p s -> adv p (pt s) -> pt s <> p -> De s.
Proof.
  unfold De, D1p. intros H Ha Ne. destruct (adv_strict _ _ Ha) as [E|E]; [congruence|]. apply adv_spec in Ha as (t & Ht & Ho).
  rewrite Ht, app_length in E. destruct H as [H|[H|H]]; auto. right. right. lia.
Qed.
Lemma De_adv p s s' : De s -> pt s = p -> mf s' = mf s -> (errs s <> [] -> errs s' <> []) -> adv p (pt s') -> De s'.
Proof.
  unfold De, mf, fine. intros H E Em Er Ha. injection Em as -> ->. subst p. apply adv_spec in Ha as (t & _ & Ho).
  destruct H as [H|[H|H]]; auto. right. right. lia.
Qed.

Section Listed.
Context (O : oracles).

Lemma flat_D1 k : forall n inv recs e f s, flat k e = true -> wf e = true -> recs_ok recs -> D1 s ->
  match eval O n inv recs e f s with RVal _ _ s' | RFail s' => D1p (pt s) s' | _ => True end.
Proof.
  induction k as [|k IHk]; intros n inv recs e f s0 Hf Hw Hr H0; [discriminate|].
  destruct n as [|n]; [exact Logic.I|].
  cbn [eval]. set (s := tick s0). assert (H : D1 s) by exact H0. change (pt s0) with (pt s). clearbody s. clear H0 s0.
  assert (Hg : forall inv p0 e f s, wf e = true -> adv p0 (pt s) -> good p0 (nullable e) s (eval O n inv recs e f s))
    by (intros; apply eval_good; auto).
  destruct e as [a e|l|l|l e|r|w ic want|v chars ranges ic invd| |e|e|e|e|e rc ls|l|cd]; try discriminate Hf; cbn [flat] in Hf; cbn zeta;
    cbn [wf] in Hw; apply andb_true_iff in Hw as [_ Hw].
  - enough (Hl : forall s', pt s' = pt s -> D1 s' -> match choice_loop (eval O n inv recs) l f s' with RVal _ _ s2 | RFail s2 => D1p (pt s) s2 | _ => True end) by exact (Hl s eq_refl H).
    clear H. induction l as [|e l IHl]; intros s' Ep H; cbn [choice_loop].
    + rewrite <- Ep. exact H.
    + cbn [forallb] in Hf, Hw. apply andb_true_iff in Hf as [Hf1 Hf2]. apply andb_true_iff in Hw as [Hw1 Hw2].
      pose proof (IHk n inv recs e [] s' Hf1 Hw1 Hr H) as B. pose proof (Hg inv (pt s') e [] s' Hw1 (adv_refl _)) as G.
      destruct (eval O n inv recs e [] s') as [v f' s2|s2|s2|]; auto.
      * cbn [pop]. now rewrite <- Ep.
      * destruct G as (G & _). apply IHl; auto; [congruence|]. unfold D1. now rewrite G.
  - pose proof (IHk n inv recs (rules r) [] s Hf (wf_rules r) Hr H) as B. destruct (eval O n inv recs (rules r) [] s); auto.
  - pose proof (lit_loop_good (pt s) ic w Hw s) as G. pose proof (lit_mf ic w s) as Em.
    destruct (lit_loop ic w s) as [[s'|] s''].
    + destruct Em as (_ & Em). destruct G as (_ & G & _). apply fail_D1p. eapply D1_move; [exact H|auto|]. now apply (errs_steps (pt s)).
    + destruct Em as (Em & _). destruct G as (_ & G).
      assert (B : D1p (pt s) (fail_at inv false (at_ (pt s)) want s'')).
      { apply fail_D1p. eapply D1_move; [exact H|auto|]. now apply (errs_steps (pt s)). }
      unfold restore. destruct (_ =? _)%Z; exact B.
  - destruct (at_eof (pt s)) eqn:E; [now apply fail_D1p|]. destruct (xorb _ _); [|now apply fail_D1p].
    apply fail_D1p. eapply D1_move; [exact H|apply mf_read|]. apply (errs_step (pt s) s). apply st_read. now apply noeof_rest.
  - destruct (at_eof (pt s)) eqn:E; [now apply fail_D1p|].
    apply fail_D1p. eapply D1_move; [exact H|apply mf_read|]. apply (errs_step (pt s) s). apply st_read. now apply noeof_rest.
  - pose proof (IHk n (negb inv) recs e [] s Hf Hw Hr H) as B.
    destruct (eval O n (negb inv) recs e [] s) as [v f' s'|s'|s'|]; auto; unfold restore; destruct (_ =? _)%Z; exact B.
Qed.

(** The grammar outside strings and regular expressions has no look-ahead. *)
Definition rule_ok (r : rname) : bool :=
  match r with
  | RRegexChar | RRegexEscape | REndingQuote | REndingSlash | REOF | RStart | RErrUntermStr | RErrUntermRegex => false
  | _ => true
  end.
Definition is_look (e : expr) : bool := match e with ESeq [ENot e1; EAny] => flat 10 e1 | _ => false end.
Definition body_core (e : expr) : bool :=
  match e with
  | EChoice [e1; ESeq [ELit [c] false w; ERule x]] =>
    (c =? 92) && is_look e1 && negb (aside w) && (rule_ok x || is_look (rules x))
  | _ => false
  end.
Definition body_ok (e : expr) : bool := match e with ERule r => body_core (rules r) | _ => body_core e end.
Definition string_shape (e rc : expr) (ls : list string) : bool :=
  match e, rc with
  | EAction _ (ESeq [ELit [_] false w; EStar body; ERule r]), ERule rr =>
    negb (aside w) && body_ok body &&
    match rules r with EChoice [ELit [c'] false w'; EThrow l] => negb (c' =? 92) && existsb (String.eqb l) ls | _ => false end &&
    match rules rr with EState _ => true | _ => false end
  | _, _ => false
  end.
Fixpoint ok2 (e : expr) : bool :=
  match e with
  | EAction _ e1 | ELabel _ e1 | EStar e1 | EPlus e1 | EOpt e1 => ok2 e1
  | ESeq es => forallb ok2 es
  | EChoice es => forallb ok2 es && match es with [] => false | _ => true end
  | ERule r => rule_ok r
  | ELit _ _ w | EClass w _ _ _ _ => negb (aside w)
  | ERecover e1 rc ls => string_shape e1 rc ls
  | EAny | ENot _ | EThrow _ | EState _ => false
  end.
Lemma ok2_rules r : rule_ok r = true -> ok2 (rules r) = true.
Proof. destruct r; try discriminate; intros _; vm_compute; reflexivity. Qed.

Definition lout (r : res) : Prop :=
  match r with RVal _ _ s' => De s' | RFail s' => Fe s' | _ => True end.

(** A character that is not in the set of a look-ahead *)
Lemma look_D1 n recs e f s : is_look e = true -> wf e = true -> recs_ok recs -> D1 s ->
  match eval O n false recs e f s with RVal _ _ s' => D1 s' | RFail s' => D1p (pt s) s' | _ => True end.
Proof.
  intros Hi Hw Hr H. destruct e as [|l| | | | | | | | | | | | |]; try discriminate Hi. destruct l as [|[] [|[] [|]]]; try discriminate Hi.
  cbn [is_look] in Hi. destruct n as [|n]; [exact Logic.I|].
  pose proof (eval_good O (pt s) (S n) false recs (ESeq [ENot e; EAny]) f s Hw Hr (adv_refl _)) as Gw.
  cbn [eval seq_loop] in *. cbn [wf forallb] in Hw. apply andb_true_iff in Hw as [_ Hw]. apply andb_true_iff in Hw as [Hw1 _].
  apply andb_true_iff in Hw1 as [_ Hw1].
  destruct n as [|n]; [exact Logic.I|]. cbn [eval] in *.
  pose proof (flat_D1 10 n true recs e [] (tick (tick s)) Hi Hw1 Hr H) as B.
  pose proof (eval_good O (pt s) n true recs e [] (tick (tick s)) Hw1 Hr (adv_refl _)) as G. cbn [negb] in *.
  destruct (eval O n true recs e [] (tick (tick s))) as [v f' s'|s'|s'|]; auto.
  - assert (B2 : D1p (pt s) s') by exact B. unfold restore. repeat destruct (_ =? _)%Z; exact B2.
  - assert (B2 : D1p (pt s) s') by exact B. destruct G as (G & _). change (pt (tick (tick s))) with (pt s) in *.
    assert (Er : restore s' (pt s) = set_pt s' (pt s) \/ restore s' (pt s) = s') by (unfold restore; destruct (_ =? _)%Z; auto).
    set (s2 := restore s' (pt s)) in *.
    assert (B3 : D1p (pt s) s2) by (destruct Er as [-> | ->]; exact B2).
    assert (P2 : pt s2 = pt s) by (destruct Er as [-> | ->]; auto). clearbody s2.
    cbn [eval] in *. change (pt (tick s2)) with (pt s2) in *. rewrite P2 in *.
    destruct (at_eof (pt s)) eqn:E.
    + unfold restore. destruct (_ =? _)%Z; apply fail_D1p; exact B3.
    + rewrite fail_none in *. destruct Gw as (Ga & _). apply (D1_adv (pt s)); auto.
      apply (D1_move (pt s) (tick s2)); [exact B3|apply mf_read|]. apply (errs_step (pt s) (tick s2)). apply st_read. cbn [tick pt]. rewrite P2. now apply noeof_rest.
Qed.

(** One literal of one character *)
Lemma lit1_D1 n recs c w f s : wf (ELit [c] false w) = true -> D1 s ->
  match eval O n false recs (ELit [c] false w) f s with
  | RVal _ _ s' => De s' /\ cur_rune (pt s) = c
  | RFail s' => D1 s' /\ pt s' = pt s
  | RPanic _ => False
  | RFuel => True
  end.
Proof.
  intros Hw H. destruct n as [|n]; [exact Logic.I|].
  pose proof (eval_good O (pt s) (S n) false [] (ELit [c] false w) f s Hw (Forall_nil _) (adv_refl _)) as G. revert G. cbn [eval lit_loop]. cbn zeta.
  change (pt (tick s)) with (pt s). assert (H1 : D1p (pt s) (tick s)) by exact H.
  destruct (N.eqb_spec (cur_rune (pt s)) c) as [E|E].
  - rewrite fail_none. intros (Ga & Gs & Gn). split; [|exact E]. apply (D1_strict (pt s)); [|exact Ga|now apply Gn].
    apply (D1_move (pt s) (tick s)); [exact H1|apply mf_read|]. intros He. unfold read, read_at. destruct (_ && _); [discriminate|exact He].
  - intros (Gp & _). split; [|exact Gp]. unfold D1. rewrite Gp. unfold restore. destruct (_ =? _)%Z; now apply fail_D1p.
Qed.

Definition IHok (n : nat) : Prop := forall m, (m < n)%nat -> forall recs e f s, ok2 e = true -> wf e = true -> recs_ok recs -> De s ->
  lout (eval O m false recs e f s).

Lemma wf_seq2 e1 e2 : wf (ESeq [e1; e2]) = true -> wf e1 = true /\ wf e2 = true.
Proof. cbn [wf forallb]. rewrite !andb_true_iff. tauto. Qed.
Lemma wf_choice2 e1 e2 : wf (EChoice [e1; e2]) = true -> wf e1 = true /\ wf e2 = true.
Proof. cbn [wf forallb]. rewrite !andb_true_iff. tauto. Qed.

Lemma core_D1 n recs e f s : IHok n -> body_core e = true -> wf e = true -> recs_ok recs -> D1 s ->
  match eval O n false recs e f s with RVal _ _ s' => D1 s' | RFail s' => D1 s' \/ cur_rune (pt s) = 92 | _ => True end.
Proof.
  intros IH Hb Hw Hr H. destruct e as [| |l| | | | | | | | | | | |]; try discriminate Hb.
  destruct l as [|e1 [|[|[|[| | | | |[|c []] [] w| | | | | | | | |] [|[| | | |x| | | | | | | | | |] []]]| | | | | | | | | | | | |] []]]; try discriminate Hb.
  cbn [body_core] in Hb. apply andb_true_iff in Hb as [Hb Hx]. apply andb_true_iff in Hb as [Hb Ha]. apply andb_true_iff in Hb as [Hc Hl].
  apply N.eqb_eq in Hc. subst c.
  apply negb_true_iff in Ha. apply wf_choice2 in Hw as [Hw1 Hw2]. pose proof (wf_seq2 _ _ Hw2) as [Hwl Hwx].
  destruct n as [|n]; [exact Logic.I|]. cbn [eval choice_loop].
  set (s1 := tick s). assert (H1 : D1 s1) by exact H. change (pt s) with (pt s1). clearbody s1.
  pose proof (look_D1 n recs e1 [] s1 Hl Hw1 Hr H1) as B. pose proof (eval_good O (pt s1) n false recs e1 [] s1 Hw1 Hr (adv_refl _)) as G.
  destruct (eval O n false recs e1 [] s1) as [v f' s'|s'|s'|]; auto. destruct G as (G & _).
  assert (B1 : D1 s') by (unfold D1; now rewrite G). rewrite <- G. clear B s1 H1 G.
  destruct n as [|n]; [exact Logic.I|]. cbn [eval seq_loop].
  change (pt s') with (pt (tick s')). set (s1 := tick s'). assert (H1 : D1 s1) by exact B1. clearbody s1.
  pose proof (lit1_D1 n recs 92 w [] s1 Hwl H1) as B. destruct (eval O n false recs (ELit [92] false w) [] s1) as [v f' s2|s2|s2|]; auto.
  - destruct B as (B & Ec). destruct n as [|n]; [exact Logic.I|].
    assert (Bx : match eval O (S n) false recs (ERule x) f' s2 with RVal _ _ s' => D1 s' | _ => True end).
    { apply orb_true_iff in Hx as [Hx|Hx].
      - pose proof (IH (S n) ltac:(lia) recs (ERule x) f' s2 Hx Hwx Hr B) as L.
        destruct (eval O (S n) false recs (ERule x) f' s2); auto. now apply De_D1.
      - cbn [eval]. pose proof (look_D1 n recs (rules x) [] (tick s2) Hx (wf_rules x) Hr (De_D1 _ B)) as L.
        destruct (eval O n false recs (rules x) [] (tick s2)); first [exact Logic.I|exact L]. }
    destruct (eval O (S n) false recs (ERule x) f' s2); first [exact Logic.I|exact Bx|right; exact Ec].
  - destruct B as (B & Ep). left. unfold restore. rewrite Ep, Z.eqb_refl. exact B.
  - contradiction.
Qed.
Lemma body_D1 n recs e f s : IHok n -> body_ok e = true -> wf e = true -> recs_ok recs -> D1 s ->
  match eval O n false recs e f s with RVal _ _ s' => D1 s' | RFail s' => D1 s' \/ cur_rune (pt s) = 92 | _ => True end.
Proof.
  intros IH Hb Hw Hr H. destruct e; try (now apply core_D1). cbn [body_ok] in Hb. destruct n as [|n]; [exact Logic.I|]. cbn [eval].
  assert (IH' : IHok n) by (intros m Hm; apply IH; lia).
  pose proof (core_D1 n recs (rules r) [] (tick s) IH' Hb (wf_rules r) Hr H) as B. destruct (eval O n false recs (rules r) [] (tick s)); auto.
Qed.
Lemma star_D1 n recs e k : IHok n -> body_ok e = true -> wf e = true -> recs_ok recs -> forall acc f s, D1 s ->
  match star_loop (eval O n false recs) k e acc f s with RVal _ _ s' => D1 s' \/ cur_rune (pt s') = 92 | RFail _ => False | _ => True end.
Proof.
  intros IH Hb Hw Hr. induction k as [|k IHk]; intros acc f s H; cbn [star_loop]; [exact Logic.I|].
  pose proof (body_D1 n recs e [] s IH Hb Hw Hr H) as B. pose proof (eval_good O (pt s) n false recs e [] s Hw Hr (adv_refl _)) as G.
  destruct (eval O n false recs e [] s) as [v f' s'|s'|s'|]; [now apply IHk| |exact Logic.I|exact Logic.I]. destruct G as (G & _). now rewrite G.
Qed.

(** The closing character, or an error *)
Lemma close_De n recs r rr ls f s c w l cd : rules r = EChoice [ELit [c] false w; EThrow l] -> c <> 92 -> existsb (String.eqb l) ls = true ->
  rules rr = EState cd -> (D1 s \/ cur_rune (pt s) = 92) ->
  match eval O n false ((ls, ERule rr) :: recs) (ERule r) f s with RVal _ _ s' => De s' | RFail s' => errs s' <> [] | RPanic s' => False | RFuel => True end.
Proof.
  intros Er Nc El Es H. pose proof (wf_rules r) as Hw. rewrite Er in Hw. apply wf_choice2 in Hw as [Hw _].
  destruct n as [|n]; [exact Logic.I|]. cbn [eval]. rewrite Er.
  destruct n as [|n]; [exact Logic.I|]. cbn [eval choice_loop].
  set (s1 := tick (tick s)). assert (H1 : D1 s1 \/ cur_rune (pt s1) = 92) by exact H. clearbody s1. clear H.
  assert (B : match eval O n false ((ls, ERule rr) :: recs) (ELit [c] false w) [] s1 with
    | RVal _ _ s' => De s' | RFail s' => True | RPanic _ => False | RFuel => True end).
  { destruct H1 as [H1|H1].
    - pose proof (lit1_D1 n ((ls, ERule rr) :: recs) c w [] s1 Hw H1) as B. destruct (eval O n false _ (ELit [c] false w) [] s1); auto; apply B.
    - destruct n as [|n]; [exact Logic.I|]. cbn [eval lit_loop]. cbn zeta. change (pt (tick s1)) with (pt s1). rewrite H1.
      destruct (N.eqb_spec 92 c); [congruence|exact Logic.I]. }
  destruct (eval O n false ((ls, ERule rr) :: recs) (ELit [c] false w) [] s1) as [v f' s2|s2|s2|]; auto.
  destruct n as [|n]; [exact Logic.I|]. cbn [eval throw_loop]. rewrite El.
  destruct n as [|n]; [exact Logic.I|]. cbn [eval]. destruct n as [|n]; [exact Logic.I|]. rewrite Es. cbn [eval pop]. left. discriminate.
Qed.

Lemma wf_seq3 e1 e2 e3 : wf (ESeq [e1; e2; e3]) = true -> wf e1 = true /\ wf e2 = true /\ wf e3 = true.
Proof. cbn [wf forallb]. rewrite !andb_true_iff. tauto. Qed.

Theorem listed n : forall recs e f s, ok2 e = true -> wf e = true -> recs_ok recs -> De s -> lout (eval O n false recs e f s).
Proof.
  induction n as [n IH] using lt_wf_ind. change (IHok n) in IH. destruct n as [|n]; intros recs e f s0 Ho Hw Hr H0; [exact Logic.I|].
  cbn [eval]. set (s := tick s0). assert (H : De s) by exact H0. clearbody s. clear H0 s0.
  assert (Hg : forall inv p0 e f s, wf e = true -> adv p0 (pt s) -> good p0 (nullable e) s (eval O n inv recs e f s))
    by (intros; apply eval_good; auto).
  assert (Hv : forall e f s, ok2 e = true -> wf e = true -> De s -> lout (eval O n false recs e f s)) by (intros; apply IH; auto).
  assert (Hstar : forall e k, ok2 e = true -> wf e = true -> forall acc f s, De s ->
    match star_loop (eval O n false recs) k e acc f s with RVal _ _ s' => Fe s' | RFail _ => False | _ => True end).
  { intros e0 k Hoe Hwe. induction k as [|k IHk]; intros acc f0 s' Hs; cbn [star_loop]; [exact Logic.I|].
    pose proof (Hv e0 [] s' Hoe Hwe Hs) as B. destruct (eval O n false recs e0 [] s'); first [now apply IHk|exact B|exact Logic.I]. }
  destruct e as [a e|l|l|l e|r|w ic want|v chars ranges ic invd| |e|e|e|e|e rc ls|l|cd]; try discriminate Ho; cbn zeta; cbn [ok2] in Ho; pose proof Hw as Hw0;
    cbn [wf] in Hw; apply andb_true_iff in Hw as [_ Hw].
  - pose proof (Hv e f s Ho Hw H) as B. destruct (eval O n false recs e f s) as [v f' s'|s'|s'|]; auto.
    destruct (run_action _ _ _ _ _); cbn [lout]; auto. left. discriminate.
  - generalize (@nil val) as acc. generalize (pt s) as start. clear Hw0. revert f s H. induction l as [|e l IHl]; intros f s H start acc; cbn [seq_loop]; [exact H|].
    cbn [forallb] in Ho, Hw. apply andb_true_iff in Ho as [Ho1 Ho2]. apply andb_true_iff in Hw as [Hw1 Hw2].
    pose proof (Hv e f s Ho1 Hw1 H) as B. destruct (eval O n false recs e f s) as [v f' s'|s'|s'|]; auto.
    cbn [lout] in *. unfold restore. destruct (_ =? _)%Z; exact B.
  - clear Hw0. apply andb_true_iff in Ho as [Ho Hne].
    assert (Hl : forall s, De s -> (l = [] -> Fe s) -> lout (choice_loop (eval O n false recs) l f s)).
    { clear Hne H s. induction l as [|e l IHl]; intros s H Hf; cbn [choice_loop]; [now apply Hf|].
      cbn [forallb] in Ho, Hw. apply andb_true_iff in Ho as [Ho1 Ho2]. apply andb_true_iff in Hw as [Hw1 Hw2].
      pose proof (Hv e [] s Ho1 Hw1 H) as B. destruct (eval O n false recs e [] s) as [v f' s'|s'|s'|]; auto.
      apply IHl; auto. now apply Fe_De. }
    apply Hl; auto. intros ->. discriminate Hne.
  - pose proof (Hv e [] s Ho Hw H) as B. destruct (eval O n false recs e [] s); auto.
  - pose proof (Hv (rules r) [] s (ok2_rules r Ho) (wf_rules r) H) as B. destruct (eval O n false recs (rules r) [] s); auto.
  - apply negb_true_iff in Ho. pose proof (lit_loop_good (pt s) ic w Hw s) as G. pose proof (lit_mf ic w s) as Em.
    destruct (lit_loop ic w s) as [[s'|] s''].
    + destruct Em as (_ & Em). destruct G as (Ga & G & _). cbn [lout]. rewrite fail_none. apply (De_adv (pt s) s); auto. now apply (errs_steps (pt s)).
    + destruct Em as (Em & _). destruct G as (_ & G). cbn [lout].
      assert (B : Fe (fail_at false false (at_ (pt s)) want s'')) by (apply fail_Fe; auto; now apply (errs_steps (pt s))).
      unfold restore. destruct (_ =? _)%Z; exact B.
  - apply negb_true_iff in Ho. destruct (at_eof (pt s)) eqn:E; [apply fail_Fe; auto|]. destruct (xorb _ _); [|apply fail_Fe; auto].
    cbn [lout]. rewrite fail_none. apply (De_adv (pt s) s); auto; [apply mf_read| |].
    + apply (errs_step (pt s) s). apply st_read. now apply noeof_rest.
    + rewrite pt_read. apply adv_next. now apply noeof_rest.
  - apply andb_true_iff in Hw as [Hw _]. pose proof (Hstar e (S (length (rest (pt s)))) Ho Hw [] f s H) as B.
    destruct (star_loop _ _ _ _ _ _); auto; [now apply Fe_De|contradiction].
  - apply andb_true_iff in Hw as [Hw _]. pose proof (Hstar e (S (length (rest (pt s)))) Ho Hw [] f s H) as B.
    destruct (star_loop _ _ _ _ _ _) as [v f' s'|s'|s'|]; auto; [|contradiction]. destruct v; try (now apply Fe_De). destruct l; [exact B|now apply Fe_De].
  - pose proof (Hv e [] s Ho Hw H) as B. destruct (eval O n false recs e [] s); auto. now apply Fe_De.
  - (* strings *)
    apply andb_true_iff in Hw as [Hw Hd]. apply andb_true_iff in Hw as [Hw Hrc].
    destruct e as [a e| | | | | | | | | | | | | |]; try discriminate Ho.
    destruct e as [|l| | | | | | | | | | | | |]; try discriminate Ho.
    destruct l as [|[| | | | |[|c []] [] w| | | | | | | | |] [|[| | | | | | | | |body| | | | |] [|[| | | |r| | | | | | | | | |] []]]]; try discriminate Ho.
    destruct rc as [| | | |rr| | | | | | | | | |]; try discriminate Ho. cbn [string_shape] in Ho.
    apply andb_true_iff in Ho as [Ho Hs]. apply andb_true_iff in Ho as [Ho Hcl]. apply andb_true_iff in Ho as [Ha Hb].
    destruct (rules rr) as [| | | | | | | | | | | | | |cd] eqn:Err; try discriminate Hs. clear Hs.
    destruct (rules r) as [| |l| | | | | | | | | | | |] eqn:Er; try discriminate Hcl.
    destruct l as [|[| | | | |[|c' []] [] w'| | | | | | | | |] [|[| | | | | | | | | | | | |l|] []]]; try discriminate Hcl.
    apply andb_true_iff in Hcl as [Hc' Hl]. apply negb_true_iff, N.eqb_neq in Hc'.
    set (recs' := (ls, ERule rr) :: recs) in *.
    assert (Hr' : recs_ok recs') by (constructor; auto; cbn; split; auto; now apply Nat.leb_le).
    destruct n as [|n]; [exact Logic.I|]. cbn [eval]. destruct n as [|n]; [exact Logic.I|]. cbn [eval].
    cbn [wf] in Hw. apply andb_true_iff in Hw as [_ Hw]. change (wf (ESeq [ELit [c] false w; EStar body; ERule r]) = true) in Hw.
    apply wf_seq3 in Hw as (Hw1 & Hw2 & Hw3). pose proof Hw2 as Hw2'. cbn [wf] in Hw2'. apply andb_true_iff in Hw2' as [_ Hwb].
    apply andb_true_iff in Hwb as [Hwb _].
    set (s1 := tick (tick s)). assert (H1 : De s1) by exact H.
    enough (L : lout (seq_loop (eval O n false recs') (pt s1) [ELit [c] false w; EStar body; ERule r] [] f s1)).
    { change (pt (tick (tick s))) with (pt s1). destruct (seq_loop _ _ _ _ _ _) as [v f' s'|s'|s'|]; auto.
      destruct (run_action _ _ _ _ _); cbn [lout]; auto. left. discriminate. }
    clearbody s1. cbn [seq_loop].
    assert (Hlw : ok2 (ELit [c] false w) = true) by exact Ha.
    pose proof (IH n ltac:(lia) recs' (ELit [c] false w) f s1 Hlw Hw1 Hr' H1) as B1.
    destruct (eval O n false recs' (ELit [c] false w) f s1) as [v1 f1 s2|s2|s2|]; auto; [|unfold restore; destruct (_ =? _)%Z; exact B1].
    cbn [lout] in B1. apply De_D1 in B1.
    assert (B2 : match eval O n false recs' (EStar body) f1 s2 with RVal _ _ s' => D1 s' \/ cur_rune (pt s') = 92 | RFail _ => False | _ => True end).
    { destruct n as [|n]; [exact Logic.I|]. cbn [eval].
      assert (IH' : IHok n) by (intros m Hm; apply IH; lia).
      pose proof (star_D1 n recs' body (S (length (rest (pt (tick s2))))) IH' Hb Hwb Hr' [] f1 (tick s2) B1) as B.
      exact B. }
    destruct (eval O n false recs' (EStar body) f1 s2) as [v2 f2 s3|s3|s3|]; auto; [|contradiction].
    pose proof (close_De n recs r rr ls f2 s3 c' w' l cd Er Hc' Hl Err B2) as B3. fold recs' in B3.
    destruct (eval O n false recs' (ERule r) f2 s3) as [v3 f3 s4|s4|s4|]; auto; [|exact Logic.I].
    cbn [lout]. left. unfold restore. destruct (_ =? _)%Z; exact B3.
Qed.

(** The start rule *)
Theorem listed_start n f s : De s -> lout (eval O n false [] (rules RStart) f s).
Proof.
  intros H. cbn [rules]. destruct n as [|n]; [exact Logic.I|]. cbn [eval]. destruct n as [|n]; [exact Logic.I|].
  set (ex := eval O n false []). cbn [eval]. fold ex.
  enough (L : lout (seq_loop ex (pt (tick (tick s))) [ELabel "query" (ERule RQuery); ERule REOF] [] f (tick (tick s)))).
  { destruct (seq_loop _ _ _ _ _ _) as [v f' s'|s'|s'|]; auto. }
  assert (H1 : De (tick (tick s))) by exact H. set (s1 := tick (tick s)) in *. clearbody s1. cbn [seq_loop].
  pose proof (listed n [] (ELabel "query" (ERule RQuery)) f s1 eq_refl eq_refl (Forall_nil _) H1) as B. fold ex in B.
  destruct (ex (ELabel "query" (ERule RQuery)) f s1) as [v f' s'|s'|s'|]; auto; [|unfold restore; destruct (_ =? _)%Z; exact B].
  cbn [lout] in B.
  assert (B2 : lout (ex (ERule REOF) f' s')).
  { unfold ex. destruct n as [|n]; [exact Logic.I|]. cbn [eval rules]. destruct n as [|n]; [exact Logic.I|]. cbn [eval].
    destruct n as [|n]; [exact Logic.I|]. cbn [eval negb]. set (s2 := tick (tick (tick s'))). change (pt (tick (tick s'))) with (pt s2).
    assert (H2 : De s2) by exact B. clearbody s2. destruct (at_eof (pt s2)) eqn:E.
    - cbn [pop lout]. unfold restore. destruct (_ =? _)%Z; exact H2.
    - cbn [pop lout].
      enough (Hf : Fe (fail_at true true (at_ (pt s2)) "." (read s2))) by (unfold restore; destruct (_ =? _)%Z; exact Hf).
      change (fail_at true true (at_ (pt s2)) "." (read s2)) with (fail_at false false (at_ (pt s2)) "!." (read s2)).
      apply fail_Fe; [reflexivity|exact H2| |apply mf_read|reflexivity]. intros He. apply (errs_step (pt s2) s2); auto. apply st_read. now apply noeof_rest. }
  destruct (ex (ERule REOF) f' s') as [v2 f2 s2|s2|s2|]; auto. cbn [lout] in *. unfold restore. destruct (_ =? _)%Z; exact B2.
Qed.
End Listed.
