(** With a limit parsing is as without until the limit is reached. *)
From Verif Require Import Bytes Utf8 Oracles Ast PegSyntax Grammar Actions Engine EngineBasics CostProofs Limit.

(** The state a result carries. *)
Definition rst (r : res) : option state := match r with RVal _ _ s | RFail s | RPanic s => Some s | RFuel => None end.
(** Nothing is forgotten: errors stay recorded and the counter does not fall. *)
Definition later (s s' : state) : Prop := cnt s <= cnt s' /\ exists l, errs s' = l ++ errs s.
Definition grows (s : state) (r : res) : Prop := match rst r with Some s' => later s s' | None => True end.
Lemma later_refl s : later s s. Proof. split; [lia|]. now exists []. Qed.
Lemma later_trans a c d : later a c -> later c d -> later a d.
Proof. intros [A [l L]] [A' [l' L']]. split; [lia|]. exists (l' ++ l). rewrite L', L. now rewrite app_assoc. Qed.
Lemma grows_trans a c r : later a c -> grows c r -> grows a r.
Proof. unfold grows. destruct (rst r); auto. apply later_trans. Qed.
Lemma later_eq a c d : later a c -> cnt d = cnt c -> errs d = errs c -> later a d.
Proof. intros [A L] B C. split; [lia|]. now rewrite C. Qed.
Lemma later_restore a s p : later a s -> later a (restore s p).
Proof. intros H. apply (later_eq a s); auto; unfold restore; destruct (_ =? _)%Z; reflexivity. Qed.
Lemma later_fail a s i fl p w : later a s -> later a (fail_at i fl p w s).
Proof. intros H. apply (later_eq a s); [auto|apply cnt_fail|apply errs_fail]. Qed.
Lemma later_add a s k p : later a s -> later a (add_err s k p).
Proof. intros [A [l L]]. split; [exact A|]. exists ({| pe_kind := k; pe_pos := p |} :: l). cbn. now rewrite L. Qed.
Lemma later_read a s : later a s -> later a (read s).
Proof.
  intros H. unfold read, read_at. cbv zeta. repeat match goal with |- context [if ?x then _ else _] => destruct x end; try (apply (later_eq a s); [exact H|reflexivity|reflexivity]);
    apply later_add; (apply (later_eq a s); [exact H|reflexivity|reflexivity]).
Qed.
Lemma later_lit ic w : forall s, later s (snd (lit_loop ic w s)) /\ forall s', fst (lit_loop ic w s) = Some s' -> later s s'.
Proof.
  induction w as [|c w IH]; intros s; cbn [lit_loop].
  - split; [apply later_refl|]. intros s' [= <-]. apply later_refl.
  - destruct (_ =? c); cbn; [|split; [apply later_refl|discriminate]].
    destruct (IH (read s)) as [A B]. pose proof (later_read s s (later_refl s)) as R. split; [eapply later_trans; eauto|]. intros s' E. eapply later_trans; eauto.
Qed.

Section Loops.
Context (ev : expr -> frame -> state -> res).
Hypothesis Hev : forall e f s, grows s (ev e f s).
Ltac go E IH := match goal with |- context [ev ?e ?f ?s] => pose proof (Hev e f s) as E; destruct (ev e f s) as [? ? ?|?|?|]; cbn in E |- *; auto end.
Lemma seq_grows start es : forall acc f s, grows s (seq_loop ev start es acc f s).
Proof.
  induction es as [|e es IH]; intros acc f s; cbn [seq_loop]; [apply later_refl|]. go H IH.
  - eapply grows_trans; [exact H|apply IH].
  - now apply later_restore.
Qed.
Lemma choice_grows es : forall f s, grows s (choice_loop ev es f s).
Proof.
  induction es as [|e es IH]; intros f s; cbn [choice_loop]; [apply later_refl|]. go H IH. eapply grows_trans; [exact H|apply IH].
Qed.
Lemma star_grows e k : forall acc f s, grows s (star_loop ev k e acc f s).
Proof.
  induction k as [|k IH]; intros acc f s; cbn [star_loop]; [exact Logic.I|]. go H IH. eapply grows_trans; [exact H|apply IH].
Qed.
Lemma throw_grows l recs : forall f s, grows s (throw_loop ev l recs f s).
Proof.
  induction recs as [|[ls e] recs IH]; intros f s; cbn [throw_loop]; [apply later_refl|]. destruct (existsb _ ls); auto. go H IH. eapply grows_trans; [exact H|apply IH].
Qed.
End Loops.

Lemma eval_grows O n : forall inv recs e f s, grows (tick s) (eval O (S n) inv recs e f s).
Proof.
  assert (T : forall a r, grows (tick a) r -> grows a r).
  { intros a r. apply grows_trans. split; [cbn; lia|now exists []]. }
  induction n as [n IH] using lt_wf_ind. intros inv recs e f s0.
  assert (Hev : forall inv recs e f s, grows s (eval O n inv recs e f s)).
  { intros i r e' f' s'. destruct n as [|m]; [exact Logic.I|]. apply T, IH. lia. }
  clear IH. cbn [eval]. set (s := tick s0).
  assert (G : forall i r e f, match eval O n i r e f s with RVal _ _ s' | RFail s' | RPanic s' => later s s' | RFuel => True end).
  { intros i r e' f'. specialize (Hev i r e' f' s). unfold grows in Hev. destruct (eval O n i r e' f' s); exact Hev. }
  destruct e as [a e|l|l|l e|r|w ic want|v chars ranges ic invd| |e|e|e|e|e rc ls|l|cd].
  - specialize (G inv recs e f). destruct (eval O n inv recs e f s) as [v f' s'|s'|s'|]; auto. destruct (run_action _ _ _ _ _); auto. now apply later_add.
  - apply seq_grows; auto.
  - apply choice_grows; auto.
  - specialize (G inv recs e []). destruct (eval O n inv recs e [] s) as [v f' s'|s'|s'|]; auto.
  - specialize (G inv recs (rules r) []). destruct (eval O n inv recs (rules r) [] s) as [v f' s'|s'|s'|]; auto.
  - destruct (later_lit ic w s) as [H1 H2]. destruct (lit_loop ic w s) as [[s'|] s2]; cbn in *.
    + apply later_fail; auto.
    + apply later_restore, later_fail; auto.
  - destruct (at_eof _); [apply later_fail, later_refl|]. destruct (xorb _ _); apply later_fail; [apply later_read|]; apply later_refl.
  - destruct (at_eof _); apply later_fail; [|apply later_read]; apply later_refl.
  - specialize (G (negb inv) recs e []). destruct (eval O n (negb inv) recs e [] s) as [v f' s'|s'|s'|]; auto; now apply later_restore.
  - apply star_grows; auto.
  - pose proof (star_grows _ (Hev inv recs) e (S (length (rest (pt s)))) [] f s) as H. unfold grows in H.
    destruct (star_loop _ _ _ _ _ _) as [v f' s'|s'|s'|]; auto. destruct v as [| |[|]| | | | | | |]; auto.
  - specialize (G inv recs e []). destruct (eval O n inv recs e [] s) as [v f' s'|s'|s'|]; auto.
  - apply Hev.
  - apply throw_grows; auto.
  - apply later_add, later_refl.
Qed.
Lemma eval_grows0 O n inv recs e f s : grows s (eval O n inv recs e f s).
Proof. destruct n as [|n]; [exact Logic.I|]. eapply grows_trans; [|apply eval_grows]. split; [cbn; lia|now exists []]. Qed.

Section Lim.
Context (O : oracles) (lim : N).

(** With the limit: the same, within it; or the limit is reached in a state that parsing without it comes by. *)
Definition same (r l : res) : Prop :=
  l = r /\ match rst r with Some s' => cnt s' <= lim | None => True end.
Definition over (s : state) (r l : res) : Prop :=
  exists s', l = RPanic s' /\ cnt s' = lim + 1 /\ later s s' /\ grows s' r.
Definition lsim (s : state) (r l : res) : Prop := same r l \/ over s r l.

Lemma over_trans s s1 r l : later s s1 -> over s1 r l -> over s r l.
Proof. intros H (s' & A & C & D & E). exists s'. repeat split; auto; try (destruct (later_trans _ _ _ H D)); auto. Qed.
Lemma lsim_trans s s1 r l : later s s1 -> lsim s1 r l -> lsim s r l.
Proof. intros H [A|A]; [now left|right; eapply over_trans; eauto]. Qed.

Section Loops2.
Context (ev lev : expr -> frame -> state -> res).
Hypothesis Hev : forall e f s, grows s (ev e f s).
Hypothesis Hl : forall e f s, cnt s <= lim -> lsim s (ev e f s) (lev e f s).
Lemma seq_sim start es : forall acc f s, cnt s <= lim -> lsim s (seq_loop ev start es acc f s) (seq_loop lev start es acc f s).
Proof.
  induction es as [|e es IH]; intros acc f s Hs; cbn [seq_loop]; [left; split; [reflexivity|exact Hs]|].
  pose proof (Hev e f s) as Hg. destruct (Hl e f s Hs) as [[E B]|(s' & E & C & L & G)]; rewrite E; clear E.
  - destruct (ev e f s) as [v f' s1|s1|s1|]; cbn in B, Hg; try (left; split; [reflexivity|cbn; rewrite ?cnt_restore; auto; fail]).
    eapply lsim_trans; [exact Hg|]. now apply IH.
  - right. exists s'. repeat split; auto; try apply L.
    destruct (ev e f s) as [v f' s1|s1|s1|]; cbn in G |- *; auto; [|now apply later_restore].
    eapply grows_trans; [exact G|]. now apply seq_grows.
Qed.
Lemma choice_sim es : forall f s, cnt s <= lim -> lsim s (choice_loop ev es f s) (choice_loop lev es f s).
Proof.
  induction es as [|e es IH]; intros f s Hs; cbn [choice_loop]; [left; split; [reflexivity|exact Hs]|].
  pose proof (Hev e [] s) as Hg. destruct (Hl e [] s Hs) as [[E B]|(s' & E & C & L & G)]; rewrite E; clear E.
  - destruct (ev e [] s) as [v f' s1|s1|s1|]; cbn in B, Hg; try (left; split; [reflexivity|cbn; auto; fail]).
    eapply lsim_trans; [exact Hg|]. now apply IH.
  - right. exists s'. repeat split; auto; try apply L.
    destruct (ev e [] s) as [v f' s1|s1|s1|]; cbn in G |- *; auto.
    eapply grows_trans; [exact G|]. now apply choice_grows.
Qed.
Lemma star_sim e k : forall acc f s, cnt s <= lim -> lsim s (star_loop ev k e acc f s) (star_loop lev k e acc f s).
Proof.
  induction k as [|k IH]; intros acc f s Hs; cbn [star_loop]; [left; split; [reflexivity|exact Logic.I]|].
  pose proof (Hev e [] s) as Hg. destruct (Hl e [] s Hs) as [[E B]|(s' & E & C & L & G)]; rewrite E; clear E.
  - destruct (ev e [] s) as [v f' s1|s1|s1|]; cbn in B, Hg; try (left; split; [reflexivity|cbn; auto; fail]).
    eapply lsim_trans; [exact Hg|]. now apply IH.
  - right. exists s'. repeat split; auto; try apply L.
    destruct (ev e [] s) as [v f' s1|s1|s1|]; cbn in G |- *; auto.
    eapply grows_trans; [exact G|]. now apply star_grows.
Qed.
Lemma throw_sim l recs : forall f s, cnt s <= lim -> lsim s (throw_loop ev l recs f s) (throw_loop lev l recs f s).
Proof.
  induction recs as [|[ls e] recs IH]; intros f s Hs; cbn [throw_loop]; [left; split; [reflexivity|exact Hs]|].
  destruct (existsb _ ls); auto.
  pose proof (Hev e f s) as Hg. destruct (Hl e f s Hs) as [[E B]|(s' & E & C & L & G)]; rewrite E; clear E.
  - destruct (ev e f s) as [v f' s1|s1|s1|]; cbn in B, Hg; try (left; split; [reflexivity|cbn; auto; fail]).
    eapply lsim_trans; [exact Hg|]. now apply IH.
  - right. exists s'. repeat split; auto; try apply L.
    destruct (ev e f s) as [v f' s1|s1|s1|]; cbn in G |- *; auto.
    eapply grows_trans; [exact G|]. now apply throw_grows.
Qed.
End Loops2.

Lemma leval_sim n : forall inv recs e f s, cnt s <= lim -> lsim s (eval O n inv recs e f s) (leval O lim n inv recs e f s).
Proof.
  induction n as [|n IH]; intros inv recs e f s0 Hs0; [left; split; [reflexivity|exact Logic.I]|].
  pose proof (eval_grows O n inv recs e f s0) as Hall.
  assert (T : later s0 (tick s0)) by (split; [cbn; lia|now exists []]).
  cbn [leval]. cbv zeta. destruct (N.ltb_spec lim (cnt (tick s0))) as [Hc|Hs].
  { right. exists (tick s0). repeat split; auto; try apply T. cbn in Hc |- *. lia. }
  apply (lsim_trans _ _ _ _ T). clear T Hall Hs0.
  cbn [eval]. cbv zeta. set (s := tick s0) in *.
  pose proof (eval_grows0 O n) as Hev.
  destruct e as [a e|l|l|l e|r|w ic want|v chars ranges ic invd| |e|e|e|e|e rc ls|l|cd];
    try (left; split; [reflexivity|]).
  - destruct (IH inv recs e f s Hs) as [[E B]|(s' & E & C & L & G)]; rewrite E; clear E.
    + left. split; [reflexivity|]. destruct (eval O n inv recs e f s) as [v f' s1|s1|s1|]; auto. destruct (run_action _ _ _ _ _); auto.
    + right. exists s'. repeat split; auto; try apply L. destruct (eval O n inv recs e f s) as [v f' s1|s1|s1|]; auto. destruct (run_action _ _ _ _ _); auto. now apply later_add.
  - apply seq_sim; auto.
  - apply choice_sim; auto.
  - destruct (IH inv recs e [] s Hs) as [[E B]|(s' & E & C & L & G)]; rewrite E; clear E.
    + left. split; [reflexivity|]. destruct (eval O n inv recs e [] s) as [v f' s1|s1|s1|]; auto.
    + right. exists s'. repeat split; auto; try apply L. destruct (eval O n inv recs e [] s) as [v f' s1|s1|s1|]; auto.
  - destruct (IH inv recs (rules r) [] s Hs) as [[E B]|(s' & E & C & L & G)]; rewrite E; clear E.
    + left. split; [reflexivity|]. destruct (eval O n inv recs (rules r) [] s) as [v f' s1|s1|s1|]; auto.
    + right. exists s'. repeat split; auto; try apply L. destruct (eval O n inv recs (rules r) [] s) as [v f' s1|s1|s1|]; auto.
  - destruct (lit_loop_cnt ic w s) as [H1 H2]. destruct (lit_loop ic w s) as [[s'|] s2]; cbn in *.
    + rewrite cnt_fail, (H2 s') by auto. exact Hs.
    + rewrite cnt_restore, cnt_fail, H1. exact Hs.
  - destruct (at_eof _); [cbn; rewrite cnt_fail; exact Hs|]. destruct (xorb _ _); cbn; rewrite cnt_fail, ?cnt_read; exact Hs.
  - destruct (at_eof _); cbn; rewrite cnt_fail, ?cnt_read; exact Hs.
  - destruct (IH (negb inv) recs e [] s Hs) as [[E B]|(s' & E & C & L & G)]; rewrite E; clear E.
    + left. split; [reflexivity|]. destruct (eval O n (negb inv) recs e [] s) as [v f' s1|s1|s1|]; cbn in *; rewrite ?cnt_restore; auto.
    + right. exists s'. repeat split; auto; try apply L. destruct (eval O n (negb inv) recs e [] s) as [v f' s1|s1|s1|]; auto; now apply later_restore.
  - apply star_sim; auto.
  - destruct (star_sim _ _ (Hev inv recs) (IH inv recs) e (S (length (rest (pt s)))) [] f s Hs) as [[E B]|(s' & E & C & L & G)]; rewrite E; clear E.
    + left. split; [reflexivity|]. destruct (star_loop _ _ _ _ _ _) as [v f' s1|s1|s1|]; auto. destruct v as [| |[|]| | | | | | |]; auto.
    + right. exists s'. repeat split; auto; try apply L. destruct (star_loop _ _ _ _ _ _) as [v f' s1|s1|s1|]; auto. destruct v as [| |[|]| | | | | | |]; auto.
  - destruct (IH inv recs e [] s Hs) as [[E B]|(s' & E & C & L & G)]; rewrite E; clear E.
    + left. split; [reflexivity|]. destruct (eval O n inv recs e [] s) as [v f' s1|s1|s1|]; auto.
    + right. exists s'. repeat split; auto; try apply L. destruct (eval O n inv recs e [] s) as [v f' s1|s1|s1|]; auto.
  - apply IH; auto.
  - apply throw_sim; auto.
  - exact Hs.
Qed.
End Lim.
