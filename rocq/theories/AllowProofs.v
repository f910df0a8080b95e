(** With the option AllowInvalidUTF8 parsing differs only in the errors about the encoding. *)
From Verif Require Import Bytes Utf8 Utf8Proofs Oracles Ast PegSyntax Grammar Actions Engine EngineBasics Allow.

Definition other (e : perr) : bool := match pe_kind e with KInvalidEncoding => false | _ => true end.
(** A state without the errors about the encoding. *)
Definition strip (s : state) : state :=
  {| pt := pt s; errs := filter other (errs s); mf_pos := mf_pos s; mf_exp := mf_exp s; cnt := cnt s |}.
Definition rstrip (r : res) : res :=
  match r with RVal v f s => RVal v f (strip s) | RFail s => RFail (strip s) | RPanic s => RPanic (strip s) | RFuel => RFuel end.

Lemma strip_tick s : strip (tick s) = tick (strip s). Proof. reflexivity. Qed.
Lemma strip_set s p : strip (set_pt s p) = set_pt (strip s) p. Proof. reflexivity. Qed.
Lemma strip_restore s p : strip (restore s p) = restore (strip s) p.
Proof. unfold restore. cbn. now destruct (_ =? _)%Z. Qed.
Lemma strip_fail i fl p w s : strip (fail_at i fl p w s) = fail_at i fl p w (strip s).
Proof. unfold fail_at. destruct (negb _); auto. cbn. destruct (_ <? _)%Z; auto. destruct (_ <? _)%Z; auto. Qed.
Lemma strip_read s : strip (read s) = allow_read (strip s).
Proof. unfold read, read_at, allow_read. cbn. destruct (_ && _); reflexivity. Qed.
Lemma pt_read_next s : pt (read s) = next_point (pt s).
Proof. unfold read, read_at. cbv zeta. destruct (_ && _); reflexivity. Qed.
Lemma strip_add s k p : k <> KInvalidEncoding -> strip (add_err s k p) = add_err (strip s) k p.
Proof. intros H. unfold strip, add_err. cbn. destruct k; try reflexivity. now destruct H. Qed.
Lemma strip_lit ic w : forall s, allow_lit ic w (strip s) =
  (option_map strip (fst (lit_loop ic w s)), strip (snd (lit_loop ic w s))).
Proof. induction w as [|c w IH]; intros s; cbn [lit_loop allow_lit]; [reflexivity|]. cbn [strip pt]. destruct (_ =? c); [|reflexivity]. rewrite <- strip_read. apply IH. Qed.

Section Loops.
Context (ev aev : expr -> frame -> state -> res).
Hypothesis Hev : forall e f s, aev e f (strip s) = rstrip (ev e f s).
Lemma seq_strip start es : forall acc f s, seq_loop aev start es acc f (strip s) = rstrip (seq_loop ev start es acc f s).
Proof.
  induction es as [|e es IH]; intros acc f s; cbn [seq_loop]; [reflexivity|]. rewrite Hev. destruct (ev e f s) as [v f' s1|s1|s1|]; cbn; auto. now rewrite strip_restore.
Qed.
Lemma choice_strip es : forall f s, choice_loop aev es f (strip s) = rstrip (choice_loop ev es f s).
Proof. induction es as [|e es IH]; intros f s; cbn [choice_loop]; [reflexivity|]. rewrite Hev. destruct (ev e [] s) as [v f' s1|s1|s1|]; cbn; auto. Qed.
Lemma star_strip e k : forall acc f s, star_loop aev k e acc f (strip s) = rstrip (star_loop ev k e acc f s).
Proof. induction k as [|k IH]; intros acc f s; cbn [star_loop]; [reflexivity|]. rewrite Hev. destruct (ev e [] s) as [v f' s1|s1|s1|]; cbn; auto. Qed.
Lemma throw_strip l recs : forall f s, throw_loop aev l recs f (strip s) = rstrip (throw_loop ev l recs f s).
Proof. induction recs as [|[ls e] recs IH]; intros f s; cbn [throw_loop]; [reflexivity|]. destruct (existsb _ ls); auto. rewrite Hev. destruct (ev e f s) as [v f' s1|s1|s1|]; cbn; auto. Qed.
End Loops.

Lemma action_kind O a f p t v k : run_action O a f p t = AErr v k -> k <> KInvalidEncoding.
Proof.
  destruct a; cbn; unfold bind_node; repeat match goal with |- context [match ?x with _ => _ end] => destruct x end; congruence.
Qed.
Lemma aeval_strip O n : forall inv recs e f s, aeval O n inv recs e f (strip s) = rstrip (eval O n inv recs e f s).
Proof.
  induction n as [|n IH]; intros inv recs e f s0; [reflexivity|]. cbn [aeval eval]. cbv zeta. rewrite <- strip_tick. set (s := tick s0). change (pt (strip s)) with (pt s).
  destruct e as [a e|l|l|l e|r|w ic want|v chars ranges ic invd| |e|e|e|e|e rc ls|l|cd].
  - rewrite IH. destruct (eval O n inv recs e f s) as [v f' s1|s1|s1|]; cbn; auto. destruct (run_action _ _ _ _ _) as [|? k|] eqn:E; cbn; auto. apply action_kind in E. now rewrite strip_add.
  - now apply seq_strip.
  - now apply choice_strip.
  - rewrite IH. destruct (eval O n inv recs e [] s) as [v f' s1|s1|s1|]; cbn; auto.
  - rewrite IH. destruct (eval O n inv recs (rules r) [] s) as [v f' s1|s1|s1|]; cbn; auto.
  - rewrite strip_lit. destruct (lit_loop ic w s) as [[s'|] s2]; cbn.
    + now rewrite strip_fail.
    + now rewrite strip_restore, strip_fail.
  - destruct (at_eof _); cbn; [now rewrite strip_fail|]. destruct (xorb _ _); cbn; rewrite strip_fail, ?strip_read, ?pt_read_next; reflexivity.
  - destruct (at_eof _); cbn; rewrite strip_fail, ?strip_read, ?pt_read_next; reflexivity.
  - rewrite IH. destruct (eval O n (negb inv) recs e [] s) as [v f' s1|s1|s1|]; cbn; auto; now rewrite strip_restore.
  - now apply star_strip.
  - rewrite (star_strip (eval O n inv recs)) by auto. destruct (star_loop _ _ _ _ _ _) as [v f' s1|s1|s1|]; cbn; auto. destruct v as [| |[|]| | | | | | |]; auto.
  - rewrite IH. destruct (eval O n inv recs e [] s) as [v f' s1|s1|s1|]; cbn; auto.
  - apply IH.
  - now apply throw_strip.
  - cbn. rewrite strip_add; [reflexivity|]. now destruct cd.
Qed.
Theorem allow_run_strip O q : allow_run O q = rstrip (run O q).
Proof.
  unfold allow_run, run. rewrite <- aeval_strip. f_equal. unfold allow_init, init_state, read_at. cbv zeta. destruct (_ && _); reflexivity.
Qed.

(** ** Valid text *)
Definition vp (p : point) : Prop := exists x, scalars x /\ rest p = encode x.
Definition ok (s : state) : Prop := vp (pt s) /\ Forall (fun e => pe_kind e <> KInvalidEncoding) (errs s).
Definition rok (r : res) : Prop := match r with RVal _ _ s | RFail s | RPanic s => ok s | RFuel => True end.
Lemma vp_width p : vp p -> (cur_rune p =? rune_error) && Nat.eqb (cur_width p) 1 = false.
Proof.
  intros (x & S & E). unfold cur_rune, cur_width. rewrite E. destruct x as [|c x]; [reflexivity|]. inversion S; subst. rewrite encode_cons, decode_encode_rune by assumption. cbn.
  destruct (N.eqb_spec c rune_error) as [->|]; reflexivity.
Qed.
Lemma vp_next p : vp p -> vp (next_point p).
Proof.
  intros (x & S & E). assert (exists y, scalars y /\ skipn (cur_width p) (rest p) = encode y) as (y & Sy & Ey).
  { unfold cur_width. rewrite E. destruct x as [|c x]; [exists []; split; [constructor|reflexivity]|]. inversion S; subst. exists x. split; [assumption|]. rewrite encode_cons, decode_encode_rune by assumption. cbn. now rewrite skipn_app, Nat.sub_diag, skipn_all. }
  exists y. split; [exact Sy|]. unfold next_point. destruct (_ =? 10); exact Ey.
Qed.
Lemma ok_read s : ok s -> ok (read s).
Proof. intros [A C]. unfold read, read_at. rewrite vp_width by now apply vp_next. split; [now apply vp_next|exact C]. Qed.
Lemma ok_restore s p : ok s -> vp p -> ok (restore s p).
Proof. intros [A C] H. unfold restore. destruct (_ =? _)%Z; split; auto. Qed.
Lemma ok_fail i fl p w s : ok s -> ok (fail_at i fl p w s).
Proof. intros [A C]. split; [now rewrite pt_fail|now rewrite errs_fail]. Qed.
Lemma ok_lit ic w : forall s, ok s -> ok (snd (lit_loop ic w s)) /\ forall s', fst (lit_loop ic w s) = Some s' -> ok s'.
Proof.
  induction w as [|c w IH]; intros s H; cbn [lit_loop]; [split; [exact H|intros s' [= <-]; exact H]|].
  destruct (_ =? c); [|split; [exact H|discriminate]]. apply IH. now apply ok_read.
Qed.
Section Loops2.
Context (ev : expr -> frame -> state -> res).
Hypothesis Hev : forall e f s, ok s -> rok (ev e f s).
Lemma seq_ok start es : vp start -> forall acc f s, ok s -> rok (seq_loop ev start es acc f s).
Proof.
  intros Hp. induction es as [|e es IH]; intros acc f s Hs; cbn [seq_loop]; [exact Hs|]. specialize (Hev e f s Hs). destruct (ev e f s) as [v f' s1|s1|s1|]; cbn in *; auto. now apply ok_restore.
Qed.
Lemma choice_ok es : forall f s, ok s -> rok (choice_loop ev es f s).
Proof. induction es as [|e es IH]; intros f s Hs; cbn [choice_loop]; [exact Hs|]. specialize (Hev e [] s Hs). destruct (ev e [] s) as [v f' s1|s1|s1|]; cbn in *; auto. Qed.
Lemma star_ok e k : forall acc f s, ok s -> rok (star_loop ev k e acc f s).
Proof. induction k as [|k IH]; intros acc f s Hs; cbn [star_loop]; [exact Logic.I|]. pose proof (Hev e [] s Hs) as H. destruct (ev e [] s) as [v f' s1|s1|s1|]; cbn in *; auto. Qed.
Lemma throw_ok l recs : forall f s, ok s -> rok (throw_loop ev l recs f s).
Proof. induction recs as [|[ls e] recs IH]; intros f s Hs; cbn [throw_loop]; [exact Hs|]. destruct (existsb _ ls); auto. specialize (Hev e f s Hs). destruct (ev e f s) as [v f' s1|s1|s1|]; cbn in *; auto. Qed.
End Loops2.
Lemma eval_ok O n : forall inv recs e f s, ok s -> rok (eval O n inv recs e f s).
Proof.
  induction n as [|n IH]; intros inv recs e f s0 Hs0; [exact Logic.I|]. cbn [eval]. cbv zeta. set (s := tick s0). assert (Hs : ok s) by exact Hs0. clearbody s. assert (Hp : vp (pt s)) by apply Hs.
  destruct e as [a e|l|l|l e|r|w ic want|v chars ranges ic invd| |e|e|e|e|e rc ls|l|cd].
  - specialize (IH inv recs e f s Hs). destruct (eval O n inv recs e f s) as [v f' s1|s1|s1|]; cbn in *; auto. destruct (run_action _ _ _ _ _) as [|? k|] eqn:E; cbn; auto. apply action_kind in E. split; [apply IH|constructor; [exact E|apply IH]].
  - now apply seq_ok; auto.
  - now apply choice_ok; auto.
  - specialize (IH inv recs e [] s Hs). destruct (eval O n inv recs e [] s) as [v f' s1|s1|s1|]; cbn in *; auto.
  - specialize (IH inv recs (rules r) [] s Hs). destruct (eval O n inv recs (rules r) [] s) as [v f' s1|s1|s1|]; cbn in *; auto.
  - destruct (ok_lit ic w s Hs) as [A C]. destruct (lit_loop ic w s) as [[s'|] s2]; cbn in *; [now apply ok_fail, C|]. apply ok_restore; [now apply ok_fail|exact Hp].
  - destruct (at_eof _); cbn; [now apply ok_fail|]. destruct (xorb _ _); cbn; apply ok_fail; [now apply ok_read|exact Hs].
  - destruct (at_eof _); cbn; apply ok_fail; [exact Hs|now apply ok_read].
  - specialize (IH (negb inv) recs e [] s Hs). destruct (eval O n (negb inv) recs e [] s) as [v f' s1|s1|s1|]; cbn in *; auto; now apply ok_restore.
  - now apply star_ok; auto.
  - pose proof (star_ok (eval O n inv recs) (IH inv recs) e (S (length (rest (pt s)))) [] f s Hs) as H. destruct (star_loop _ _ _ _ _ _) as [v f' s1|s1|s1|]; auto. destruct v as [| |[|]| | | | | | |]; auto.
  - specialize (IH inv recs e [] s Hs). destruct (eval O n inv recs e [] s) as [v f' s1|s1|s1|]; cbn in *; auto.
  - now apply IH.
  - now apply throw_ok; auto.
  - split; [exact Hp|constructor; [|apply Hs]]. now destruct cd.
Qed.
Lemma run_ok O t : scalars t -> rok (run O (encode t)).
Proof.
  intros S. apply eval_ok. unfold init_state, read_at. cbv zeta.
  match goal with |- context [if ?x =? 10 then ?a else ?c] => assert (V : vp (if x =? 10 then a else c)) by (exists t; split; [exact S|destruct (x =? 10); reflexivity]); set (p0 := if x =? 10 then a else c) in * end.
  rewrite vp_width by exact V. split; [exact V|constructor].
Qed.
