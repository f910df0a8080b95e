(** C134: the option AllowInvalidUTF8. *)
From Verif Require Import Bytes Utf8 Utf8Proofs Oracles Ast PegSyntax Grammar Actions Engine EngineBasics Allow AllowProofs TestOracle.

(** The errors a parse returns, oldest first. *)
Definition errors_in (r : presult) : list perr := match r with PErr e es => e :: es | _ => [] end.
Definition about_encoding (e : perr) : Prop := pe_kind e = KInvalidEncoding.

Lemma other_true e : other e = true <-> ~ about_encoding e.
Proof. unfold other, about_encoding. destruct (pe_kind e); split; intros H; try reflexivity; try (intros X; discriminate X); try discriminate. now destruct H. Qed.
Lemma filter_all {A} (f : A -> bool) l : Forall (fun x => f x = true) l -> filter f l = l.
Proof. induction 1 as [|x l H _ IH]; [reflexivity|]. cbn. now rewrite H, IH. Qed.
Lemma strip_ok s : ok s -> strip s = s.
Proof.
  intros [_ H]. unfold strip. rewrite filter_all; [now destruct s|]. eapply Forall_impl; [|exact H]. intros e. apply other_true.
Qed.
Lemma errors_finish v s : errors_in (finish v s) = rev (errs s).
Proof. unfold finish. now destruct (rev (errs s)). Qed.
Lemma filter_rev {A} (f : A -> bool) l : filter f (rev l) = rev (filter f l).
Proof. induction l as [|x l IH]; [reflexivity|]. cbn. rewrite filter_app, IH. cbn. destruct (f x); cbn; [reflexivity|now rewrite app_nil_r]. Qed.

(** On text in UTF-8 the option changes nothing. *)
Theorem C134_valid O t : scalars t -> allow_parse O (encode t) = parse O (encode t).
Proof.
  intros S. unfold allow_parse, parse. rewrite allow_run_strip. f_equal. pose proof (run_ok O t S) as R. destruct (run O (encode t)); cbn in *; now rewrite ?strip_ok.
Qed.
Print Assumptions C134_valid.

(** What is accepted without the option is accepted with it, with the same tree. *)
Theorem C134_accepted O q v : parse O q = PVal v -> allow_parse O q = PVal v.
Proof.
  unfold allow_parse, parse. rewrite allow_run_strip. destruct (run O q) as [v' f s|s|s|]; cbn [parse_result rstrip]; unfold finish.
  - destruct (rev (errs s)) as [|e es] eqn:E; [|discriminate]. intros [= ->]. cbn [strip errs]. rewrite <- filter_rev, E. reflexivity.
  - destruct (errs s) as [|e es] eqn:E; [cbn; rewrite ?E; intros X; discriminate X|]. rewrite ?E. destruct (rev (e :: es)) eqn:X; [|intros Y; discriminate Y]. apply (f_equal (@rev _)) in X. rewrite rev_involutive in X. discriminate.
  - cbn. destruct (rev (errs s)); intros X; discriminate X.
  - intros X; discriminate X.
Qed.
Print Assumptions C134_accepted.

(** A parse that has an error of another kind has all its other errors with the option, in their order, and no more. *)
Theorem C134_errors O q : (exists e, In e (errors_in (parse O q)) /\ ~ about_encoding e) ->
  exists l, errors_in (allow_parse O q) = l /\ Forall (fun e => ~ about_encoding e) l /\ l <> [] /\
    l = filter other (errors_in (parse O q)).
Proof.
  intros (e & I0 & N0). exists (filter other (errors_in (parse O q))).
  assert (F : errors_in (allow_parse O q) = filter other (errors_in (parse O q))).
  { revert I0. unfold allow_parse, parse. rewrite allow_run_strip. destruct (run O q) as [v' f s|s|s|]; cbn [parse_result rstrip].
    - rewrite !errors_finish. cbn [strip errs]. now rewrite filter_rev.
    - destruct (errs s) as [|x xs] eqn:E.
      + cbn [strip errs]. rewrite E. cbn [filter]. rewrite !errors_finish. cbn. rewrite E. reflexivity.
      + rewrite errors_finish, E. intros I0. apply in_rev in I0.
        assert (In e (filter other (errs s))) as I1 by (rewrite E; apply filter_In; split; [exact I0|now apply other_true]).
        cbn [strip errs]. destruct (filter other (errs s)) as [|y ys] eqn:Y; [destruct I1|].
        rewrite errors_finish. cbn [errs]. rewrite filter_rev, <- E. reflexivity.
    - rewrite !errors_finish. cbn [strip errs add_err]. intros _. rewrite filter_rev. cbn. reflexivity.
    - intros []. }
  split; [exact F|]. split; [apply Forall_forall; intros x Ix; apply filter_In in Ix as [_ Ix]; now apply other_true|]. split; [|reflexivity].
  intros X. assert (In e (filter other (errors_in (parse O q)))) as I1 by (apply filter_In; split; [exact I0|now apply other_true]). rewrite X in I1. destruct I1.
Qed.
Print Assumptions C134_errors.

(** If the only errors are about the encoding, the text is accepted with the option, or it does not match. *)
Theorem C134_only_encoding O q : errors_in (parse O q) <> [] -> Forall about_encoding (errors_in (parse O q)) ->
  (exists v, allow_parse O q = PVal v) \/ (exists l p, allow_parse O q = PErr {| pe_kind := KNoMatch l; pe_pos := p |} []).
Proof.
  unfold allow_parse, parse. rewrite allow_run_strip.
  assert (F : forall l, Forall about_encoding (rev l) -> filter other l = []).
  { intros l H. apply Forall_rev in H. rewrite rev_involutive in H. induction H as [|x l Hx _ IH]; [reflexivity|]. cbn. unfold other at 1. now rewrite Hx. }
  destruct (run O q) as [v' f s|s|s|]; cbn [parse_result rstrip]; intros Ne A.
  - rewrite errors_finish in A. left. exists v'. unfold finish. cbn [strip errs]. now rewrite (F _ A).
  - destruct (errs s) as [|x xs] eqn:E.
    + rewrite errors_finish in A. cbn in A. rewrite E in A. apply Forall_inv in A. discriminate A.
    + rewrite errors_finish, E in A. right. exists (mf_exp s), (mf_pos s). cbn [strip errs]. rewrite E, (F _ A). unfold finish. cbn. rewrite E, (F _ A). reflexivity.
  - rewrite errors_finish in A. cbn in A. apply Forall_app in A as [_ A]. apply Forall_inv in A. discriminate A.
  - now destruct Ne.
Qed.
Print Assumptions C134_only_encoding.

(** No error of a parse with the option is about the encoding. *)
Theorem C134_never O q : Forall (fun e => ~ about_encoding e) (errors_in (allow_parse O q)).
Proof.
  assert (F : forall l, Forall (fun e => ~ about_encoding e) (rev (filter other l))).
  { intros l. apply Forall_rev, Forall_forall. intros x Ix. apply filter_In in Ix as [_ Ix]. now apply other_true. }
  unfold allow_parse. rewrite allow_run_strip. destruct (run O q) as [v' f s|s|s|]; cbn [parse_result rstrip].
  - rewrite errors_finish. apply F.
  - destruct (errs (strip s)) as [|x xs] eqn:E.
    + rewrite errors_finish. cbn [add_err errs]. rewrite E. constructor; [intros X; discriminate X|constructor].
    + rewrite errors_finish. apply F.
  - rewrite errors_finish. cbn. apply Forall_app. split; [apply F|]. constructor; [intros X; discriminate X|constructor].
  - constructor.
Qed.
Print Assumptions C134_never.

(** A byte that is not UTF-8 in a string literal is read as the replacement character; outside of one the value is
    not known, and at the start nothing matches. *)
Example C134_example :
  (exists e es, parse test_oracle (b "a:" ++ [34; 255; 34]) = PErr e es /\ Forall about_encoding (e :: es)) /\
  (exists p p', allow_parse test_oracle (b "a:" ++ [34; 255; 34]) = PVal (VNode (NExpr EQ [b "a"] [AStr [239; 191; 189] p] p'))) /\
  (exists e e' es, parse test_oracle (b "a:" ++ [255]) = PErr e (e' :: es) /\ about_encoding e) /\
  (exists e es, allow_parse test_oracle (b "a:" ++ [255]) = PErr e es /\ pe_kind e = KUnknownValue [255]) /\
  (exists l p, allow_parse test_oracle [255] = PErr {| pe_kind := KNoMatch l; pe_pos := p |} []).
Proof.
  split; [|split; [|split; [|split]]].
  - do 2 eexists. split; [vm_compute; reflexivity|repeat constructor].
  - do 2 eexists. vm_compute. reflexivity.
  - do 3 eexists. split; [vm_compute; reflexivity|reflexivity].
  - do 2 eexists. split; [vm_compute; reflexivity|reflexivity].
  - do 2 eexists. vm_compute. reflexivity.
Qed.
