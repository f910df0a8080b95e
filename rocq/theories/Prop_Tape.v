(** C151: what a message visitor's function tells its tape is what Messages returns. *)
From Verif Require Import Bytes Oracles Ast AstSpec PegSyntax Engine Validators Visitors ParseQuery
  VisitorProofs Tape TestOracle Prop_Visitors.

Section Spec.
Context {W E T : Type}.

(** The message a call must leave. *)
Definition word_of (m : method) : msg_type :=
  match m with
  | Hint | HintWith | HintAt => MHint
  | Warning | WarningWith | WarningAt => MWarning
  | Error | ErrorWith | ErrorAt => MError
  end.
Definition placed (m : method) : Prop :=
  match m with Hint | Warning | Error => False | _ => True end.
Record shows (c : tape_call T) (m : message T) : Prop :=
  { sh_type : m_type m = word_of (c_method c);
    sh_text : m_text m = c_text c;
    sh_at : placed (c_method c) -> m_pos m = c_arg c;
    sh_nowhere : ~ placed (c_method c) ->
      (p_line (m_pos m) = 0 /\ p_col (m_pos m) = 0 /\ p_off (m_pos m) = -1 /\ p_len (m_pos m) = 0)%Z }.

(** The calls the function makes when it is called on the nodes of a list, one after the other. *)
Inductive says (f : node -> W -> list (tape_call T) * verdict E T * W)
  : list node -> W -> list (tape_call T) -> W -> Prop :=
| says_nil w : says f [] w [] w
| says_cons n l w cs r w1 cs' w2 :
    f n w = (cs, r, w1) -> says f l w1 cs' w2 -> says f (n :: l) w (cs ++ cs') w2.
End Spec.

Section Proofs.
Context {W E T : Type}.
Implicit Type f : node -> W -> list (tape_call T) * verdict E T * W.

Lemma fold_add_messages (ms : list (message T)) t :
  messages (fold_left add_msg ms t) = messages t ++ ms.
Proof.
  revert t. induction ms as [|m ms IH]; intros t; cbn; [now rewrite app_nil_r|].
  rewrite IH. cbn. rewrite <- app_assoc. reflexivity.
Qed.

(** One call leaves one message, whatever the tape. *)
Lemma call_shows (c : tape_call T) :
  exists m, (forall t, make_call t c = add_msg t m) /\ shows c m.
Proof.
  destruct c as [m p s]. destruct m; cbn; eexists; (split; [intros t; reflexivity|]);
    constructor; cbn; tauto.
Qed.

Lemma calls_show (cs : list (tape_call T)) :
  exists ms, (forall t, fold_left make_call cs t = fold_left add_msg ms t) /\ Forall2 shows cs ms.
Proof.
  induction cs as [|c cs (ms & IH & Hf)]; [exists []; split; [reflexivity|constructor]|].
  destruct (call_shows c) as (m & Hm & Hs). exists (m :: ms). split; [|now constructor].
  intros t. cbn. rewrite Hm. apply IH.
Qed.

(** A visit makes the calls of the function on the visitor's own tape. *)
Lemma visit_calls f n w (t : tape T) cs r w' :
  f n w = (cs, r, w') ->
  visit (fst (new_message_visitor f)) n (w, t) = (r, (w', fold_left make_call cs t)).
Proof.
  intros H. cbn. rewrite H. destruct (calls_show cs) as (ms & Hms & _).
  rewrite !Hms, fold_add_messages. reflexivity.
Qed.

Lemma visits_says f l w t o log w' t' :
  visits (visit (fst (new_message_visitor f))) l (w, t) o log (w', t') ->
  exists cs ms, says f log w cs w' /\ messages t' = messages t ++ ms /\ Forall2 shows cs ms.
Proof.
  remember (w, t) as s eqn:Es. remember (w', t') as s' eqn:Es'. intros H. revert w t w' t' Es Es'.
  assert (Hone : forall n w t r s1, visit (fst (new_message_visitor f)) n (w, t) = (r, s1) ->
    exists cs ms w1 t1, s1 = (w1, t1) /\ f n w = (cs, r, w1) /\ messages t1 = messages t ++ ms /\
      Forall2 shows cs ms).
  { intros n w t r s1 Hv. destruct (f n w) as [[cs r0] w1] eqn:Ef.
    rewrite (visit_calls f n w t _ _ _ Ef) in Hv. injection Hv as <- <-.
    destruct (calls_show cs) as (ms & Hms & Hf). exists cs, ms, w1, (fold_left make_call cs t).
    rewrite Hms, fold_add_messages. auto. }
  induction H as [s|n l s s1 r log s2 Hv H IH|n l s s1 r log s2 Hv H IH|n l s s1 Hv|n l s s1 e Hv N1 N2 N3];
    intros w t w' t' -> Es'.
  - injection Es' as <- <-. exists [], []. rewrite app_nil_r. repeat constructor.
  - destruct (Hone _ _ _ _ _ Hv) as (cs & ms & w1 & t1 & -> & Hf & Hm & Hs).
    destruct (IH _ _ _ _ eq_refl Es') as (cs2 & ms2 & Hsay & Hm2 & Hs2).
    exists (cs ++ cs2), (ms ++ ms2). split; [econstructor; eauto|]. split; [|now apply Forall2_app].
    now rewrite Hm2, Hm, app_assoc.
  - destruct (Hone _ _ _ _ _ Hv) as (cs & ms & w1 & t1 & -> & Hf & Hm & Hs).
    destruct (IH _ _ _ _ eq_refl Es') as (cs2 & ms2 & Hsay & Hm2 & Hs2).
    exists (cs ++ cs2), (ms ++ ms2). split; [econstructor; eauto|]. split; [|now apply Forall2_app].
    now rewrite Hm2, Hm, app_assoc.
  - destruct (Hone _ _ _ _ _ Hv) as (cs & ms & w1 & t1 & -> & Hf & Hm & Hs).
    injection Es' as <- <-. exists (cs ++ []), ms. rewrite app_nil_r at 2.
    split; [econstructor; eauto; constructor|]. auto.
  - destruct (Hone _ _ _ _ _ Hv) as (cs & ms & w1 & t1 & -> & Hf & Hm & Hs).
    injection Es' as <- <-. exists (cs ++ []), ms. rewrite app_nil_r at 2.
    split; [econstructor; eauto; constructor|]. auto.
Qed.

(** In a run of several visitors, the one at a given place either is not reached (its tape is as
    before) or visits the tree. *)
Lemma runs_nth (vs1 vs2 : list (visitor W E T * tape T)) v t root w r w' ts logs :
  runs (vs1 ++ (v, t) :: vs2) root w r w' ts logs ->
  (nth_error ts (length vs1) = Some t /\ r <> None) \/
  exists o log wa wb t', nth_error ts (length vs1) = Some t' /\
    nth_error logs (length vs1) = Some log /\
    visits (visit v) (preorder root) (wa, t) o log (wb, t').
Proof.
  revert w ts logs. induction vs1 as [|[v1 t1] vs1 IH]; intros w ts logs H; inversion H; subst; cbn.
  - right. do 5 eexists. eauto.
  - right. do 5 eexists. eauto.
  - left. split; [|discriminate].
    rewrite map_app. rewrite nth_error_app2 by (rewrite map_length; lia).
    rewrite map_length, Nat.sub_diag. reflexivity.
  - eapply IH; eauto.
Qed.
End Proofs.

(** ** C151 *)
(** Whatever other visitors are registered before and after it: the messages of a message visitor
    after ParseQuery are those its tape held before, followed by one message for each call its
    function made, in order; the function is called on the nodes [C19] says, and on none when the
    query is rejected before the visitors run or an earlier visitor ends the parse with an error. *)
Theorem C151_messages {W E T : Type} O f (vs1 vs2 : list (visitor W E T * tape T)) t q w r w' ts :
  Forall (fun vt => first_err (snd vt) = None) vs1 -> first_err t = None ->
  Forall (fun vt => first_err (snd vt) = None) vs2 ->
  parse_query O (vs1 ++ (fst (new_message_visitor f), t) :: vs2) q w = (r, w', ts) ->
  exists t' log wa cs wb ms,
    nth_error ts (length vs1) = Some t' /\ first_err t' = None /\
    says f log wa cs wb /\ messages_of t' = messages_of t ++ ms /\ Forall2 shows cs ms /\
    (log = [] /\ (forall root, r <> QOk root) \/ exists root o, parse_plain O q = QOk root /\
       visits (visit (fst (new_message_visitor f))) (preorder root) (wa, t) o log (wb, t')).
Proof.
  intros H1 Ht H2 H.
  assert (Hf : Forall (fun vt => first_err (snd vt) = None) (vs1 ++ (fst (new_message_visitor f), t) :: vs2)).
  { apply Forall_app. split; [exact H1|]. constructor; [exact Ht|exact H2]. }
  assert (Hnone : nth_error ts (length vs1) = Some t -> (forall root, r <> QOk root) ->
    exists t' log wa cs wb ms,
      nth_error ts (length vs1) = Some t' /\ first_err t' = None /\
      says f log wa cs wb /\ messages_of t' = messages_of t ++ ms /\ Forall2 shows cs ms /\
      (log = [] /\ (forall root, r <> QOk root) \/ exists root o, parse_plain O q = QOk root /\
         visits (visit (fst (new_message_visitor f))) (preorder root) (wa, t) o log (wb, t'))).
  { intros Hn Hrej. exists t, [], w, [], w, []. rewrite app_nil_r.
    repeat (split; [first [exact Hn|exact Ht|constructor|reflexivity]|]). left. auto. }
  assert (Hmap : nth_error (map snd (vs1 ++ (fst (new_message_visitor f), t) :: vs2)) (length vs1) = Some t).
  { rewrite map_app, nth_error_app2 by (rewrite map_length; lia).
    rewrite map_length, Nat.sub_diag. reflexivity. }
  pose proof (C19_parse_query O _ q w Hf) as P. rewrite H in P.
  destruct (parse_plain O q) as [root| | |] eqn:Ep;
    try (destruct P as (_ & P & Pr); cbn [fst snd] in P, Pr; apply Hnone; [rewrite P; exact Hmap|exact Pr]).
  destruct P as (o & w2 & ts2 & logs & Hr & Hres).
  assert (ts2 = ts) as -> by (destruct o as [[]|]; try contradiction; congruence).
  destruct (runs_nth _ _ _ _ _ _ _ _ _ _ Hr) as [[Hn Ho]|(o2 & log & wa & wb & t' & Hn & _ & Hv)];
    [apply Hnone; [exact Hn|]; intros root2; destruct o as [[]|]; try contradiction; congruence|].
  destruct (visits_says _ _ _ _ _ _ _ _ Hv) as (cs & ms & Hsay & Hm & Hs).
  pose proof (visits_tape _ _ _ _ _ _ Hv Ht) as Ht'. cbn in Ht'.
  exists t', log, wa, cs, wb, ms. repeat (split; [assumption|]). right. exists root, o2. auto.
Qed.
Print Assumptions C151_messages.

(** The usual case: a new message visitor alone, whose function returns no error. *)
Theorem C151_alone {W E T : Type} O (f : node -> W -> list (tape_call T) * verdict E T * W) q w r w' ts root :
  (forall n w, snd (fst (f n w)) = VNone) ->
  parse_plain O q = QOk root ->
  parse_query O [new_message_visitor f] q w = (r, w', ts) ->
  r = QOk root /\ exists t cs, ts = [t] /\ says f (preorder root) w cs w' /\
    Forall2 shows cs (messages_of t).
Proof.
  intros Hn Hp H.
  assert (Hf : Forall (fun vt => first_err (snd vt) = None) [new_message_visitor f])
    by (repeat constructor).
  pose proof (C19_parse_query O _ q w Hf) as P. rewrite H, Hp in P.
  destruct P as (o & w2 & ts2 & logs & Hr & Hres).
  assert (Hv : forall n s, fst (visit (fst (new_message_visitor f)) n s) = VNone).
  { intros n [w0 t0]. destruct (f n w0) as [[cs r0] w1] eqn:Ef.
    rewrite (visit_calls f n w0 t0 _ _ _ Ef). specialize (Hn n w0). rewrite Ef in Hn. exact Hn. }
  inversion Hr as [|v t vs root0 w0 e log w3 t3 Hvis|v t vs root0 w0 log w3 t3 r3 w4 ts3 logs3 Hvis Hrest];
    subst.
  - destruct (visits_all _ _ _ _ _ _ Hv Hvis). discriminate.
  - destruct (visits_all _ _ _ _ _ _ Hv Hvis) as [_ ->]. inversion Hrest; subst.
    destruct (visits_says _ _ _ _ _ _ _ _ Hvis) as (cs & ms & Hsay & Hm & Hs). cbn in Hm.
    injection Hres as -> -> ->. split; [reflexivity|]. exists t3, cs.
    split; [reflexivity|]. split; [exact Hsay|]. unfold messages_of. rewrite Hm. exact Hs.
Qed.
Print Assumptions C151_alone.

(** Beside a visitor that refuses NOT. *)
Definition refuser : visitor nat unit bytes :=
  VFunc (fun n w => (match n with NNot _ => VOtherErr tt | _ => VNone end, w)).

(** A function making two calls on every comparison and one, without a place, on every NOT. *)
Definition talker (n : node) (w : nat) : list (tape_call bytes) * verdict unit bytes * nat :=
  match n with
  | NExpr _ _ (v :: _) p =>
    ([{| c_method := HintWith; c_arg := p; c_text := b "seen" |};
      {| c_method := ErrorAt; c_arg := val_pos v; c_text := b "bad" |}], VNone, S w)
  | NNot _ => ([{| c_method := Warning; c_arg := no_position; c_text := b "not" |}], VNone, w)
  | _ => ([], VNone, w)
  end.

Example C151_example :
  (forall n w, snd (fst (talker n w)) = VNone) /\
  exists root t, parse_plain test_oracle (b "!a:1") = QOk root /\
    parse_query test_oracle [new_message_visitor talker] (b "!a:1") 0%nat = (QOk root, 1%nat, [t]) /\
    messages_of t =
      [{| m_type := MWarning; m_pos := no_position; m_text := b "not" |};
       {| m_type := MHint; m_pos := {| p_line := 1; p_col := 2; p_off := 1; p_len := 3 |}; m_text := b "seen" |};
       {| m_type := MError; m_pos := {| p_line := 1; p_col := 4; p_off := 3; p_len := 1 |}; m_text := b "bad" |}].
Proof.
  split; [intros [| | |? ? [|]]; reflexivity|].
  do 2 eexists. split; [vm_compute; reflexivity|]. split; vm_compute; reflexivity.
Qed.

Example C151_beside : exists root root2 t t2,
  parse_query test_oracle [(refuser, empty_tape); new_message_visitor talker] (b "a:1 OR b:2") 0%nat
    = (QOk root, 2%nat, [empty_tape; t]) /\ length (messages_of t) = 4%nat /\
  parse_query test_oracle [(refuser, empty_tape); new_message_visitor talker] (b "!a:1") 0%nat
    = (QErr (QVisitorOther tt), 0%nat, [empty_tape; empty_tape]) /\
  parse_plain test_oracle (b "!a:1") = QOk root2 /\
  parse_query test_oracle [new_message_visitor talker; (refuser, empty_tape)] (b "!a:1") 0%nat
    = (QErr (QVisitorOther tt), 1%nat, [t2; empty_tape]) /\ length (messages_of t2) = 3%nat.
Proof.
  do 4 eexists. split; [vm_compute; reflexivity|]. split; [reflexivity|].
  split; [vm_compute; reflexivity|]. split; [vm_compute; reflexivity|].
  split; [vm_compute; reflexivity|reflexivity].
Qed.

(** The tape is not emptied: a visitor used again, even for text that is no query, still gives the
    messages of the first query. *)
Example C151_again : exists root t t2,
  parse_query test_oracle [new_message_visitor talker] (b "!a:1") 0%nat = (QOk root, 1%nat, [t]) /\
  length (messages_of t) = 3%nat /\
  (exists e, parse_query test_oracle [(fst (new_message_visitor talker), t)] (b "a:") 0%nat
     = (QErr e, 0%nat, [t])) /\
  (exists root2, parse_query test_oracle [(fst (new_message_visitor talker), t)] (b "b:2") 0%nat
     = (QOk root2, 1%nat, [t2])) /\
  length (messages_of t2) = 5%nat /\ firstn 3 (messages_of t2) = messages_of t.
Proof.
  do 3 eexists. split; [vm_compute; reflexivity|]. split; [reflexivity|].
  split; [eexists; vm_compute; reflexivity|]. split; [eexists; vm_compute; reflexivity|].
  split; reflexivity.
Qed.
