(** Lemmas about tree walks. *)
From Verif Require Import Bytes Oracles Ast AstSpec PegSyntax Engine Validators Visitors ParseQuery.

Section P.
Context {W E T : Type}.

Definition final (r : verdict E T) : option (verdict E T) :=
  match r with VNone => None | _ => Some r end.

Lemma preorder_skip (n : node) l : skipn (length (preorder n) - 1) (tl (preorder n) ++ l) = l.
Proof.
  assert (H : preorder n = n :: tl (preorder n)) by (destruct n; reflexivity).
  assert (L : (length (preorder n) - 1 = length (tl (preorder n)))%nat) by (rewrite H; cbn; lia).
  rewrite L. rewrite skipn_app, skipn_all, Nat.sub_diag. reflexivity.
Qed.

(** walkr on a node followed by pending nodes [l]. *)
Lemma walkr_visits (v : visitor W E T) n : forall s r s1, walkr v n s = (r, s1) ->
  match r with
  | VNone => forall l r2 log s2, visits (visit v) l s1 r2 log s2 ->
               exists log', visits (visit v) (preorder n ++ l) s r2 log' s2
  | VSkip => False
  | VSkipAll => forall l, exists log', visits (visit v) (preorder n ++ l) s None log' s1
  | e => forall l, exists log', visits (visit v) (preorder n ++ l) s (Some e) log' s1
  end.
Proof.
  assert (Two : forall x y,
    (forall s r s1, walkr v x s = (r, s1) -> match r with
      | VNone => forall l r2 log s2, visits (visit v) l s1 r2 log s2 -> exists log', visits (visit v) (preorder x ++ l) s r2 log' s2
      | VSkip => False | VSkipAll => forall l, exists log', visits (visit v) (preorder x ++ l) s None log' s1
      | e => forall l, exists log', visits (visit v) (preorder x ++ l) s (Some e) log' s1 end) ->
    (forall s r s1, walkr v y s = (r, s1) -> match r with
      | VNone => forall l r2 log s2, visits (visit v) l s1 r2 log s2 -> exists log', visits (visit v) (preorder y ++ l) s r2 log' s2
      | VSkip => False | VSkipAll => forall l, exists log', visits (visit v) (preorder y ++ l) s None log' s1
      | e => forall l, exists log', visits (visit v) (preorder y ++ l) s (Some e) log' s1 end) ->
    forall s r s1,
     (let '(r1, s2) := walkr v x s in match r1 with VNone | VSkip => walkr v y s2 | _ => (r1, s2) end) = (r, s1) ->
     match r with
      | VNone => forall l r2 log s2, visits (visit v) l s1 r2 log s2 -> exists log', visits (visit v) ((preorder x ++ preorder y) ++ l) s r2 log' s2
      | VSkip => False | VSkipAll => forall l, exists log', visits (visit v) ((preorder x ++ preorder y) ++ l) s None log' s1
      | e => forall l, exists log', visits (visit v) ((preorder x ++ preorder y) ++ l) s (Some e) log' s1 end).
  { intros x y Hx Hy s r s1 H. destruct (walkr v x s) as [r1 s2] eqn:Ex. specialize (Hx _ _ _ Ex).
    destruct r1.
    - specialize (Hy _ _ _ H). destruct r; auto.
      + intros l r2 log s3 Hl. destruct (Hy _ _ _ _ Hl) as [log' Hl'].
        rewrite <- app_assoc. eauto.
      + intros l. destruct (Hy l) as [log' Hl']. rewrite <- app_assoc. eauto.
      + intros l. destruct (Hy l) as [log' Hl']. rewrite <- app_assoc. eauto.
      + intros l. destruct (Hy l) as [log' Hl']. rewrite <- app_assoc. eauto.
    - destruct Hx.
    - injection H as <- <-. intros l. rewrite <- app_assoc. auto.
    - injection H as <- <-. intros l. rewrite <- app_assoc. auto.
    - injection H as <- <-. intros l. rewrite <- app_assoc. auto. }
  assert (Node : forall n, forall (rest : W * tape T -> verdict E T * (W * tape T)) s r s1,
     (let '(r0, s0) := visit v n s in match r0 with VNone => rest s0 | VSkip => (VNone, s0) | _ => (r0, s0) end) = (r, s1) ->
     (forall s r s1, rest s = (r, s1) -> match r with
      | VNone => forall l r2 log s2, visits (visit v) l s1 r2 log s2 -> exists log', visits (visit v) (tl (preorder n) ++ l) s r2 log' s2
      | VSkip => False | VSkipAll => forall l, exists log', visits (visit v) (tl (preorder n) ++ l) s None log' s1
      | e => forall l, exists log', visits (visit v) (tl (preorder n) ++ l) s (Some e) log' s1 end) ->
     match r with
      | VNone => forall l r2 log s2, visits (visit v) l s1 r2 log s2 -> exists log', visits (visit v) (n :: tl (preorder n) ++ l) s r2 log' s2
      | VSkip => False | VSkipAll => forall l, exists log', visits (visit v) (n :: tl (preorder n) ++ l) s None log' s1
      | e => forall l, exists log', visits (visit v) (n :: tl (preorder n) ++ l) s (Some e) log' s1 end).
  { clear n. intros n rest s r s1 H Hrest. destruct (visit v n s) as [r0 s0] eqn:Ev. destruct r0.
    - specialize (Hrest _ _ _ H). destruct r; auto.
      + intros l r2 log s2 Hl. destruct (Hrest _ _ _ _ Hl) as [log' ?]. eexists. eapply vs_next; eauto.
      + intros l. destruct (Hrest l) as [log' ?]. eexists. eapply vs_next; eauto.
      + intros l. destruct (Hrest l) as [log' ?]. eexists. eapply vs_next; eauto.
      + intros l. destruct (Hrest l) as [log' ?]. eexists. eapply vs_next; eauto.
    - injection H as <- <-. intros l r2 log s2 Hl. eexists. eapply vs_skip; eauto. rewrite preorder_skip. eauto.
    - injection H as <- <-. intros l. eexists. eapply vs_skip_all; eauto.
    - injection H as <- <-. intros l. eexists. eapply vs_err; eauto; discriminate.
    - injection H as <- <-. intros l. eexists. eapply vs_err; eauto; discriminate. }
  induction n as [x IHx y IHy|x IHx y IHy|x IHx|o f vs p]; intros s r s1 H; cbn [walkr] in H.
  - apply (Node (NAnd x y) (fun s1 => let '(r1, s2) := walkr v x s1 in match r1 with VNone | VSkip => walkr v y s2 | _ => (r1, s2) end) _ _ _ H).
    intros. now apply Two.
  - apply (Node (NOr x y) (fun s1 => let '(r1, s2) := walkr v x s1 in match r1 with VNone | VSkip => walkr v y s2 | _ => (r1, s2) end) _ _ _ H).
    intros. now apply Two.
  - apply (Node (NNot x) (walkr v x) _ _ _ H). intros. now apply IHx.
  - apply (Node (NExpr o f vs p) (fun s => (VNone, s)) _ _ _ H).
    intros ? ? ? [= <- <-]. cbn. eauto.
Qed.

Lemma walk_visits (v : visitor W E T) n s r s1 : walk v n s = (r, s1) ->
  exists log, visits (visit v) (preorder n) s (final r) log s1.
Proof.
  unfold walk. destruct (walkr v n s) as [r0 s0] eqn:Ew. pose proof (walkr_visits v n _ _ _ Ew) as H.
  destruct r0; intros [= <- <-]; cbn [final]; try tauto.
  - destruct (H [] None [] s0) as [log Hl]; [constructor|]. rewrite app_nil_r in Hl. eauto.
  - destruct (H []) as [log Hl]. rewrite app_nil_r in Hl. eauto.
  - destruct (H []) as [log Hl]. rewrite app_nil_r in Hl. eauto.
  - destruct (H []) as [log Hl]. rewrite app_nil_r in Hl. eauto.
Qed.

Lemma visits_fun {S : Type} (call : node -> S -> verdict E T * S) l s r log s1 :
  visits call l s r log s1 -> forall r' log' s1', visits call l s r' log' s1' -> r = r' /\ log = log' /\ s1 = s1'.
Proof.
  induction 1; intros r' log' s1' H'; inversion H'; subst;
  repeat match goal with
    | H1 : call ?n ?s = _, H2 : call ?n ?s = _ |- _ => rewrite H1 in H2; injection H2; clear H2; intros; subst
    end; try congruence; auto;
  match goal with
  | IH : (forall r' log' s1', visits _ _ _ r' log' s1' -> _), H : visits _ _ _ _ _ _ |- _ =>
      destruct (IH _ _ _ H) as (<- & <- & <-); auto
  end.
Qed.

(** Without tape errors ([first_err] is never set, see C20) the visitor list runs as specified. *)
Lemma fold_add_none (ms : list (message T)) t : first_err t = None -> first_err (fold_left add_msg ms t) = None.
Proof.
  revert t; induction ms as [|m ms IH]; intros t Ht; cbn; auto. apply IH.
  unfold add_msg; cbn. rewrite Ht. destruct (m_type m); reflexivity.
Qed.

Lemma visit_tape (v : visitor W E T) n s r s1 : visit v n s = (r, s1) ->
  first_err (snd s) = None -> first_err (snd s1) = None.
Proof.
  destruct v; cbn.
  - destruct (f n (fst s)); intros [= <- <-]; auto.
  - destruct (f n (fst s)) as [[ms ?] ?]; intros [= <- <-] H; cbn. now apply fold_add_none.
Qed.

Lemma visits_tape (v : visitor W E T) l s r log s1 : visits (visit v) l s r log s1 ->
  first_err (snd s) = None -> first_err (snd s1) = None.
Proof.
  induction 1; intros Hs; auto;
  match goal with H : visit _ _ _ = _ |- _ => apply visit_tape in H; auto end.
Qed.

Lemma verdict_not_skip (v : visitor W E T) n s r s1 : walk v n s = (r, s1) -> r <> VSkip /\ r <> VSkipAll.
Proof.
  unfold walk. destruct (walkr v n s) as [[] ?]; intros [= <- <-]; split; discriminate.
Qed.

Definition to_qerr (e : verdict E T) : option (qerr E T) :=
  match e with
  | VParseErr p m => Some (QVisitor p m)
  | VOtherErr e => Some (QVisitorOther e)
  | _ => None
  end.

Lemma run_visitors_spec (vs : list (visitor W E T * tape T)) root : forall w e w' ts,
  Forall (fun vt => first_err (snd vt) = None) vs ->
  run_visitors vs root w = (e, w', ts) ->
  exists r logs, runs vs root w r w' ts logs /\
    match r with None => e = None | Some x => e = to_qerr x /\ e <> None end.
Proof.
  induction vs as [|[v t] vs IH]; intros w e w' ts Hf H; cbn in H.
  - injection H as <- <- <-. exists None, []. split; [constructor|auto].
  - inversion Hf as [|? ? Ht Hvs]; subst. cbn in Ht.
    destruct (walk v root (w, t)) as [r [w1 t1]] eqn:Ew.
    destruct (walk_visits _ _ _ _ _ Ew) as [log Hl].
    pose proof (visits_tape _ _ _ _ _ _ Hl Ht) as Ht1. cbn in Ht1.
    destruct (verdict_not_skip _ _ _ _ _ Ew) as [N1 N2].
    destruct r; try congruence; cbn [final] in Hl.
    + rewrite Ht1 in H.
      assert (Hgo : (let '(e, w'', ts) := run_visitors vs root w1 in (e, w'', t1 :: ts)) = (e, w', ts))
        by (destruct v; exact H).
      destruct (run_visitors vs root w1) as [[e1 w2] ts1] eqn:Er. injection Hgo as <- <- <-.
      destruct (IH _ _ _ _ Hvs Er) as (r & logs & Hr & He).
      exists r, (log :: logs). split; [eapply runs_next; eauto|auto].
    + injection H as <- <- <-. eexists _, _. split; [eapply runs_stop; eauto|]. cbn; split; [auto|discriminate].
    + injection H as <- <- <-. eexists _, _. split; [eapply runs_stop; eauto|]. cbn; split; [auto|discriminate].
Qed.

(** A visitor that never returns an error sees the whole pre-order. *)
Lemma visits_all {S : Type} (call : node -> S -> verdict E T * S) l s r log s1 :
  (forall n s, fst (call n s) = VNone) -> visits call l s r log s1 -> r = None /\ log = l.
Proof.
  intros Hc. induction 1; auto.
  - destruct IHvisits; subst; auto.
  - specialize (Hc n s). rewrite H in Hc. discriminate.
  - specialize (Hc n s). rewrite H in Hc. discriminate.
  - specialize (Hc n s). rewrite H in Hc. cbn in Hc. congruence.
Qed.
End P.

Section Q.
Context {W E T : Type} (O : oracles).

Lemma parse_query_plain (vs : list (visitor W E T * tape T)) q w :
  match parse_plain O q with
  | QOk root => 
      parse_query O vs q w = (let '(e, w', ts) := run_visitors vs root w in
        ((match e with Some e => QErr e | None => QOk root end), w', ts))
  | _ => snd (fst (parse_query O vs q w)) = w /\ snd (parse_query O vs q w) = map snd vs /\
      forall root, fst (fst (parse_query O vs q w)) <> QOk root
  end.
Proof.
  unfold parse_plain, parse_query. cbn [run_visitors map].
  destruct (parse O q) as [v|e es|]; cbn; try (repeat split; discriminate).
  destruct v; cbn; try (repeat split; discriminate).
  destruct (walk_validator O n); cbn; try (repeat split; discriminate).
  destruct (run_visitors vs n w) as [[[e|] w'] ts]; reflexivity.
Qed.

Lemma parse_plain_ok q root : parse_plain O q = QOk root <->
  parse O q = PVal (VNode root) /\ walk_validator O root = COk.
Proof.
  unfold parse_plain, parse_query. cbn.
  destruct (parse O q) as [v|e es|]; cbn; try (split; [discriminate|intros [? _]; discriminate]).
  destruct v; cbn; try (split; [discriminate|intros [? _]; discriminate]).
  destruct (walk_validator O n) eqn:Ev; cbn.
  - split; [intros [= ->]; auto|intros [[= ->] _]; auto].
  - split; [discriminate|intros [[= ->] ?]; congruence].
  - split; [discriminate|intros [[= ->] ?]; congruence].
Qed.
End Q.
