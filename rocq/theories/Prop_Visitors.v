(** C19, C20: visitors. *)
From Verif Require Import Bytes Oracles Ast AstSpec PegSyntax Engine Validators Visitors ParseQuery
  VisitorProofs TestOracle.

(** ** C19 *)
(** One visitor on one tree: the calls and the outcome are exactly those of [visits]. *)
Theorem C19_walk {W E T : Type} (v : visitor W E T) t s r s1 :
  walk v t s = (r, s1) <->
  exists o log, visits (visit v) (preorder t) s o log s1 /\
    match o with None => r = VNone | Some e => r = e end.
Proof.
  split.
  - intros H. destruct (walk_visits _ _ _ _ _ H) as [log Hl]. exists (final r), log. split; auto.
    destruct r; reflexivity.
  - intros (o & log & Hl & Hr). destruct (walk v t s) as [r' s'] eqn:Ew.
    destruct (walk_visits _ _ _ _ _ Ew) as [log' Hl'].
    destruct (visits_fun _ _ _ _ _ _ Hl _ _ _ Hl') as (-> & -> & ->). f_equal.
    destruct r'; cbn in Hr; congruence.
Qed.
Print Assumptions C19_walk.

(** A visitor that returns no error is called exactly once per node, in pre-order. *)
Theorem C19_every_node_once {W E T : Type} (v : visitor W E T) t s r s1 :
  (forall n s, fst (visit v n s) = VNone) ->
  walk v t s = (r, s1) -> r = VNone /\ visits (visit v) (preorder t) s None (preorder t) s1.
Proof.
  intros Hv H. destruct (walk_visits _ _ _ _ _ H) as [log Hl].
  destruct (visits_all _ _ _ _ _ _ Hv Hl) as [E1 E2]. subst log.
  destruct r; cbn in E1; try discriminate. auto.
Qed.
Print Assumptions C19_every_node_once.

(** ParseQuery: visitors only run on trees that passed the built-in checks, in order, until one
    returns an error; that error is the result. *)
Theorem C19_parse_query {W E T : Type} O (vs : list (visitor W E T * tape T)) q w :
  Forall (fun vt => first_err (snd vt) = None) vs ->
  match parse_plain O q with
  | QOk root => exists r w' ts logs, runs vs root w r w' ts logs /\
      match r with
      | None => parse_query O vs q w = (QOk root, w', ts)
      | Some (VParseErr p m) => parse_query O vs q w = (QErr (QVisitor p m), w', ts)
      | Some (VOtherErr e) => parse_query O vs q w = (QErr (QVisitorOther e), w', ts)
      | Some _ => False
      end
  | _ => snd (fst (parse_query O vs q w)) = w /\ snd (parse_query O vs q w) = map snd vs /\
      forall root, fst (fst (parse_query O vs q w)) <> QOk root
  end.
Proof.
  intros Hf. pose proof (parse_query_plain O vs q w) as H. destruct (parse_plain O q); auto.
  destruct (run_visitors vs n w) as [[e w'] ts] eqn:Er.
  destruct (run_visitors_spec vs n w e w' ts Hf Er) as (r & logs & Hr & He).
  exists r, w', ts, logs. split; auto. rewrite H.
  destruct r as [x|]; [|subst; reflexivity].
  destruct He as [He Hn]. destruct x; cbn in He; subst e; try congruence; reflexivity.
Qed.
Print Assumptions C19_parse_query.

(** A visitor logging the nodes it sees and skipping below NOT. *)
Definition logger : visitor (list node) unit unit :=
  VFunc (fun n w => (match n with NNot _ => VSkip | _ => VNone end, w ++ [n])).

Example C19_example :
  exists t l r e w ts,
    parse_query test_oracle [(logger, empty_tape)] (b "!a:1 OR b:2") [] = (QOk t, w, ts) /\
    t = NOr l r /\ l = NNot e /\ w = [t; l; r].
Proof. do 6 eexists. split; [vm_compute; reflexivity|repeat split; reflexivity]. Qed.

(** ** C20 *)
(** A message visitor that reports an error on its tape for every comparison. *)
Definition complainer : visitor unit unit unit :=
  VMsg (fun n w => (match n with
                    | NExpr _ _ _ p => [{| m_type := MError; m_pos := p; m_text := tt |}]
                    | _ => []
                    end, VNone, w)).

(** The query is accepted although an error is on the tape. *)
Theorem C20_tape_error_refuted :
  exists (v : visitor unit unit unit) q, forall O, exists t tp m,
    parse_query O [(v, empty_tape)] q tt = (QOk t, tt, [tp]) /\ In m (messages tp) /\ m_type m = MError.
Proof.
  exists complainer, (b "a:1"). intros O. do 3 eexists. split; [vm_compute; reflexivity|].
  split; [left; reflexivity|reflexivity].
Qed.
Print Assumptions C20_tape_error_refuted.

(** In fact no fresh tape ever makes ParseQuery fail. *)
Theorem C20_tape_never_rejects {W E T : Type} O (vs : list (visitor W E T * tape T)) q w m w' ts :
  Forall (fun vt => first_err (snd vt) = None) vs ->
  parse_query O vs q w <> (QErr (QTape m), w', ts).
Proof.
  intros Hf H. pose proof (parse_query_plain O vs q w) as Hp.
  pose proof (C19_parse_query O vs q w Hf) as H2. rewrite H in *.
  destruct (parse_plain O q) eqn:Ep.
  - destruct H2 as (r & w2 & ts2 & logs & _ & Hr). destruct r as [[]|]; try contradiction; congruence.
  - clear H2 Hp. revert H. unfold parse_plain, parse_query in *. cbn in Ep.
    destruct (parse O q) as [v| |]; cbn in *; try congruence. destruct v; cbn in *; try congruence.
    destruct (walk_validator O n); cbn in *; congruence.
  - revert H. unfold parse_plain, parse_query in *. cbn in Ep.
    destruct (parse O q) as [v| |]; cbn in *; try congruence. destruct v; cbn in *; try congruence.
    destruct (walk_validator O n); cbn in *; congruence.
  - revert H. unfold parse_plain, parse_query in *. cbn in Ep.
    destruct (parse O q) as [v| |]; cbn in *; try congruence. destruct v; cbn in *; try congruence.
    destruct (walk_validator O n); cbn in *; congruence.
Qed.
Print Assumptions C20_tape_never_rejects.

Example C20_example : exists t tp,
  parse_query test_oracle [(complainer, empty_tape)] (b "a:1 AND b:2") tt = (QOk t, tt, [tp]) /\
  length (messages tp) = 2%nat.
Proof. do 2 eexists. split; vm_compute; reflexivity. Qed.
