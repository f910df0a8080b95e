(** The parser with the option Memoize: every expression is evaluated at most once at every place. *)
From Verif Require Import Bytes Utf8 Utf8Proofs Oracles Ast PegSyntax Grammar Actions Engine EngineBasics Memo.
From Coq Require Import ZifyBool ZifyN ZifyNat Permutation.
Ltac forward H := match type of H with ?P -> _ => let h := fresh in assert (h : P); [|specialize (H h); clear h] end.

(** ** The expressions of the grammar *)
Definition child (e : expr) (i : nat) : option expr :=
  match e with
  | EAction _ e1 | ELabel _ e1 | ENot e1 | EStar e1 | EPlus e1 | EOpt e1 => match i with O => Some e1 | _ => None end
  | ESeq l | EChoice l => nth_error l i
  | ERecover e1 e2 _ => match i with O => Some e1 | S O => Some e2 | _ => None end
  | _ => None
  end.
Fixpoint node (r : rname) (path : list nat) : option expr :=
  match path with
  | [] => Some (rules r)
  | i :: p => match node r p with Some e => child e i | None => None end
  end.
Definition children (e : expr) : nat := match e with ESeq l | EChoice l => length l | ERecover _ _ _ => 2 | EAction _ _ | ELabel _ _ | ENot _ | EStar _ | EPlus _ | EOpt _ => 1 | _ => 0 end.
Lemma child_lt e i c : child e i = Some c -> (i < children e)%nat.
Proof.
  destruct e as [a e|l|l|l e|r|w ic want|v chars ranges ic invd| |e|e|e|e|e rc ls|l|c0]; cbn [child children];
    try discriminate; try (destruct i; [lia|discriminate]); try (destruct i as [|[|]]; [lia|lia|discriminate]); intros H; apply nth_error_Some; congruence.
Qed.
Fixpoint below (fuel : nat) (r : rname) (path : list nat) : list (rname * list nat) :=
  match fuel with
  | O => []
  | S fuel' => (r, path) :: match node r path with Some e => flat_map (fun i => below fuel' r (i :: path)) (seq 0 (children e)) | None => [] end
  end.
Definition all_rules : list rname :=
  [RStart; RQuery; ROrClause; RAndClause; RNotClause; RComparison; RField; RFieldPiece; RUnquotedFieldPiece; RQuotedFieldPiece; RStar; RValueList; RValue; RQuotedValue;
   REndingQuote; REscapedChar; REscapeSequence; RSingleCharEscape; RUnicodeEscape; RHexDigit; RValueChars; RRegexValue; RRegexChar; RRegexEscape; REndingSlash; RBareValue;
   RBoolValue; RFloatValue; RIntValue; RIPValue; ROctet; RCIDRBlock; RTimestamp; RdateTime; RfullDate; RdateFullyear; RdateMonth; RdateMday; RtimeHour; RtimeMinute; RtimeSecond;
   RtimeSecfrac; RtimeNumoffset; RtimeOffset; RpartialTime; RfullTime; RDigit4; RDigit2; RlogicalOR; RlogicalAND; RlogicalNOT; RopNoArgs; RopComp; R_ws; Rspace; REOL; REOF;
   RErrUntermStr; RErrUntermRegex].
Lemma all_rules_in r : In r all_rules.
Proof. destruct r; cbn; tauto. Qed.
Definition universe : list (rname * list nat) := flat_map (fun r => below 12 r []) all_rules.
Definition place_eq_dec (x y : rname * list nat) : {x = y} + {x <> y}.
Proof. repeat decide equality. Defined.
Definition inb (x : rname * list nat) : bool := if in_dec place_eq_dec x universe then true else false.
Lemma universe_closed : forallb (fun x => match node (fst x) (snd x) with Some e => forallb (fun i => inb (fst x, i :: snd x)) (seq 0 (children e)) | None => true end) universe = true.
Proof. vm_compute. reflexivity. Qed.
Lemma universe_all r path e : node r path = Some e -> In (r, path) universe.
Proof.
  revert e. induction path as [|i p IH]; intros e H.
  - apply in_flat_map. exists r. split; [apply all_rules_in|]. now left.
  - cbn [node] in H. destruct (node r p) as [e0|] eqn:E; [|discriminate]. specialize (IH e0 eq_refl).
    pose proof universe_closed as C. rewrite forallb_forall in C. specialize (C _ IH). cbn [fst snd] in C. rewrite E in C.
    rewrite forallb_forall in C. specialize (C i). assert (I : In i (seq 0 (children e0))) by (apply in_seq; apply child_lt in H; lia).
    specialize (C I). unfold inb in C. destruct (in_dec _ _ _) as [J|]; [exact J|discriminate].
Qed.
(** 312 expressions *)
Definition size : nat := length universe.

(** ** Points and offsets *)
Lemma adv_linear p q r : adv p q -> adv p r -> adv q r \/ adv r q.
Proof.
  intros H. revert r. induction H as [p|p q Hp H IH]; intros r Hr; [now left|].
  inversion Hr as [|? ? _ Hr']; subst; [right; eapply adv_step; eauto|auto].
Qed.
Lemma adv_same p q r : adv p q -> adv p r -> off (at_ q) = off (at_ r) -> q = r.
Proof. intros Hq Hr E. destruct (adv_linear _ _ _ Hq Hr) as [A|A]; [now apply adv_off|symmetry; now apply adv_off]. Qed.
Lemma adv_off_le p q : adv p q -> (off (at_ p) <= off (at_ q))%Z.
Proof. intros H. apply adv_spec in H as (t & _ & ->). lia. Qed.
Lemma adv_off_lt p q : adv p q -> q <> p -> (off (at_ p) < off (at_ q))%Z.
Proof. intros H N. pose proof (adv_off_le _ _ H). destruct (Z.eq_dec (off (at_ p)) (off (at_ q))) as [E|]; [destruct N; symmetry; now apply adv_off|lia]. Qed.
Lemma adv_both p q : adv p q -> adv q p -> p = q.
Proof. intros A B. apply adv_off; [exact A|]. apply adv_off_le in A, B. lia. Qed.

Lemma cnt_fail inv fl p w s : cnt (fail_at inv fl p w s) = cnt s.
Proof. unfold fail_at. destruct (negb _); [reflexivity|]. destruct (off p <? off (mf_pos s))%Z; [reflexivity|]. cbn zeta. destruct (off (mf_pos s) <? off p)%Z; reflexivity. Qed.
Lemma cnt_read s : cnt (read s) = cnt s.
Proof. unfold read, read_at. destruct (_ && _); reflexivity. Qed.
Lemma cnt_lit_loop ic w : forall s, match lit_loop ic w s with (Some s', _) => cnt s' = cnt s | (None, s') => cnt s' = cnt s end.
Proof.
  induction w as [|c w IH]; intros s; cbn [lit_loop]; [reflexivity|]. destruct (_ =? c); [|reflexivity].
  specialize (IH (read s)). rewrite cnt_read in IH. exact IH.
Qed.
Lemma read_adv s : at_eof (pt s) = false -> adv (pt s) (pt (read s)).
Proof. intros E. rewrite pt_read. apply adv_next. now apply noeof_rest. Qed.
Lemma read_ne s : at_eof (pt s) = false -> pt (read s) <> pt s.
Proof.
  intros E En. rewrite pt_read in En. pose proof (noeof_rest _ E) as Hne. pose proof (cur_width_bounds _ Hne).
  assert (L : length (rest (next_point (pt s))) = (length (rest (pt s)) - cur_width (pt s))%nat) by (rewrite next_point_rest, skipn_length; reflexivity).
  rewrite En in L. lia.
Qed.

Section Invariant.
Context (O : oracles) (p0 : point).

Definition is_expr (k : Z * key) : bool := match snd k with KExpr _ _ => true | _ => false end.
Definition ekeys (t : table) : list (Z * key) := filter is_expr (map fst t).
Definition kdepth (k : key) : nat := match k with KExpr r p => match node r p with Some e => depth e | None => 0 end | KRule _ => 0 end.
Definition knull (k : key) : bool := match k with KExpr r p => match node r p with Some e => nullable e | None => true end | KRule r => null_rule r end.
Definition valid (x : Z * key) : Prop :=
  (off (at_ p0) <= fst x <= off (at_ p0) + Z.of_nat (length (rest p0)))%Z /\ exists r p e, snd x = KExpr r p /\ node r p = Some e.
Definition sound (x : (Z * key) * result) : Prop :=
  exists p, adv p0 p /\ off (at_ p) = fst (fst x) /\ adv p (re_end (snd x)) /\
    (re_b (snd x) = false -> re_end (snd x) = p) /\ (re_b (snd x) = true -> knull (snd (fst x)) = false -> re_end (snd x) <> p).
(** [op] are the expressions whose evaluation has begun and not ended. *)
Definition Inv (op : list (Z * key)) (m : mstate) : Prop :=
  NoDup (op ++ ekeys (memo m)) /\ Forall valid (op ++ ekeys (memo m)) /\
  cnt (ms m) = N.of_nat (length (op ++ ekeys (memo m))) /\ Forall sound (memo m).

Definition mgood (nl : bool) (op : list (Z * key)) (n bound : nat) (m : mstate) (r : mres) : Prop :=
  match r with
  | MVal _ _ m' => Inv op m' /\ adv (pt (ms m)) (pt (ms m')) /\ (nl = false -> pt (ms m') <> pt (ms m))
  | MFail m' => Inv op m' /\ pt (ms m') = pt (ms m)
  | MPanic m' => exists op', Inv op' m'
  | MFuel => (n < bound)%nat
  end.
Definition clear_of (op : list (Z * key)) (m : mstate) (e : expr) : Prop :=
  Forall (fun x => (fst x < off (at_ (pt (ms m))))%Z \/ fst x = off (at_ (pt (ms m))) /\ (depth e < kdepth (snd x))%nat) op.

Lemma Inv_ms op m s : cnt s = cnt (ms m) -> Inv op m -> Inv op (with_ms m s).
Proof. intros E (A & B & C & D). repeat split; cbn [with_ms ms memo]; auto. congruence. Qed.
Lemma cnt_restore s p : cnt (restore s p) = cnt s.
Proof. unfold restore. destruct (_ =? _)%Z; reflexivity. Qed.
Lemma find_entry_in t o k r : find_entry t o k = Some r -> In ((o, k), r) t.
Proof.
  induction t as [|((o', k'), r') t IH]; cbn [find_entry]; [discriminate|]. destruct (Z.eqb_spec o o') as [->|]; [|intros H; right; auto].
  destruct (key_eq_dec k k') as [->|]; [intros [= ->]; now left|intros H; right; auto].
Qed.
Lemma find_entry_none t o r p : find_entry t o (KExpr r p) = None -> ~ In (o, KExpr r p) (ekeys t).
Proof.
  induction t as [|((o', k'), r') t IH]; cbn [find_entry]; [intros _ []|]. unfold ekeys. cbn [map filter fst].
  destruct (Z.eqb_spec o o') as [->|No].
  - destruct (key_eq_dec (KExpr r p) k') as [->|Nk]; [discriminate|]. intros H. specialize (IH H). destruct (is_expr (o', k')); [intros [E|J]; [congruence|now apply IH]|exact IH].
  - intros H. specialize (IH H). destruct (is_expr (o', k')); [intros [E|J]; [congruence|now apply IH]|exact IH].
Qed.
Lemma found_good op n B m f k x : Inv op m -> adv p0 (pt (ms m)) -> get_memo m k = Some x -> mgood (knull k) op n B m (found m f x).
Proof.
  intros I A G. unfold get_memo in G. apply find_entry_in in G. pose proof I as (_ & _ & _ & S). rewrite Forall_forall in S. specialize (S _ G). destruct S as (p & P1 & P2 & P3 & P4 & P5). cbn [fst snd] in *.
  assert (p = pt (ms m)) by (eapply adv_same; eauto). subst p. unfold found.
  assert (R : pt (restore (ms m) (re_end x)) = re_end x).
  { unfold restore. destruct (Z.eqb_spec (off (at_ (re_end x))) (off (at_ (pt (ms m))))) as [E|]; [|reflexivity]. now apply adv_off. }
  assert (I' : Inv op (with_ms m (restore (ms m) (re_end x)))) by (apply Inv_ms; [apply cnt_restore|exact I]).
  destruct (re_b x) eqn:Eb; cbn [mgood with_ms ms]; rewrite R; auto.
Qed.
Lemma keep_rule op n B m start f r x : adv p0 start -> pt (ms m) = start -> mgood (null_rule r) op n B m x -> mgood (null_rule r) op n B m (keep start (KRule r) (mpop f x)).
Proof.
  intros A E H. destruct x as [v f' m'|m'|m'|]; cbn [mpop keep mgood] in *; auto.
  - destruct H as (I & Ha & Hn). split; [|split; [exact Ha|exact Hn]]. destruct I as (I1 & I2 & I3 & I4). split; [|split; [|split]]; try assumption.
    cbn [set_memo memo]. constructor; [|exact I4]. exists start. cbn [fst snd re_b re_end knull]. rewrite <- E in *. split; [exact A|]. split; [reflexivity|]. split; [exact Ha|]. split; [discriminate|intros _; exact Hn].
  - destruct H as (I & Ha). split; [|exact Ha]. destruct I as (I1 & I2 & I3 & I4). split; [|split; [|split]]; try assumption.
    cbn [set_memo memo]. constructor; [|exact I4]. exists start. cbn [fst snd re_b re_end knull]. rewrite Ha, E. split; [exact A|]. split; [reflexivity|]. split; [apply adv_refl|]. split; [reflexivity|discriminate].
Qed.
Lemma keep_expr op n B m start r path x : adv p0 start -> pt (ms m) = start ->
  mgood (knull (KExpr r path)) ((off (at_ start), KExpr r path) :: op) n B m x -> mgood (knull (KExpr r path)) op n B m (keep start (KExpr r path) x).
Proof.
  intros A E. assert (K : forall m' v ok, Inv ((off (at_ start), KExpr r path) :: op) m' -> sound ((off (at_ start), KExpr r path), {| re_v := v; re_b := ok; re_end := pt (ms m') |}) -> Inv op (set_memo start (KExpr r path) v ok m')).
  { intros m' v ok (I1 & I2 & I3 & I4) S.
    assert (P : Permutation (((off (at_ start), KExpr r path) :: op) ++ ekeys (memo m')) (op ++ ekeys (memo (set_memo start (KExpr r path) v ok m')))) by (cbn [app]; apply Permutation_middle).
    split; [eapply Permutation_NoDup; eauto|]. split; [eapply Permutation_Forall; eauto|]. split; [cbn [set_memo ms]; rewrite I3; f_equal; now apply Permutation_length|].
    cbn [set_memo memo]. constructor; assumption. }
  intros H. destruct x as [v f' m'|m'|m'|]; cbn [keep mgood] in *; auto.
  - destruct H as (I & Ha & Hn). split; [|split; [exact Ha|exact Hn]]. apply K; [exact I|]. exists start. cbn [fst snd re_b re_end]. rewrite <- E in *. split; [exact A|]. split; [reflexivity|]. split; [exact Ha|]. split; [discriminate|intros _; exact Hn].
  - destruct H as (I & Ha). split; [|exact Ha]. apply K; [exact I|]. exists start. cbn [fst snd re_b re_end]. rewrite Ha, E. split; [exact A|]. split; [reflexivity|]. split; [apply adv_refl|]. split; [reflexivity|discriminate].
Qed.

(** ** The loops *)
Section Loops.
Context (op : list (Z * key)) (start : point) (n D : nat).
Context (from : adv p0 start).
(** What is known about the evaluation of a part [c] *)
Definition part_ok (c : expr) (ev : frame -> mstate -> mres) : Prop :=
  wf c = true /\ forall f m, Inv op m -> adv start (pt (ms m)) -> (pt (ms m) = start -> (depth c <= D)%nat) ->
    mgood (nullable c) op n (slack * length (rest (pt (ms m))) + depth c) m (ev f m).
Let bound := (slack * length (rest start) + D)%nat.
Lemma part_bound c m : wf c = true -> adv start (pt (ms m)) -> (pt (ms m) = start -> (depth c <= D)%nat) -> (slack * length (rest (pt (ms m))) + depth c <= bound)%nat.
Proof.
  intros W A H. apply wf_inv in W. unfold bound. destruct (adv_strict _ _ A) as [E|L]; [rewrite <- E in *; specialize (H eq_refl); lia|]. unfold slack in *. lia.
Qed.
Lemma mseq_good ev es : forall i acc f m, (forall j c, nth_error es j = Some c -> part_ok c (ev (i + j)%nat c)) -> Inv op m -> adv start (pt (ms m)) ->
  (pt (ms m) = start -> (seq_depth depth es <= D)%nat) ->
  match mseq ev start i es acc f m with
  | MVal _ _ m' => Inv op m' /\ adv (pt (ms m)) (pt (ms m')) /\ (forallb nullable es = false -> pt (ms m') <> pt (ms m))
  | MFail m' => Inv op m' /\ pt (ms m') = start
  | MPanic m' => exists op', Inv op' m'
  | MFuel => (n < bound)%nat
  end.
Proof.
  induction es as [|c es IH]; intros i acc f m Hp I A Hd; cbn [mseq].
  - split; [exact I|]. split; [apply adv_refl|discriminate].
  - destruct (Hp 0%nat c eq_refl) as (W & P). rewrite Nat.add_0_r in P. cbn [seq_depth] in Hd. fold (seq_depth depth) in Hd.
    assert (Hc : pt (ms m) = start -> (depth c <= D)%nat) by (intros E; specialize (Hd E); lia).
    specialize (P f m I A Hc). pose proof (part_bound c m W A Hc) as Bd. destruct (ev i c f m) as [v f' m'|m'|m'|]; cbn [mgood] in P.
    + destruct P as (I' & A' & N'). assert (A2 : adv start (pt (ms m'))) by (eapply adv_trans; eauto).
      specialize (IH (S i) (v :: acc) f' m'). forward IH. { intros j c' Hj. replace (S i + j)%nat with (i + S j)%nat by lia. now apply Hp. }
      specialize (IH I' A2). forward IH.
      { intros E. assert (pt (ms m) = start) by (apply adv_both; [rewrite <- E; exact A'|exact A]). specialize (Hd H). destruct (nullable c) eqn:En; [lia|]. exfalso. apply (N' eq_refl). congruence. }
      destruct (mseq ev start (S i) es (v :: acc) f' m') as [v2 f2 m2|m2|m2|]; auto. destruct IH as (J1 & J2 & J3). split; [exact J1|]. split; [eapply adv_trans; eauto|].
      cbn [forallb]. intros E. apply andb_false_iff in E. eapply adv_pt_ne; eauto. destruct E; [left|right]; auto.
    + destruct P as (I' & E'). split; [apply Inv_ms; [apply cnt_restore|exact I']|]. cbn [with_ms ms]. now rewrite restore_back by (rewrite E'; exact A).
    + exact P.
    + lia.
Qed.
Lemma mchoice_good ev es : forall i f m, (forall j c, nth_error es j = Some c -> part_ok c (ev (i + j)%nat c)) -> Inv op m -> pt (ms m) = start ->
  (max_depth depth es <= D)%nat -> mgood (existsb nullable es) op n bound m (mchoice ev i es f m).
Proof.
  induction es as [|c es IH]; intros i f m Hp I A Hd; cbn [mchoice]; [split; auto|].
  destruct (Hp 0%nat c eq_refl) as (W & P). rewrite Nat.add_0_r in P. cbn [max_depth] in Hd. fold (max_depth depth) in Hd.
  assert (As : adv start (pt (ms m))) by (rewrite A; apply adv_refl). assert (Hc : pt (ms m) = start -> (depth c <= D)%nat) by lia.
  specialize (P [] m I As Hc). pose proof (part_bound c m W As Hc) as Bd. destruct (ev i c [] m) as [v f' m'|m'|m'|]; cbn [mgood] in P.
  - destruct P as (I' & A' & N'). cbn [mpop mgood]. split; [exact I'|]. split; [exact A'|]. cbn [existsb]. intros E. apply orb_false_iff in E. now apply N'.
  - destruct P as (I' & E'). specialize (IH (S i) f m'). forward IH. { intros j c' Hj. replace (S i + j)%nat with (i + S j)%nat by lia. now apply Hp. }
    specialize (IH I' ltac:(congruence) ltac:(lia)). destruct (mchoice ev (S i) es f m') as [v2 f2 m2|m2|m2|]; cbn [mgood] in *; auto.
    + destruct IH as (J1 & J2 & J3). rewrite E' in *. split; [exact J1|]. split; [exact J2|]. cbn [existsb]. intros E. apply orb_false_iff in E. now apply J3.
    + destruct IH as (J1 & J2). split; [exact J1|congruence].
  - exact P.
  - cbn [mpop mgood]. lia.
Qed.
Lemma mstar_good ev c k : part_ok c (ev c) -> nullable c = false -> forall acc f m, Inv op m -> adv start (pt (ms m)) -> (depth c <= D)%nat -> (length (rest (pt (ms m))) < k)%nat ->
  match mstar ev k c acc f m with
  | MVal v _ m' => Inv op m' /\ adv (pt (ms m)) (pt (ms m')) /\ exists l, v = VList (rev acc ++ l) /\ (l = [] -> pt (ms m') = pt (ms m)) /\ (l <> [] -> pt (ms m') <> pt (ms m))
  | MFail m' => False
  | MPanic m' => exists op', Inv op' m'
  | MFuel => (n < bound)%nat
  end.
Proof.
  intros (W & P) Nl. induction k as [|k IH]; intros acc f m I A Hd Hk; cbn [mstar]; [lia|].
  specialize (P [] m I A ltac:(lia)). pose proof (part_bound c m W A ltac:(lia)) as Bd. destruct (ev c [] m) as [v f' m'|m'|m'|]; cbn [mgood] in P.
  - destruct P as (I' & A' & N'). specialize (N' Nl). assert (A2 : adv start (pt (ms m'))) by (eapply adv_trans; eauto).
    specialize (IH (v :: acc) f m' I' A2 Hd). forward IH. { destruct (adv_strict _ _ A') as [E|L]; [congruence|lia]. }
    destruct (mstar ev k c (v :: acc) f m') as [v2 f2 m2|m2|m2|]; auto. destruct IH as (J1 & J2 & l & -> & J3 & J4). split; [exact J1|]. split; [eapply adv_trans; eauto|].
    exists (v :: l). split; [cbn; now rewrite <- app_assoc|]. split; [discriminate|]. intros _. eapply adv_pt_ne; eauto.
  - destruct P as (I' & E'). split; [exact I'|]. rewrite E'. split; [apply adv_refl|]. exists []. rewrite app_nil_r. split; [reflexivity|]. split; [reflexivity|congruence].
  - exact P.
  - lia.
Qed.
End Loops.

Definition mrecs_ok (recs : list recovery) : Prop :=
  Forall (fun x => let '(_, (r, p, e)) := x in node r p = Some e /\ wf e = true /\ (depth e <= throw_depth)%nat) recs.
Lemma mthrow_good op start n ev l recs : adv p0 start -> mrecs_ok recs ->
  (forall r p e, node r p = Some e -> wf e = true -> (depth e <= throw_depth)%nat -> forall f m, Inv op m -> pt (ms m) = start -> mgood (nullable e) op n (slack * length (rest start) + throw_depth) m (ev r p e f m)) ->
  forall f m, Inv op m -> pt (ms m) = start -> mgood true op n (slack * length (rest start) + throw_depth) m (mthrow ev l recs f m).
Proof.
  intros A Hr Hev. induction recs as [|(ls, ((r, p), e)) recs IH]; intros f m I E; cbn [mthrow]; [split; auto|].
  inversion Hr as [|? ? Hx Hr']; subst. cbn beta iota in Hx. destruct Hx as (H1 & H2 & H3). destruct (existsb _ ls); [|now apply IH].
  pose proof (Hev r p e H1 H2 H3 f m I eq_refl) as G. destruct (ev r p e f m) as [v f' m'|m'|m'|]; cbn [mgood] in *; auto.
  - destruct G as (G1 & G2 & _). repeat split; auto; try apply G1. discriminate.
  - destruct G as (G1 & G2). specialize (IH Hr' f m' G1 G2). destruct (mthrow ev l recs f m'); cbn [mgood] in *; rewrite ?G2 in IH; auto.
Qed.

(** ** Evaluation *)
Theorem meval_good n : forall inv recs r path e f m op, node r path = Some e -> wf e = true -> mrecs_ok recs -> Inv op m -> adv p0 (pt (ms m)) -> clear_of op m e ->
  mgood (nullable e) op n (slack * length (rest (pt (ms m))) + depth e) m (meval O n inv recs r path e f m).
Proof.
  induction n as [|n IH]; intros inv recs r path e f m0 op Hp Hw Hr I0 A0 C0.
  { cbn [meval mgood]. destruct e; unfold depth; cbn [depth_with]; lia. }
  cbn [meval]. destruct (get_memo m0 (KExpr r path)) as [x|] eqn:G.
  { replace (nullable e) with (knull (KExpr r path)) by (cbn [knull]; now rewrite Hp). now apply found_good. }
  set (m := with_ms m0 (tick (ms m0))). assert (Ept : pt (ms m) = pt (ms m0)) by reflexivity.
  set (start := pt (ms m0)) in *. set (op' := (off (at_ start), KExpr r path) :: op). cbn zeta. rewrite Ept.
  assert (I' : Inv op' m).
  { unfold get_memo in G. apply find_entry_none in G. destruct I0 as (I1 & I2 & I3 & I4). split; [|split; [|split]].
    - cbn [op' app m with_ms memo]. constructor; [|exact I1]. rewrite in_app_iff. intros [J|J]; [|now apply G].
      unfold clear_of in C0. rewrite Forall_forall in C0. specialize (C0 _ J). cbn [fst snd kdepth] in C0. rewrite Hp in C0. fold start in C0. lia.
    - cbn [op' app m with_ms memo]. constructor; [|exact I2]. split; [|exists r, path, e; auto]. cbn [fst]. pose proof (adv_spec _ _ A0) as (t & T1 & T2). fold start in T1, T2. rewrite T2, T1, app_length. lia.
    - cbn [op' app m with_ms memo ms tick cnt length]. rewrite I3. lia.
    - exact I4. }
  assert (Hc : forall inv recs r2 p2 c f m2, mrecs_ok recs -> node r2 p2 = Some c -> wf c = true -> Inv op' m2 -> adv start (pt (ms m2)) -> (pt (ms m2) = start -> (depth c < depth e)%nat) ->
      mgood (nullable c) op' n (slack * length (rest (pt (ms m2))) + depth c) m2 (meval O n inv recs r2 p2 c f m2)).
  { intros inv2 recs2 r2 p2 c f2 m2 R2 N2 W2 J2 A2 D2. apply IH; auto; [eapply adv_trans; eauto|].
    assert (P : (off (at_ start) < off (at_ (pt (ms m2))))%Z \/ off (at_ start) = off (at_ (pt (ms m2))) /\ (depth c < depth e)%nat).
    { pose proof (adv_off_le _ _ A2). destruct (Z.eq_dec (off (at_ start)) (off (at_ (pt (ms m2))))) as [E|]; [right|left; lia]. split; [exact E|]. apply D2. symmetry. now apply adv_off. }
    constructor; [cbn [fst snd kdepth]; rewrite Hp; exact P|]. eapply Forall_impl; [|exact C0]. intros x. cbn beta. fold start. lia. }
  replace (nullable e) with (knull (KExpr r path)) by (cbn [knull]; now rewrite Hp).
  change (mgood (knull (KExpr r path)) op (S n) (slack * length (rest start) + depth e) m0) with (mgood (knull (KExpr r path)) op (S n) (slack * length (rest start) + depth e) m).
  apply keep_expr; [exact A0|reflexivity|]. fold op'. replace (knull (KExpr r path)) with (nullable e) by (cbn [knull]; now rewrite Hp).
  assert (As : adv start (pt (ms m))) by apply adv_refl.
  assert (Fu : forall nl c x, (depth c < depth e)%nat -> mgood nl op' n (slack * length (rest start) + depth c) m x -> mgood nl op' (S n) (slack * length (rest start) + depth e) m x).
  { intros nl c x L. destruct x; cbn [mgood]; auto. lia. }
  assert (Hk : forall inv k c ev, child e k = Some c -> wf c = true -> (forall f m, ev f m = meval O n inv recs r (k :: path) c f m) -> part_ok op' start n (depth e - 1) c ev).
  { assert (Dp : (1 <= depth e)%nat) by (destruct e; unfold depth; cbn [depth_with]; lia).
    intros inv2 k c ev Hch W E. split; [exact W|]. intros f2 m2 J2 A2 D2. rewrite E. apply Hc; auto; [cbn [node]; now rewrite Hp|]. intros E2. specialize (D2 E2). lia. }
  pose proof Hp as Hnode.
  destruct e as [a e|l|l|l e|r'|w ic want|v chars ranges ic invd| |e|e|e|e|e rc ls|l|c];
    cbn [wf] in Hw; apply andb_true_iff in Hw as [_ Hw]; unfold depth in *; cbn [depth_with] in *; fold depth in *; cbn [nullable].
  - assert (N1 : node r (0%nat :: path) = Some e) by (cbn [node]; now rewrite Hp).
    pose proof (Fu _ e _ ltac:(lia) (Hc inv recs r (0%nat :: path) e f m Hr N1 Hw I' As ltac:(lia))) as P.
    destruct (meval O n inv recs r (0%nat :: path) e f m) as [v f' m'|m'|m'|]; cbn [mgood] in *; auto.
    destruct P as (P1 & P2 & P3). destruct (run_action _ _ _ _ _); cbn [mgood]; eauto.
  - pose proof (mseq_good op' start n (depth (ESeq l) - 1) (fun i e f m => meval O n inv recs r (i :: path) e f m) l 0 [] f m) as P.
    forward P. { intros j c Hj. cbn [Nat.add]. apply Hk with (inv := inv) (k := j); auto. rewrite forallb_forall in Hw; apply Hw; eapply nth_error_In; eauto. }
    specialize (P I' As). forward P. { unfold depth; cbn [depth_with]; fold depth. lia. }
    unfold depth in P; cbn [depth_with] in P; fold depth in P.
    destruct (mseq _ _ _ _ _ _ _); cbn [mgood]; auto. lia.
  - pose proof (mchoice_good op' start n (depth (EChoice l) - 1) (fun i e f m => meval O n inv recs r (i :: path) e f m) l 0 f m) as P.
    forward P. { intros j c Hj. cbn [Nat.add]. apply Hk with (inv := inv) (k := j); auto. rewrite forallb_forall in Hw; apply Hw; eapply nth_error_In; eauto. }
    specialize (P I' eq_refl). unfold depth in P; cbn [depth_with] in P; fold depth in P. specialize (P ltac:(lia)).
    destruct (mchoice _ _ _ _ _); cbn [mgood] in *; auto. lia.
  - assert (N1 : node r (0%nat :: path) = Some e) by (cbn [node]; now rewrite Hp).
    pose proof (Fu _ e _ ltac:(lia) (Hc inv recs r (0%nat :: path) e [] m Hr N1 Hw I' As ltac:(lia))) as P.
    destruct (meval O n inv recs r (0%nat :: path) e [] m) as [v f' m'|m'|m'|]; cbn [mgood] in *; auto.
  - destruct (get_memo m (KRule r')) as [x|] eqn:Gr.
    + change (null_rule r') with (knull (KRule r')). now apply found_good.
    + apply keep_rule; [exact A0|reflexivity|]. pose proof (rank_rules r') as Rk.
      pose proof (Fu _ (rules r') _ ltac:(lia) (Hc inv recs r' [] (rules r') [] m Hr eq_refl (wf_rules r') I' As ltac:(lia))) as P.
      destruct (meval O n inv recs r' [] (rules r') [] m) as [v f' m'|m'|m'|]; cbn [mgood] in *; auto.
      destruct P as (P1 & P2 & P3). split; [exact P1|]. split; [exact P2|]. intros En. apply P3. destruct (nullable (rules r')) eqn:E; [apply null_rules in E; congruence|reflexivity].
  - pose proof (lit_loop_good p0 ic w Hw (ms m)) as P. pose proof (cnt_lit_loop ic w (ms m)) as Ct. destruct (lit_loop ic w (ms m)) as [[s'|] s'']; cbn [mgood].
    + destruct P as (P1 & _ & P3). split; [apply Inv_ms; [rewrite cnt_fail; exact Ct|exact I']|]. cbn [with_ms ms]. rewrite pt_fail. split; [exact P1|]. destruct w; [discriminate|]. intros _. apply P3. discriminate.
    + destruct P as (P1 & _). split; [apply Inv_ms; [rewrite cnt_restore, cnt_fail; exact Ct|exact I']|]. cbn [with_ms ms]. now rewrite restore_back by (rewrite pt_fail; exact P1).
  - destruct (at_eof start) eqn:Ee; [|destruct (xorb _ _)]; cbn [mgood]; (split; [apply Inv_ms; [now rewrite cnt_fail, ?cnt_read|exact I']|]); cbn [with_ms ms]; rewrite pt_fail; try reflexivity.
    split; [now apply read_adv|]. intros _. now apply read_ne.
  - destruct (at_eof start) eqn:Ee; cbn [mgood]; (split; [apply Inv_ms; [now rewrite cnt_fail, ?cnt_read|exact I']|]); cbn [with_ms ms]; rewrite pt_fail; try reflexivity.
    split; [now apply read_adv|]. intros _. now apply read_ne.
  - assert (N1 : node r (0%nat :: path) = Some e) by (cbn [node]; now rewrite Hp).
    pose proof (Fu _ e _ ltac:(lia) (Hc (negb inv) recs r (0%nat :: path) e [] m Hr N1 Hw I' As ltac:(lia))) as P.
    destruct (meval O n (negb inv) recs r (0%nat :: path) e [] m) as [v f' m'|m'|m'|]; cbn [mgood] in *; auto.
    + destruct P as (P1 & P2 & P3). split; [apply Inv_ms; [apply cnt_restore|exact P1]|]. cbn [with_ms ms]. now rewrite restore_back by exact P2.
    + destruct P as (P1 & P2). split; [apply Inv_ms; [apply cnt_restore|exact P1]|]. cbn [with_ms ms]. rewrite restore_back by (rewrite P2; apply adv_refl). split; [apply adv_refl|discriminate].
  - apply andb_true_iff in Hw as [Hw Hn]. apply negb_true_iff in Hn.
    pose proof (mstar_good op' start n (depth (EStar e) - 1) (fun e f m => meval O n inv recs r (0%nat :: path) e f m) e (S (length (rest start)))) as P.
    forward P. { apply Hk with (inv := inv) (k := 0%nat); auto. }
    unfold depth in P; cbn [depth_with] in P; fold depth in P. specialize (P Hn [] f m I' As ltac:(lia) ltac:(rewrite Ept; lia)).
    destruct (mstar _ _ _ _ _ _); cbn [mgood]; auto; [|destruct P|lia]. destruct P as (P1 & P2 & _). split; [exact P1|]. split; [exact P2|discriminate].
  - apply andb_true_iff in Hw as [Hw Hn]. apply negb_true_iff in Hn.
    pose proof (mstar_good op' start n (depth (EPlus e) - 1) (fun e f m => meval O n inv recs r (0%nat :: path) e f m) e (S (length (rest start)))) as P.
    forward P. { apply Hk with (inv := inv) (k := 0%nat); auto. }
    unfold depth in P; cbn [depth_with] in P; fold depth in P. specialize (P Hn [] f m I' As ltac:(lia) ltac:(rewrite Ept; lia)).
    destruct (mstar _ _ _ _ _ _) as [v2 f2 m2|m2|m2|]; cbn [mgood]; auto; [|destruct P|lia]. destruct P as (P1 & P2 & l & -> & P3 & P4). cbn [rev app]. destruct l; cbn [mgood].
    + split; [exact P1|]. now apply P3.
    + split; [exact P1|]. split; [exact P2|]. intros _. apply P4. discriminate.
  - assert (N1 : node r (0%nat :: path) = Some e) by (cbn [node]; now rewrite Hp).
    pose proof (Fu _ e _ ltac:(lia) (Hc inv recs r (0%nat :: path) e [] m Hr N1 Hw I' As ltac:(lia))) as P.
    destruct (meval O n inv recs r (0%nat :: path) e [] m) as [v f' m'|m'|m'|]; cbn [mgood] in *; auto.
    + destruct P as (P1 & P2 & P3). split; [exact P1|]. split; [exact P2|discriminate].
    + destruct P as (P1 & P2). split; [exact P1|]. rewrite P2. split; [apply adv_refl|discriminate].
  - apply andb_true_iff in Hw as [Hw Hd]. apply andb_true_iff in Hw as [Hw Hrc].
    assert (N1 : node r (0%nat :: path) = Some e) by (cbn [node]; now rewrite Hp).
    assert (N2 : node r (1%nat :: path) = Some rc) by (cbn [node]; now rewrite Hp).
    apply (Fu _ e); [lia|]. apply Hc; auto. constructor; [|exact Hr]. split; [exact N2|]. split; [exact Hrc|now apply Nat.leb_le].
  - pose proof (mthrow_good op' start n (fun r' path' e' => meval O n inv recs r' path' e') l recs A0 Hr) as P.
    forward P. { intros r2 p2 e2 N2 W2 D2 f2 m2 J2 E2. pose proof (Hc inv recs r2 p2 e2 f2 m2 Hr N2 W2 J2 ltac:(rewrite E2; apply adv_refl) ltac:(lia)) as P2. rewrite E2 in P2. destruct (meval _ _ _ _ _ _ _ _); cbn [mgood] in *; auto. lia. }
    specialize (P f m I' eq_refl). destruct (mthrow _ _ _ _ _); cbn [mgood] in *; auto. lia.
  - cbn [mgood]. split; [now apply Inv_ms|]. split; [apply adv_refl|discriminate].
Qed.
End Invariant.

(** ** The whole parse *)
Lemma universe_size : length universe = 312%nat.
Proof. vm_compute. reflexivity. Qed.

Lemma nodup_incl {A} (l l' : list A) : NoDup l -> (forall x, In x l -> In x l') -> (length l <= length l')%nat.
Proof. intros N H. now apply NoDup_incl_length. Qed.
Definition grid (p : point) : list (Z * key) :=
  flat_map (fun i => map (fun x => ((off (at_ p) + Z.of_nat i)%Z, KExpr (fst x) (snd x))) universe) (seq 0 (S (length (rest p)))).
Lemma grid_length p : length (grid p) = (312 * S (length (rest p)))%nat.
Proof.
  unfold grid. rewrite <- universe_size. generalize (S (length (rest p))) as k. generalize 0%nat as s.
  intros s k. revert s. induction k as [|k IH]; intros s; cbn [seq flat_map]; [cbn; lia|]. rewrite app_length, map_length, IH. lia.
Qed.
Lemma Inv_bound p0 op m : Inv p0 op m -> (cnt (ms m) <= N.of_nat (312 * S (length (rest p0))))%N.
Proof.
  intros (I1 & I2 & I3 & _). rewrite I3, <- grid_length. assert (length (op ++ ekeys (memo m)) <= length (grid p0))%nat; [|lia].
  apply nodup_incl; [exact I1|]. intros (o, k) Hi. rewrite Forall_forall in I2. specialize (I2 _ Hi). destruct I2 as (B & r & p & e & E & Hn). cbn [fst snd] in *. subst k.
  apply in_flat_map. exists (Z.to_nat (o - off (at_ p0))). split; [apply in_seq; lia|]. apply in_map_iff. exists (r, p). cbn [fst snd]. split; [f_equal; lia|]. eapply universe_all; eauto.
Qed.
Theorem mrun_good O q : mgood (first_point q) false [] (fuel_for q) (fuel_for q) {| ms := init_state q; memo := [] |} (mrun O q).
Proof.
  assert (G : mgood (first_point q) (nullable (rules RStart)) [] (fuel_for q) (slack * length (rest (pt (init_state q))) + depth (rules RStart)) {| ms := init_state q; memo := [] |} (mrun O q)).
  { apply meval_good; [reflexivity|reflexivity|constructor| |apply adv_refl|constructor].
    split; [constructor|]. split; [constructor|]. split; [|constructor]. cbn [ms memo app ekeys map filter length]. unfold init_state, read_at. cbn zeta. destruct (_ && _); reflexivity. }
  destruct (mrun O q); cbn [mgood] in *; auto. rewrite pt_init in G. cbn [rest] in G. 
  assert (depth (rules RStart) <= 100)%nat by (apply Nat.leb_le; vm_compute; reflexivity). unfold fuel_for, slack in *. lia.
Qed.
