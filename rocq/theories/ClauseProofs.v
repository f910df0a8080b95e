(** Comparisons, clauses and whole queries: the parser against the grammar specification. *)
From Verif Require Import Bytes Utf8 Utf8Proofs GoStrconv Oracles Ast PegSyntax Grammar Actions Engine EngineBasics CleanEval Lexer GrammarSpec TokenProofs TokenProofs2 ValueProofs FieldProofs ListProofs.
From Coq Require Import ZifyBool ZifyN ZifyNat.

Section V.
Context (O : oracles).
Notation cv := (cev O []).
Ltac unf H := rewrite (cev_unfold O _ H) by (vm_compute; reflexivity).
Ltac unfe e := rewrite (cev_unfold O _ ok_nil e) by (vm_compute; reflexivity).

(** An action over a sequence, as an alternative of a choice. *)
Definition cact (a : act) (es : list expr) (c : cursor) : cres :=
  match cseq cv es [] [] c with
  | COk _ f' c' => match run_action O a f' (pos_at c) (ctext c c') with
                   | AOk v => COk v [] c' | AErr _ k => CBad {| pe_kind := k; pe_pos := pos_at c |} | APanic => CPan end
  | r => r end.

Definition SParen := [ELit [40] false """("""%string; ERule R_ws; ELabel "query"%string (ERule ROrClause); ERule R_ws; ELit [41] false """)"""%string].
Definition SNoArg := [ELabel "field"%string (ERule RField); ERule R_ws; ELit [58] false """:"""%string; ERule R_ws; ELabel "operation"%string (ERule RopNoArgs)].
Definition SVals := [ELabel "field"%string (ERule RField); ERule R_ws; ELit [58] false """:"""%string; ERule R_ws; ELabel "operation"%string (EOpt (ERule RopComp)); ERule R_ws; ELabel "values"%string (ERule RValueList)].
Definition SNot := [ERule RlogicalNOT; ELabel "cmp"%string (ERule RComparison)].
Definition SAnd := [ELabel "lhs"%string (ERule RNotClause); ERule Rspace; ERule RlogicalAND; ERule Rspace; ELabel "rhs"%string (ERule RAndClause)].
Definition SOr := [ELabel "lhs"%string (ERule RAndClause); ERule Rspace; ERule RlogicalOR; ERule Rspace; ELabel "rhs"%string (ERule ROrClause)].

Definition celse (r k : cres) : cres := match r with CNo => k | _ => r end.

Lemma cpop_celse f r k : cpop f (match r with COk v _ c => COk v [] c | CNo => k | x => x end) = cpop f (celse r k).
Proof. destruct r; reflexivity. Qed.

Lemma cev_cmp f c : cv (ERule RComparison) f c =
  cpop f (celse (cact AComparison2 SParen c) (celse (cact AComparison10 SNoArg c) (cact AComparison19 SVals c))).
Proof.
  unf ok_nil. cbn [rules]. unf ok_nil. cbn [cchoice].
  unfe (EAction AComparison2 (ESeq SParen)). unfe (ESeq SParen).
  unfe (EAction AComparison10 (ESeq SNoArg)). unfe (ESeq SNoArg).
  unfe (EAction AComparison19 (ESeq SVals)). unfe (ESeq SVals). unfold cact. cbn match.
  destruct (cseq cv SParen [] [] c) as [v f' c'| | | |]; try reflexivity.
  cbn match. destruct (cseq cv SNoArg [] [] c) as [v f' c'| | | |]; try reflexivity.
  - cbn match. destruct (run_action O AComparison10 f' (pos_at c) (ctext c c')); reflexivity.
  - cbn match. destruct (cseq cv SVals [] [] c) as [v f' c'| | | |]; try reflexivity.
    cbn match. destruct (run_action O AComparison19 f' (pos_at c) (ctext c c')); reflexivity.
Qed.

Lemma cev_alt2 r a es q f c : rules r = EChoice [EAction a (ESeq es); ERule q] -> wf (EChoice [EAction a (ESeq es); ERule q]) = true ->
  wf (EAction a (ESeq es)) = true -> wf (ESeq es) = true ->
  cv (ERule r) f c = cpop f (celse (cact a es c) (cv (ERule q) [] c)).
Proof.
  intros E W W1 W2. rewrite (cev_unfold O _ ok_nil (ERule r)) by (destruct r; reflexivity). rewrite E.
  rewrite (cev_unfold O _ ok_nil (EChoice _)) by exact W. cbn [cchoice].
  rewrite (cev_unfold O _ ok_nil (EAction _ _)) by exact W1. rewrite (cev_unfold O _ ok_nil (ESeq _)) by exact W2.
  unfold cact. cbn match. destruct (cseq cv es [] [] c) as [v f' c'| | | |]; try reflexivity.
  - cbn match; destruct (run_action O a f' (pos_at c) (ctext c c')); reflexivity.
  - cbn [celse]. destruct (cv (ERule q) [] c); reflexivity.
Qed.
Lemma cev_not f c : cv (ERule RNotClause) f c = cpop f (celse (cact ANotClause2 SNot c) (cv (ERule RComparison) [] c)).
Proof. apply cev_alt2; reflexivity. Qed.
Lemma cev_and f c : cv (ERule RAndClause) f c = cpop f (celse (cact AAndClause2 SAnd c) (cv (ERule RNotClause) [] c)).
Proof. apply cev_alt2; reflexivity. Qed.
Lemma cev_or f c : cv (ERule ROrClause) f c = cpop f (celse (cact AOrClause2 SOr c) (cv (ERule RAndClause) [] c)).
Proof. apply cev_alt2; reflexivity. Qed.

Lemma cev_opt_comp f c : cv (ELabel "operation"%string (EOpt (ERule RopComp))) f c =
  match cv (ERule RopComp) [] c with
  | COk v _ c' => COk v (set_label "operation" v f) c'
  | CNo => COk VNil (set_label "operation" VNil f) c
  | r => r end.
Proof.
  unfe (ELabel "operation"%string (EOpt (ERule RopComp))). unfe (EOpt (ERule RopComp)).
  destruct (cv (ERule RopComp) [] c); reflexivity.
Qed.

(** The keywords. *)
Lemma cev_kw r w s f c : rules r = ELit w false s -> wf (ELit w false s) = true ->
  cv (ERule r) f c = match slit false w (crs c) with Some (t, r) => COk (VBytes (encode t)) f (cmove c t r) | None => CNo end.
Proof.
  intros E W. rewrite (cev_unfold O _ ok_nil (ERule r)) by (destruct r; reflexivity). rewrite E, (cev_elit O _ ok_nil) by exact W.
  destruct (slit false w (crs c)) as [[t r']|]; reflexivity.
Qed.
Lemma cev_AND f c : cv (ERule RlogicalAND) f c = match slit false (tx "AND") (crs c) with Some (t, r) => COk (VBytes (encode t)) f (cmove c t r) | None => CNo end.
Proof. eapply cev_kw; reflexivity. Qed.
Lemma cev_OR f c : cv (ERule RlogicalOR) f c = match slit false (tx "OR") (crs c) with Some (t, r) => COk (VBytes (encode t)) f (cmove c t r) | None => CNo end.
Proof. eapply cev_kw; reflexivity. Qed.

Definition not_scan (rs : list N) : option (list N * list N) :=
  match (match slit false (tx "NOT") rs with
         | Some (t, r) => match span is_ws r with ([], _) => None | (w, r') => Some (t ++ w, r') end
         | None => None end) with
  | Some x => Some x
  | None => match slit false (tx "!") rs with
            | Some (t, r) => let (w, r') := span is_ws r in Some (t ++ w, r')
            | None => None end
  end.
Lemma sc_not k rs : sc (7 + k)%nat (ERule RlogicalNOT) rs = not_scan rs.
Proof.
  change (sc (7 + k)%nat (ERule RlogicalNOT) rs) with
   (schoice (sc (5 + k)%nat) [ESeq [ELit [78; 79; 84] false """NOT"""%string; ERule Rspace]; ESeq [ELit [33] false """!"""%string; EOpt (ERule Rspace)]] rs).
  cbn [schoice].
  change (sc (5 + k)%nat (ESeq ?es) rs) with (sseq (sc (4 + k)%nat) es rs). cbn [sseq].
  change (sc (4 + k)%nat (ELit ?w false ?s) rs) with (slit false w rs). unfold not_scan. change (tx "NOT") with [78; 79; 84]. change (tx "!") with [33].
  assert (A : forall r, sc (4 + k)%nat (ERule Rspace) r = match span is_ws r with ([], _) => None | x => Some x end) by (intros; apply (sc_space (S k))).
  assert (B : forall r, sc (4 + k)%nat (EOpt (ERule Rspace)) r = Some (span is_ws r)).
  { intros r. change (sc (4 + k)%nat (EOpt (ERule Rspace)) r) with (match sc (S (S (S k))) (ERule Rspace) r with Some x => Some x | None => Some ([], r) end).
    rewrite sc_space. pose proof (span_spec is_ws r) as (X & _). destruct (span is_ws r) as [[|] ?]; cbn in X; now subst. }
  assert (C : forall r : list N, match (match slit false [33] r with Some (t, r0) => match (match sc (4 + k)%nat (EOpt (ERule Rspace)) r0 with Some (t0, r1) => Some (t0 ++ [], r1) | None => None end) with Some (t', r') => Some (t ++ t', r') | None => None end | None => None end) with Some x => Some x | None => None end =
     match slit false [33] r with Some (t, r) => let (w, r') := span is_ws r in Some (t ++ w, r') | None => None end).
  { intros r. destruct (slit false [33] r) as [[t r0]|]; [|reflexivity]. rewrite B. destruct (span is_ws r0). now rewrite app_nil_r. }
  destruct (slit false [78; 79; 84] rs) as [[t r]|]; [|apply C].
  rewrite A. destruct (span is_ws r) as [[|x w] r']; [apply C|]. cbn match. now rewrite app_nil_r.
Qed.
Lemma cev_NOT f c :
  match not_scan (crs c) with
  | Some (t, r) => crs c = t ++ r /\ exists v, cv (ERule RlogicalNOT) f c = COk v f (cmove c t r)
  | None => cv (ERule RlogicalNOT) f c = CNo
  end.
Proof.
  pose proof (cev_pure O _ ok_nil 10 (ERule RlogicalNOT) f c ltac:(vm_compute; reflexivity) ltac:(vm_compute; reflexivity)) as P.
  rewrite (sc_not 3) in P. destruct (not_scan (crs c)) as [[t r]|]; auto.
Qed.
Lemma not_scan_sound rs t r : not_scan rs = Some (t, r) -> not_op t /\ t <> [].
Proof.
  unfold not_scan.
  assert (B : match slit false (tx "!") rs with Some (t, r) => let (w, r') := span is_ws r in Some (t ++ w, r') | None => None end = Some (t, r) -> not_op t /\ t <> []).
  { destruct (slit false (tx "!") rs) as [[t1 r1]|] eqn:E; [|discriminate]. apply tok_lit in E as [_ ->].
    destruct (span is_ws r1) as [w r2] eqn:Ew. apply span_ws in Ew as (_ & W & _). intros [= <- <-]. split; [now constructor|discriminate]. }
  destruct (slit false (tx "NOT") rs) as [[t1 r1]|] eqn:E; [|exact B]. apply tok_lit in E as [_ ->].
  destruct (span is_ws r1) as [[|x w] r2] eqn:Ew; [exact B|]. apply span_ws in Ew as (_ & W & _). intros [= <- <-].
  split; [constructor; split; [auto|discriminate]|discriminate].
Qed.

(** ** Soundness *)
Definition rule_of (l : level) : rname := match l with LOr => ROrClause | LAnd => RAndClause | LNot => RNotClause | LCmp => RComparison end.
Definition ngood (l : level) (c : cursor) (f : frame) (r : cres) : Prop :=
  match r with
  | COk v f' c' => f' = f /\ exists t x r, v = VNode x /\ crs c = t ++ r /\ c' = cmove c t r /\ derives O l (rev (pre c)) t x
  | CNo | CBad _ => True
  | CPan | CFuel => False
  end.
Lemma ngood_pop l c f f0 r : ngood l c f0 r -> ngood l c f (cpop f r).
Proof. destruct r; cbn; auto. intros (_ & H). auto. Qed.
Lemma ngood_else l c f r k : ngood l c f r -> ngood l c f k -> ngood l c f (celse r k).
Proof. destruct r; cbn; auto. Qed.
Lemma ngood_level l l' c f r : (forall p t x, derives O l p t x -> derives O l' p t x) -> ngood l c f r -> ngood l' c f r.
Proof. intros H. destruct r; cbn; auto. intros (-> & t & x & r & -> & E & -> & D). split; auto. exists t, x, r. auto. Qed.

Definition sound (l : level) (c : cursor) : Prop := forall f, ngood l c f (cv (ERule (rule_of l)) f c).

Lemma pos_cmp c t l s r : crs c = (t ++ s) ++ r -> field t l ->
  getpos (pos_at c) (ctext c (cmove c (t ++ s) r)) = pos_of (rev (pre c)) (t ++ s).
Proof.
  intros E F. rewrite (ctext_cmove c _ r E). apply pos_at_of. rewrite E.
  apply field_hd in F as (x & u & -> & Hx). apply piece_char_facts in Hx as (Hx & _). exact Hx.
Qed.

Lemma sound_paren c : (forall d, (length (crs d) < length (crs c))%nat -> sound LOr d) -> ngood LCmp c [] (cact AComparison2 SParen c).
Proof.
  intros IH. unfold cact, SParen. cbn [cseq]. rewrite cev_lit1 by discriminate.
  destruct (crs c) as [|y r0] eqn:Ec; [exact I|]. destruct (N.eqb_spec y 40) as [->|]; [|exact I].
  destruct (span is_ws r0) as [w1 r1] eqn:E1. destruct (cev_ws O [] (cmove c [40] r0) _ _ E1) as [a1 ->]. apply span_ws in E1 as (E1 & W1 & _).
  rewrite cmove_cmove, cev_label.
  assert (Hl : (length (crs (cmove c ([40%N] ++ w1) r1)) < length (40%N :: r0))%nat) by (rewrite crs_cmove, E1; cbn; rewrite app_length; lia).
  pose proof (IH _ Hl []) as V. cbn [rule_of] in V.
  destruct (cv (ERule ROrClause) [] _) as [v f' c'| | | |]; auto.
  destruct V as (-> & t & x & r2 & -> & E2 & -> & D). rewrite crs_cmove in E2. rewrite pre_cmove in D. rewrite cmove_cmove.
  destruct (span is_ws r2) as [w2 r3] eqn:E3.
  match goal with |- context [cv (ERule R_ws) ?f ?d] => destruct (cev_ws O f d w2 r3 E3) as [a4 ->] end. apply span_ws in E3 as (E3 & W2 & _).
  rewrite cmove_cmove, cev_lit1, crs_cmove by discriminate.
  destruct r3 as [|y r4]; [exact I|]. destruct (N.eqb_spec y 41) as [->|]; [|exact I]. rewrite cmove_cmove.
  cbn. split; auto. exists (tx "(" ++ w1 ++ t ++ w2 ++ tx ")"), x, r4. repeat split.
  - rewrite Ec, E1, E2, E3. cbn. now rewrite <- !app_assoc.
  - now rewrite <- !app_assoc.
  - now apply d_paren.
Qed.

(** The part both comparison forms share: field, colon and white space. *)
Definition SHead := [ELabel "field"%string (ERule RField); ERule R_ws; ELit [58] false """:"""%string; ERule R_ws].
Lemma cseq_app es1 es2 : forall acc f c, cseq cv (es1 ++ es2) acc f c =
  match cseq cv es1 acc f c with COk (VList l) f' c' => cseq cv es2 (rev l) f' c' | COk _ _ _ => CPan | r => r end.
Proof.
  induction es1 as [|e es1 IH]; intros acc f c; cbn [cseq app].
  - now rewrite rev_involutive.
  - destruct (cv e f c); try reflexivity. apply IH.
Qed.
Lemma head_sound c :
  match cseq cv SHead [] [] c with
  | COk v f' c' => exists vl t l w1 w2 r, v = VList vl /\ f' = [("field"%string, VStrs l)] /\ crs c = (t ++ w1 ++ tx ":" ++ w2) ++ r /\
      c' = cmove c (t ++ w1 ++ tx ":" ++ w2) r /\ field t l /\ ws w1 /\ ws w2 /\ nows r
  | CNo | CBad _ => True
  | CPan | CFuel => False
  end.
Proof.
  unfold SHead. cbn [cseq]. rewrite cev_label. pose proof (field_sound O [] c) as F.
  destruct (cv (ERule RField) [] c) as [v f' c'| | | |]; auto.
  destruct F as (-> & t & l & r & -> & E & -> & F).
  destruct (span is_ws r) as [w1 r1] eqn:E1. match goal with |- context [cv (ERule R_ws) ?f ?d] => destruct (cev_ws O f d w1 r1 E1) as [a1 ->] end.
  apply span_ws in E1 as (E1 & W1 & _). rewrite cmove_cmove, cev_lit1, crs_cmove by discriminate.
  destruct r1 as [|y r1]; [exact I|]. destruct (N.eqb_spec y 58) as [->|]; [|exact I]. rewrite cmove_cmove.
  destruct (span is_ws r1) as [w2 r2] eqn:E2. match goal with |- context [cv (ERule R_ws) ?f ?d] => destruct (cev_ws O f d w2 r2 E2) as [a2 ->] end.
  apply span_ws in E2 as (E2 & W2 & N2). rewrite cmove_cmove.
  eexists. exists t, l, w1, w2, r2. split; [reflexivity|]. split; [reflexivity|]. rewrite E, E1, E2. rewrite <- !app_assoc. repeat split; auto.
Qed.
Lemma head_complete c t l w1 w2 r : crs c = (t ++ w1 ++ tx ":" ++ w2) ++ r -> field t l -> ws w1 -> ws w2 -> nows r ->
  exists vl, cseq cv SHead [] [] c = COk (VList vl) [("field"%string, VStrs l)] (cmove c (t ++ w1 ++ tx ":" ++ w2) r).
Proof.
  intros E F W1 W2 N. rewrite <- !app_assoc in E. unfold SHead. cbn [cseq]. rewrite cev_label.
  rewrite (field_complete O [] c t l (w1 ++ tx ":" ++ w2 ++ r)); auto.
  2:{ destruct w1 as [|x w1]; [split; [reflexivity|cbn; lia]|]. inversion W1 as [|? ? Hw]; subst. unfold ws_char in Hw. split; [|cbn; lia].
      cbn. destruct (is_name x) eqn:Ex; [|reflexivity]. apply is_name_spec in Ex. unfold name_char, digit in Ex. lia. }
  match goal with |- context [cv (ERule R_ws) ?f ?d] => destruct (cev_ws O f d w1 (tx ":" ++ w2 ++ r)) as [a1 ->] end.
  { rewrite crs_cmove. apply span_ws_app; auto. reflexivity. }
  rewrite cmove_cmove, cev_lit1, crs_cmove by discriminate. change (tx ":" ++ ?x) with (58 :: x). cbn match. change (58 =? 58) with true. cbn match.
  rewrite cmove_cmove.
  match goal with |- context [cv (ERule R_ws) ?f ?d] => destruct (cev_ws O f d w2 r) as [a2 ->] end.
  { rewrite crs_cmove. now apply span_ws_app. }
  rewrite cmove_cmove. eexists. f_equal. rewrite <- !app_assoc. reflexivity.
Qed.

Lemma act_noarg c : cseq cv SNoArg [] [] c =
  match cseq cv SHead [] [] c with COk (VList l) f' c' => cseq cv [ELabel "operation"%string (ERule RopNoArgs)] (rev l) f' c' | COk _ _ _ => CPan | r => r end.
Proof. apply (cseq_app SHead). Qed.
Lemma act_vals c : cseq cv SVals [] [] c =
  match cseq cv SHead [] [] c with COk (VList l) f' c' => cseq cv [ELabel "operation"%string (EOpt (ERule RopComp)); ERule R_ws; ELabel "values"%string (ERule RValueList)] (rev l) f' c' | COk _ _ _ => CPan | r => r end.
Proof. apply (cseq_app SHead). Qed.

Lemma sound_noarg c : ngood LCmp c [] (cact AComparison10 SNoArg c).
Proof.
  unfold cact. rewrite act_noarg. pose proof (head_sound c) as H.
  destruct (cseq cv SHead [] [] c) as [v f' c'| | | |]; auto.
  destruct H as (vl & t & l & w1 & w2 & r & -> & -> & E & -> & F & W1 & W2 & _). cbn [cseq]. rewrite cev_label.
  pose proof (noargs_sound O [] (cmove c (t ++ w1 ++ tx ":" ++ w2) r)) as N.
  destruct (cv (ERule RopNoArgs) [] _) as [v f' c'| | | |]; auto; try contradiction.
  destruct N as (-> & k & o & r' & -> & E' & -> & N). rewrite crs_cmove in E'. rewrite cmove_cmove. cbn match.
  cbn [run_action get set_label String.eqb as_op as_strs]. cbn [Ascii.eqb Bool.eqb].
  assert (Ec : crs c = (t ++ w1 ++ tx ":" ++ w2 ++ k) ++ r') by (rewrite E, E', <- !app_assoc; reflexivity).
  rewrite <- !app_assoc. rewrite (pos_cmp c t l _ _ Ec F).
  cbn match. split; auto. exists (t ++ w1 ++ tx ":" ++ w2 ++ k). eexists. exists r'. repeat split; auto. now apply d_noarg.
Qed.

Lemma sound_vals c : ngood LCmp c [] (cact AComparison19 SVals c).
Proof.
  unfold cact. rewrite act_vals. pose proof (head_sound c) as H.
  destruct (cseq cv SHead [] [] c) as [v f' c'| | | |]; auto.
  destruct H as (vl & t & l & w1 & w2 & r & -> & -> & E & -> & F & W1 & W2 & _). cbn [cseq]. rewrite cev_opt_comp.
  pose proof (comp_sound O [] (cmove c (t ++ w1 ++ tx ":" ++ w2) r)) as N.
  set (c1 := cmove c (t ++ w1 ++ tx ":" ++ w2) r) in *.
  assert (X : match (match cv (ERule RopComp) [] c1 with
    | COk v _ c' => COk v (set_label "operation" v [("field"%string, VStrs l)]) c'
    | CNo => COk VNil (set_label "operation" VNil [("field"%string, VStrs l)]) c1
    | r => r end) with
    | COk v f' c' => exists k o r', f' = [("operation"%string, v); ("field"%string, VStrs l)] /\ ((v = VNil /\ o = EQ) \/ v = VOp o) /\
        r = k ++ r' /\ c' = cmove c1 k r' /\ comp_op k o
    | _ => False end).
  { destruct (cv (ERule RopComp) [] c1) as [v f' c'| | | |]; auto.
    - destruct N as (-> & k & o & r' & -> & E' & -> & N). exists k, o, r'. repeat split; auto.
    - exists [], EQ, r. repeat split; auto; constructor. }
  match type of X with match ?Z with COk _ _ _ => _ | _ => _ end => destruct Z as [v f' c'| | | |] end; try contradiction.
  destruct X as (k & o & r' & -> & Eo & E' & -> & K). unfold c1. rewrite cmove_cmove.
  destruct (span is_ws r') as [w3 r3] eqn:E3. match goal with |- context [cv (ERule R_ws) ?f ?d] => destruct (cev_ws O f d w3 r3 E3) as [a3 ->] end.
  apply span_ws in E3 as (E3 & W3 & _). rewrite cmove_cmove, cev_label.
  set (c3 := cmove c _ r3). pose proof (list_sound O [] c3) as L. destruct (cv (ERule RValueList) [] c3) as [v' f' c'| | | |]; auto.
  destruct L as (-> & tv & vs & r4 & -> & E4 & -> & L). unfold c3 in *. rewrite crs_cmove in E4. rewrite pre_cmove in L. rewrite cmove_cmove. cbn match.
  assert (Ec : crs c = (t ++ w1 ++ tx ":" ++ w2 ++ k ++ w3 ++ tv) ++ r4) by (rewrite E, E', E3, E4, <- !app_assoc; reflexivity).
  cbn [run_action get set_label String.eqb as_vals as_strs]. cbn [Ascii.eqb Bool.eqb]. destruct Eo as [[-> ->] | ->]; cbn match.
  all: rewrite <- !app_assoc; rewrite (pos_cmp c t l _ _ Ec F).
  all: split; auto; exists (t ++ w1 ++ tx ":" ++ w2 ++ k ++ w3 ++ tv); eexists; exists r4; repeat split; auto; apply d_values; auto.
  all: now rewrite <- !app_assoc in L.
Qed.

Lemma sound_cmp c : (forall d, (length (crs d) < length (crs c))%nat -> sound LOr d) -> sound LCmp c.
Proof.
  intros IH f. cbn [rule_of]. rewrite cev_cmp. eapply ngood_pop. apply ngood_else; [now apply sound_paren|].
  apply ngood_else; [apply sound_noarg|apply sound_vals].
Qed.

Lemma sound_not c : (forall d, (length (crs d) <= length (crs c))%nat -> sound LCmp d) -> sound LNot c.
Proof.
  intros IH f. cbn [rule_of]. rewrite cev_not. eapply ngood_pop. apply ngood_else.
  - unfold cact, SNot. cbn [cseq]. pose proof (cev_NOT [] c) as N.
    destruct (not_scan (crs c)) as [[n r]|] eqn:En; [|now rewrite N]. destruct N as [E [v ->]]. apply not_scan_sound in En as [Hn _].
    rewrite cev_label. assert (Hl : (length (crs (cmove c n r)) <= length (crs c))%nat) by (rewrite crs_cmove, E, app_length; lia).
    pose proof (IH _ Hl []) as D. cbn [rule_of] in D. destruct (cv (ERule RComparison) [] _) as [v' f' c'| | | |]; auto.
    destruct D as (-> & t & x & r' & -> & E' & -> & D). rewrite crs_cmove in E'. rewrite pre_cmove in D. rewrite cmove_cmove. cbn.
    split; auto. exists (n ++ t), (NNot x), r'. repeat split; [rewrite E, E', app_assoc; reflexivity|]. now apply d_not.
  - eapply ngood_level; [apply d_not1|]. apply IH. lia.
Qed.

(** The two chains of binary operators have the same shape. *)
Definition chain (kw : list N) (rs : list N) : option (list N * list N) := slit false kw rs.
Lemma sound_chain (rl : rname) a (lo lo' : level) kw mk c :
  (forall f d, cv (ERule rl) f d = match slit false (tx kw) (crs d) with Some (t, r) => COk (VBytes (encode t)) f (cmove d t r) | None => CNo end) ->
  (forall x y p t, run_action O a (set_label "rhs" (VNode y) (set_label "lhs" (VNode x) [])) p t = AOk (VNode (mk x y))) ->
  (forall p t1 w1 w2 t2 x y, ws1 w1 -> ws1 w2 -> derives O lo p t1 x -> derives O lo' (p ++ t1 ++ w1 ++ tx kw ++ w2) t2 y ->
     derives O lo' p (t1 ++ w1 ++ tx kw ++ w2 ++ t2) (mk x y)) ->
  sound lo c -> (forall d, (length (crs d) < length (crs c))%nat -> sound lo' d) ->
  ngood lo' c [] (cact a [ELabel "lhs"%string (ERule (rule_of lo)); ERule Rspace; ERule rl; ERule Rspace; ELabel "rhs"%string (ERule (rule_of lo'))] c).
Proof.
  intros Hkw Ha Hd H IH. unfold cact. cbn [cseq]. rewrite cev_label. pose proof (H []) as G.
  destruct (cv (ERule (rule_of lo)) [] c) as [v f' c'| | | |]; auto.
  destruct G as (-> & t1 & x & r & -> & E & -> & D).
  destruct (span is_ws r) as [w1 r1] eqn:E1.
  match goal with |- context [cv (ERule Rspace) ?f ?d] => pose proof (cev_space O f d w1 r1 E1) as S1 end.
  destruct w1 as [|z w1]; [rewrite S1; exact I|]. destruct S1 as [a1 ->]. apply span_ws in E1 as (E1 & W1 & _). rewrite cmove_cmove.
  rewrite Hkw, crs_cmove. destruct (slit false (tx kw) r1) as [[k r2]|] eqn:Ek; [|exact I]. apply tok_lit in Ek as [Ek ->]. rewrite cmove_cmove.
  destruct (span is_ws r2) as [w2 r3] eqn:E2.
  match goal with |- context [cv (ERule Rspace) ?f ?d] => pose proof (cev_space O f d w2 r3 E2) as S2 end.
  destruct w2 as [|z2 w2]; [rewrite S2; exact I|]. destruct S2 as [a2 ->]. apply span_ws in E2 as (E2 & W2 & _). rewrite cmove_cmove, cev_label.
  set (c3 := cmove c _ r3). assert (Hl : (length (crs c3) < length (crs c))%nat).
  { unfold c3. rewrite crs_cmove, E, E1, Ek, E2, !app_length. cbn. lia. }
  pose proof (IH c3 Hl []) as G. destruct (cv (ERule (rule_of lo')) [] c3) as [v' f' c'| | | |]; auto.
  destruct G as (-> & t2 & y & r4 & -> & E4 & -> & D'). unfold c3 in *. rewrite crs_cmove in E4. rewrite pre_cmove in D'. rewrite cmove_cmove. cbn match.
  rewrite Ha. split; auto. exists (t1 ++ (z :: w1) ++ tx kw ++ (z2 :: w2) ++ t2), (mk x y), r4. repeat split.
  - rewrite E, E1, Ek, E2, E4, <- !app_assoc. reflexivity.
  - rewrite <- !app_assoc. reflexivity.
  - rewrite <- !app_assoc in D'. apply Hd; auto; split; auto; discriminate.
Qed.

Lemma sound_and c : sound LNot c -> (forall d, (length (crs d) < length (crs c))%nat -> sound LAnd d) -> sound LAnd c.
Proof.
  intros H IH f. cbn [rule_of]. rewrite cev_and. eapply ngood_pop. apply ngood_else.
  - apply (sound_chain RlogicalAND AAndClause2 LNot LAnd "AND"%string NAnd c); auto.
    + intros; apply cev_AND.
    + intros; now apply d_and.
  - eapply ngood_level; [apply d_and1|]. apply H.
Qed.
Lemma sound_or c : sound LAnd c -> (forall d, (length (crs d) < length (crs c))%nat -> sound LOr d) -> sound LOr c.
Proof.
  intros H IH f. cbn [rule_of]. rewrite cev_or. eapply ngood_pop. apply ngood_else.
  - apply (sound_chain RlogicalOR AOrClause2 LAnd LOr "OR"%string NOr c); auto.
    + intros; apply cev_OR.
    + intros; now apply d_or.
  - eapply ngood_level; [apply d_or1|]. apply H.
Qed.

Lemma sound_all n : forall l c, (length (crs c) <= n)%nat -> sound l c.
Proof.
  induction n as [n IH] using lt_wf_ind.
  assert (A : forall l c, (length (crs c) < n)%nat -> sound l c) by (intros; eapply IH; eauto).
  assert (B1 : forall c, (length (crs c) <= n)%nat -> sound LCmp c) by (intros c Hc; apply sound_cmp; intros; apply A; lia).
  assert (B2 : forall c, (length (crs c) <= n)%nat -> sound LNot c) by (intros c Hc; apply sound_not; intros; apply B1; lia).
  assert (B3 : forall c, (length (crs c) <= n)%nat -> sound LAnd c) by (intros c Hc; apply sound_and; [auto|intros; apply A; lia]).
  assert (B4 : forall c, (length (crs c) <= n)%nat -> sound LOr c) by (intros c Hc; apply sound_or; [auto|intros; apply A; lia]).
  intros [] c Hc; auto.
Qed.
Theorem clause_sound l c f : ngood l c f (cv (ERule (rule_of l)) f c).
Proof. eapply sound_all. reflexivity. Qed.

(** ** Completeness *)
(** What may follow a clause of each level. *)
Definition after (l : level) : lang := fun r => exists w r', r = w ++ r' /\ ws w /\
  (ends r' \/ (w <> [] /\ hd_is (fun x => match l with LOr => False | LAnd => x = 79 | _ => x = 65 \/ x = 79 end) r')).
Lemma after_follow l r : after l r -> follow r.
Proof.
  intros (w & r' & -> & W & [H|[H1 H2]]); exists w, r'; repeat split; auto.
  right. split; auto. destruct r'; [exact H2|]. destruct l; cbn in *; tauto.
Qed.
Definition cl_char (x : N) : Prop := piece_char x \/ x = 40 \/ x = 33.
Lemma cmp_hd p t x : derives O LCmp p t x -> exists y u, t = y :: u /\ (piece_char y \/ y = 40).
Proof.
  intros D. remember LCmp as l eqn:El. destruct D; try discriminate.
  - do 2 eexists. split; [reflexivity|tauto].
  - destruct (field_hd _ _ H) as (y & u & -> & Hy). do 2 eexists. split; [reflexivity|tauto].
  - destruct (field_hd _ _ H) as (y & u & -> & Hy). do 2 eexists. split; [reflexivity|tauto].
Qed.
Lemma derives_hd l p t x : derives O l p t x -> exists y u, t = y :: u /\ cl_char y.
Proof.
  unfold cl_char. induction 1.
  - destruct IHderives1 as (y' & u & -> & Hy). do 2 eexists. split; [reflexivity|tauto].
  - auto.
  - destruct IHderives1 as (y' & u & -> & Hy). do 2 eexists. split; [reflexivity|tauto].
  - auto.
  - destruct H; cbn; do 2 eexists; (split; [reflexivity|]); [left|tauto].
    unfold piece_char, name_char. lia.
  - auto.
  - do 2 eexists. split; [reflexivity|tauto].
  - destruct (field_hd _ _ H) as (y & u & -> & Hy). do 2 eexists. split; [reflexivity|tauto].
  - destruct (field_hd _ _ H) as (y & u & -> & Hy). do 2 eexists. split; [reflexivity|tauto].
Qed.
Lemma cl_char_nows x : cl_char x -> is_ws x = false.
Proof. unfold cl_char, piece_char, name_char, digit, is_ws. lia. Qed.
Lemma derives_nows l p t x r : derives O l p t x -> nows (t ++ r).
Proof. intros D. apply derives_hd in D as (y & u & -> & Hy). now apply cl_char_nows in Hy. Qed.

Definition complete (l : level) (p t : text) (x : node) : Prop :=
  forall f c r, p = rev (pre c) -> crs c = t ++ r -> after l r -> cv (ERule (rule_of l)) f c = COk (VNode x) f (cmove c t r).

Lemma paren_no c : (match crs c with x :: _ => x <> 40 | [] => True end) -> cact AComparison2 SParen c = CNo.
Proof.
  intros H. unfold cact, SParen. cbn [cseq]. rewrite cev_lit1 by discriminate. destruct (crs c) as [|y r]; [reflexivity|].
  destruct (N.eqb_spec y 40); [congruence|reflexivity].
Qed.

Lemma complete_paren p w1 w2 a x : ws w1 -> ws w2 -> derives O LOr (p ++ tx "(" ++ w1) a x -> complete LOr (p ++ tx "(" ++ w1) a x ->
  complete LCmp p (tx "(" ++ w1 ++ a ++ w2 ++ tx ")") x.
Proof.
  intros W1 W2 D H f c r -> E _. cbn [rule_of]. rewrite cev_cmp.
  assert (X : cact AComparison2 SParen c = COk (VNode x) [] (cmove c (tx "(" ++ w1 ++ a ++ w2 ++ tx ")") r)); [|now rewrite X].
  rewrite <- !app_assoc in E. unfold cact, SParen. cbn [cseq]. rewrite cev_lit1 by discriminate.
  rewrite E. change (tx "(" ++ ?x) with (40 :: x). cbn match. change (40 =? 40) with true. cbn match.
  match goal with |- context [cv (ERule R_ws) ?f ?d] => destruct (cev_ws O f d w1 (a ++ w2 ++ tx ")" ++ r)) as [a1 ->] end.
  { rewrite crs_cmove. apply span_ws_app; auto. eapply derives_nows; eauto. }
  rewrite cmove_cmove, cev_label.
  match goal with |- context [cv (ERule ROrClause) ?f ?d] => change (cv (ERule ROrClause) f d) with (cv (ERule (rule_of LOr)) f d); rewrite (H f d (w2 ++ tx ")" ++ r)) end.
  2: now rewrite pre_cmove. 2: reflexivity. 2: (exists w2, (tx ")" ++ r); repeat split; auto; left; right; reflexivity).
  rewrite cmove_cmove.
  match goal with |- context [cv (ERule R_ws) ?f ?d] => destruct (cev_ws O f d w2 (tx ")" ++ r)) as [a2 ->] end.
  { rewrite crs_cmove. apply span_ws_app; auto. reflexivity. }
  rewrite cmove_cmove, cev_lit1, crs_cmove by discriminate. change (tx ")" ++ r) with (41 :: r). cbn match. change (41 =? 41) with true. cbn match.
  rewrite cmove_cmove. cbn. f_equal. rewrite <- !app_assoc. reflexivity.
Qed.

Lemma hd_not40 t l u c : field t l -> crs c = t ++ u -> match crs c with x :: _ => x <> 40 | [] => True end.
Proof. intros F E. apply field_hd in F as (x & v & -> & Hx). rewrite E. cbn. apply piece_char_facts in Hx. tauto. Qed.

Lemma complete_noarg p f l w1 w2 k o : field f l -> ws w1 -> ws w2 -> noarg_op k o ->
  let t := f ++ w1 ++ tx ":" ++ w2 ++ k in complete LCmp p t (NExpr o l [] (pos_of p t)).
Proof.
  intros F W1 W2 K t f0 c r -> E _. cbn [rule_of]. rewrite cev_cmp.
  assert (E' : crs c = (f ++ w1 ++ tx ":" ++ w2) ++ k ++ r) by (rewrite E; unfold t; now rewrite <- !app_assoc).
  rewrite paren_no by (eapply hd_not40; [exact F|rewrite <- !app_assoc in E'; exact E']). cbn [celse].
  assert (X : cact AComparison10 SNoArg c = COk (VNode (NExpr o l [] (pos_of (rev (pre c)) t))) [] (cmove c t r)); [|now rewrite X].
  unfold cact. rewrite act_noarg.
  destruct (head_complete c f l w1 w2 (k ++ r) E' F W1 W2) as [vl ->]; [destruct K; reflexivity|].
  cbn [cseq]. rewrite cev_label. rewrite (noargs_complete O [] _ k o r) by (auto; reflexivity). rewrite cmove_cmove.
  rewrite <- !app_assoc. change (f ++ w1 ++ tx ":" ++ w2 ++ k) with t. cbn match.
  cbn [run_action get set_label String.eqb as_op as_strs]. cbn [Ascii.eqb Bool.eqb].
  unfold t; now rewrite (pos_cmp c f l _ _ E F).
Qed.

Lemma complete_vals p f l w1 w2 k o w3 v vs : field f l -> ws w1 -> ws w2 -> comp_op k o -> ws w3 ->
  values O (p ++ f ++ w1 ++ tx ":" ++ w2 ++ k ++ w3) v vs ->
  let t := f ++ w1 ++ tx ":" ++ w2 ++ k ++ w3 ++ v in complete LCmp p t (NExpr o l vs (pos_of p t)).
Proof.
  intros F W1 W2 K W3 V t f0 c r -> E Hr.
  assert (Z : forall w2 w3, ws w2 -> ws w3 -> (k = [] -> w3 = []) -> t = f ++ w1 ++ tx ":" ++ w2 ++ k ++ w3 ++ v ->
     values O (rev (pre c) ++ f ++ w1 ++ tx ":" ++ w2 ++ k ++ w3) v vs ->
     cv (ERule RComparison) f0 c = COk (VNode (NExpr o l vs (pos_of (rev (pre c)) t))) f0 (cmove c t r)).
  2:{ destruct k as [|k0 k'] eqn:Ek.
      - apply (Z (w2 ++ w3) []); auto; [apply Forall_app; auto|constructor|unfold t; cbn; now rewrite <- !app_assoc|].
        cbn [app] in *. rewrite app_nil_r. exact V.
      - apply (Z w2 w3); auto. discriminate. }
  clear W2 W3 V. intros w2' w3' W2 W3 K0 Et V. rewrite cev_cmp.
  assert (E' : crs c = (f ++ w1 ++ tx ":" ++ w2') ++ k ++ w3' ++ v ++ r) by (rewrite E, Et; now rewrite <- !app_assoc).
  rewrite paren_no by (eapply hd_not40; [exact F|rewrite <- !app_assoc in E'; exact E']). cbn [celse].
  pose proof (values_hd O _ _ _ V) as (y & u & Ev & Hy).
  assert (Nw : nows (v ++ r)) by (rewrite Ev; cbn; unfold lit_char, digit in Hy; unfold is_ws; lia).
  assert (N0 : nows (k ++ w3' ++ v ++ r)) by (destruct K; try reflexivity; rewrite K0; auto).
  assert (Hc : k = [] -> match v ++ r with x :: _ => is_opc x = false | [] => True end) by (intros _; rewrite Ev; cbn; unfold lit_char, digit in Hy; unfold is_opc; lia).
  assert (X1 : cact AComparison10 SNoArg c = CNo).
  { unfold cact. rewrite act_noarg. destruct (head_complete c f l w1 w2' (k ++ w3' ++ v ++ r) E' F W1 W2 N0) as [vl ->].
    cbn [cseq]. rewrite cev_label. rewrite noargs_no; [reflexivity|]. rewrite crs_cmove.
    destruct K; try (cbn; lia). rewrite K0 by auto. cbn [app]. rewrite Ev. cbn. unfold lit_char, digit in Hy. lia. }
  rewrite X1. cbn [celse].
  assert (X : cact AComparison19 SVals c = COk (VNode (NExpr o l vs (pos_of (rev (pre c)) t))) [] (cmove c t r)); [|now rewrite X].
  unfold cact. rewrite act_vals. destruct (head_complete c f l w1 w2' (k ++ w3' ++ v ++ r) E' F W1 W2 N0) as [vl ->].
  cbn [cseq]. rewrite cev_opt_comp. set (c1 := cmove c (f ++ w1 ++ tx ":" ++ w2') (k ++ w3' ++ v ++ r)).
  assert (Y : exists ov, (match cv (ERule RopComp) [] c1 with
    | COk v _ c' => COk v (set_label "operation" v [("field"%string, VStrs l)]) c'
    | CNo => COk VNil (set_label "operation" VNil [("field"%string, VStrs l)]) c1
    | r => r end) = COk ov (set_label "operation" ov [("field"%string, VStrs l)]) (cmove c1 k (w3' ++ v ++ r)) /\
      ((ov = VNil /\ o = EQ) \/ ov = VOp o)).
  { destruct k as [|k0 k'] eqn:Ek.
    - inversion K; subst o. rewrite comp_no; [exists VNil; split; auto|].
      unfold c1. rewrite crs_cmove. cbn [app]. rewrite K0 by auto. now apply Hc.
    - rewrite (comp_complete O [] c1 (k0 :: k') o (w3' ++ v ++ r)); auto; [exists (VOp o); split; auto|discriminate|].
      destruct w3' as [|z w3']; [rewrite Ev; cbn; unfold lit_char, digit in Hy; lia|]. inversion W3; subst. cbn. unfold ws_char in *. lia. }
  destruct Y as (ov & -> & Eo). unfold c1. rewrite cmove_cmove.
  match goal with |- context [cv (ERule R_ws) ?f ?d] => destruct (cev_ws O f d w3' (v ++ r)) as [a3 ->] end.
  { rewrite crs_cmove. now apply span_ws_app. }
  rewrite cmove_cmove, cev_label. rewrite (list_complete O [] _ v vs r).
  2: reflexivity. 2: now apply (after_follow LCmp). 2:{ rewrite pre_cmove. rewrite <- !app_assoc. exact V. }
  rewrite cmove_cmove. rewrite <- !app_assoc. rewrite <- Et. cbn match.
  cbn [run_action get set_label String.eqb as_vals as_strs]. cbn [Ascii.eqb Bool.eqb]. destruct Eo as [[-> ->] | ->]; cbn match.
  all: unfold t; now rewrite (pos_cmp c f l _ _ E F).
Qed.

Lemma complete_not p n a x : not_op n -> derives O LCmp (p ++ n) a x -> complete LCmp (p ++ n) a x -> complete LNot p (n ++ a) (NNot x).
Proof.
  intros Hn D H f c r -> E Hr. cbn [rule_of]. rewrite cev_not. rewrite <- app_assoc in E.
  assert (X : cact ANotClause2 SNot c = COk (VNode (NNot x)) [] (cmove c (n ++ a) r)); [|now rewrite X].
  unfold cact, SNot. cbn [cseq]. pose proof (cev_NOT [] c) as N.
  assert (Es : not_scan (crs c) = Some (n, a ++ r)).
  { rewrite E. unfold not_scan. destruct Hn as [w [W Nw]|w W].
    - rewrite <- app_assoc, (proj2 (tok_lit (tx "NOT"))) by (auto; exact I). rewrite span_ws_app by (auto; eapply derives_nows; eauto).
      destruct w; [congruence|reflexivity].
    - rewrite <- app_assoc. change (slit false (tx "NOT") (tx "!" ++ w ++ a ++ r)) with (@None (list BinNums.N * list BinNums.N)). cbn match.
      rewrite (proj2 (tok_lit (tx "!"))) by (auto; exact I). rewrite span_ws_app by (auto; eapply derives_nows; eauto). reflexivity. }
  rewrite Es in N. destruct N as [_ [v ->]]. rewrite cev_label.
  match goal with |- context [cv (ERule RComparison) ?f ?d] => change (cv (ERule RComparison) f d) with (cv (ERule (rule_of LCmp)) f d); rewrite (H f d r) end.
  2: now rewrite pre_cmove. 2: reflexivity. 2: exact Hr.
  rewrite cmove_cmove. reflexivity.
Qed.

(** A comparison is not taken for a negation: the only overlap is a field called NOT, and then
    the negated comparison would start with the colon. *)
Lemma cmp_colon f c r : crs c = 58 :: r -> cv (ERule RComparison) f c = CNo.
Proof.
  intros E. rewrite cev_cmp. rewrite paren_no by (rewrite E; discriminate). cbn [celse].
  assert (F : forall es, cseq cv (ELabel "field"%string (ERule RField) :: es) [] [] c = CNo).
  { intros es. cbn [cseq]. rewrite cev_label. pose proof (field_sound O [] c) as F. destruct (cv (ERule RField) [] c) as [v f' c'| | | |] eqn:Ef; auto; exfalso; auto.
    - destruct F as (_ & t & l & r' & _ & E' & _ & F). apply field_hd in F as (x & u & -> & Hx). rewrite E in E'. injection E' as <- _.
      apply piece_char_facts in Hx. lia.
    - rewrite cev_field in Ef. cbn [cseq] in Ef. revert Ef.
      rewrite (cev_unfold O _ ok_nil (ERule RFieldPiece)) by reflexivity. cbn [rules].
      rewrite (cev_unfold O _ ok_nil) by (vm_compute; reflexivity). cbn [cchoice].
      rewrite cev_qpiece, (q_none O) by (rewrite E; reflexivity).
      rewrite (cev_tokrule O _ _ (EPlus EName)) by (vm_compute; reflexivity). rewrite E, (sc_names 18).
      rewrite (cev_tokrule O _ _ star_lit) by (vm_compute; reflexivity). rewrite E, sc_star_lit. discriminate. }
  unfold cact. unfold SNoArg at 1. rewrite F. cbn [celse]. unfold SVals. now rewrite F.
Qed.

Lemma ws_not_name x : is_ws x = true -> is_name x = false.
Proof. intros H. destruct (is_name x) eqn:E; [|reflexivity]. apply is_name_spec in E. unfold name_char, digit, is_ws in *. lia. Qed.
Lemma name_prefix f l w r : field f l -> f ++ r = tx "NOT" ++ w ->
  (match r with x :: _ => is_name x = false /\ x <> 46 | [] => True end) -> (match w with x :: _ => is_ws x = true | [] => False end) -> f = tx "NOT" /\ r = w.
Proof.
  intros (l0 & P & _) E Hr Hw. apply pieces_dotted in P as (t1 & s & u & l1 & -> & P & D & _).
  rewrite <- app_assoc in E. destruct P as [t1 s (body & -> & _) _|t1 H Hn|]; try discriminate E.
  assert (N1 : Forall (fun x => is_name x = true) t1) by (eapply Forall_impl; [|exact H]; intros; now apply is_name_spec).
  assert (N2 : noh is_name (u ++ r)). { destruct D; [destruct r; cbn in *; tauto|reflexivity]. }
  assert (N3 : noh is_name w). { destruct w as [|y w]; [tauto|]. now apply ws_not_name. }
  apply span_unique with (p := is_name) in E as [-> E]; auto; [|repeat constructor; reflexivity].
  destruct D as [|t' s' u' l' P' D']; [rewrite app_nil_r; auto|]. exfalso. cbn in E. subst w. discriminate Hw.
Qed.

Lemma complete_not1 p a x : derives O LCmp p a x -> complete LCmp p a x -> complete LNot p a x.
Proof.
  intros D H f c r -> E Hr. cbn [rule_of]. rewrite cev_not.
  assert (X : cact ANotClause2 SNot c = CNo).
  { unfold cact, SNot. cbn [cseq]. pose proof (cev_NOT [] c) as N.
    destruct (not_scan (crs c)) as [[n r']|] eqn:En; [|now rewrite N]. destruct N as [E' [v ->]]. rewrite cev_label.
    assert (C : exists r'', r' = 58 :: r''); [|destruct C as [r'' ->]; rewrite (cmp_colon [] (cmove c n (58 :: r'')) r''); reflexivity].
    pose proof (cmp_hd _ _ _ D) as (y & u & Ea & Hy).
    unfold not_scan in En. destruct (slit false (tx "!") (crs c)) as [[t r0]|] eqn:Eb.
    { exfalso. apply tok_lit in Eb as [Eb ->]. rewrite E, Ea in Eb. injection Eb as -> _. unfold piece_char, name_char, digit in Hy. lia. }
    destruct (slit false (tx "NOT") (crs c)) as [[t r0]|] eqn:Et; [|discriminate]. apply tok_lit in Et as [Et ->].
    destruct (span is_ws r0) as [[|z w] r1] eqn:Ew; [discriminate|]. injection En as <- <-. apply span_ws in Ew as (Ew & W & N1).
    assert (Y : forall fl l w1 u', field fl l -> ws w1 -> a ++ r = fl ++ w1 ++ 58 :: u' -> exists r'', r1 = 58 :: r'').
    { intros fl l w1 u' F W1 Ea'. rewrite Ea', Et in E. subst r0. symmetry in E.
      apply name_prefix with (l := l) in E as [_ E]; auto.
      - assert (Z : span is_ws (w1 ++ 58 :: u') = span is_ws ((z :: w) ++ r1)) by now rewrite E.
        rewrite !span_ws_app in Z; auto; [|reflexivity]. injection Z as _ <-. eauto.
      - destruct w1 as [|q w1]; [split; [reflexivity|lia]|]. inversion W1 as [|? ? Hq]; subst. apply is_ws_spec in Hq. split; [now apply ws_not_name|]. unfold is_ws in Hq. lia.
      - inversion W; subst. cbn. unfold ws_char in *. unfold is_ws. lia. }
    remember LCmp as lv eqn:El. remember (rev (pre c)) as p eqn:Ep. clear H Ea. destruct D; try discriminate El.
    - exfalso. rewrite E in Et. discriminate Et.
    - eapply (Y f0 l w1); eauto. unfold t. rewrite <- !app_assoc. reflexivity.
    - eapply (Y f0 l w1); eauto. unfold t. rewrite <- !app_assoc. reflexivity. }
  rewrite X. cbn [celse]. change (ERule RComparison) with (ERule (rule_of LCmp)). rewrite (H [] c r); auto.
Qed.

Lemma chain_complete (rl : rname) a (lo lo' : level) kw mk p t1 w1 w2 t2 x y :
  (forall f d, cv (ERule rl) f d = match slit false (tx kw) (crs d) with Some (t, r) => COk (VBytes (encode t)) f (cmove d t r) | None => CNo end) ->
  (forall x y p t, run_action O a (set_label "rhs" (VNode y) (set_label "lhs" (VNode x) [])) p t = AOk (VNode (mk x y))) ->
  (forall r, nows (tx kw ++ r)) ->
  (forall w r, ws1 w -> after lo (w ++ tx kw ++ r)) ->
  ws1 w1 -> ws1 w2 -> derives O lo' (p ++ t1 ++ w1 ++ tx kw ++ w2) t2 y ->
  complete lo p t1 x -> complete lo' (p ++ t1 ++ w1 ++ tx kw ++ w2) t2 y ->
  forall c r, p = rev (pre c) -> crs c = (t1 ++ w1 ++ tx kw ++ w2 ++ t2) ++ r -> after lo' r ->
  cact a [ELabel "lhs"%string (ERule (rule_of lo)); ERule Rspace; ERule rl; ERule Rspace; ELabel "rhs"%string (ERule (rule_of lo'))] c =
    COk (VNode (mk x y)) [] (cmove c (t1 ++ w1 ++ tx kw ++ w2 ++ t2) r).
Proof.
  intros Hkw Ha Hn Hf [W1 N1] [W2 N2] D H1 H2 c r -> E Hr. rewrite <- !app_assoc in E. unfold cact. cbn [cseq]. rewrite cev_label.
  rewrite (H1 [] c (w1 ++ tx kw ++ w2 ++ t2 ++ r)); auto; [|now apply Hf; split].
  match goal with |- context [cv (ERule Rspace) ?f ?d] => pose proof (cev_space O f d w1 (tx kw ++ w2 ++ t2 ++ r)) as S1 end.
  rewrite crs_cmove in S1. specialize (S1 (span_ws_app _ _ W1 (Hn _))). destruct w1 as [|z w1]; [congruence|]. destruct S1 as [a1 ->].
  rewrite cmove_cmove, Hkw, crs_cmove. rewrite (proj2 (tok_lit (tx kw))) by (auto; exact I). rewrite cmove_cmove.
  match goal with |- context [cv (ERule Rspace) ?f ?d] => pose proof (cev_space O f d w2 (t2 ++ r)) as S2 end.
  rewrite crs_cmove in S2. specialize (S2 (span_ws_app _ _ W2 (derives_nows _ _ _ _ _ D))). destruct w2 as [|z2 w2]; [congruence|]. destruct S2 as [a2 ->].
  rewrite cmove_cmove, cev_label.
  match goal with |- context [cv (ERule (rule_of lo')) ?f ?d] => rewrite (H2 f d r) end.
  2: rewrite pre_cmove, <- !app_assoc; reflexivity. 2: reflexivity. 2: exact Hr.
  rewrite cmove_cmove, Ha. cbn match. f_equal. rewrite <- !app_assoc. reflexivity.
Qed.

(** The binary form does not apply when the operator does not follow. *)
Lemma chain_no (rl : rname) a (lo lo' : level) kw c0 kw' p t x c r :
  (forall f d, cv (ERule rl) f d = match slit false (tx kw) (crs d) with Some (t, r) => COk (VBytes (encode t)) f (cmove d t r) | None => CNo end) ->
  tx kw = c0 :: kw' -> (c0 = 65 \/ c0 = 79) ->
  complete lo p t x -> p = rev (pre c) -> crs c = t ++ r -> after lo r -> (forall w r', ws w -> r <> w ++ c0 :: r') ->
  cact a [ELabel "lhs"%string (ERule (rule_of lo)); ERule Rspace; ERule rl; ERule Rspace; ELabel "rhs"%string (ERule (rule_of lo'))] c = CNo.
Proof.
  intros Hkw Ek Hc0 H Ep E Hr Hn. unfold cact. cbn [cseq]. rewrite cev_label. rewrite (H [] c r); auto.
  destruct (span is_ws r) as [w1 r1] eqn:E1.
  match goal with |- context [cv (ERule Rspace) ?f ?d] => pose proof (cev_space O f d w1 r1 E1) as S1 end.
  destruct w1 as [|z w1]; [now rewrite S1|]. destruct S1 as [a1 ->]. apply span_ws in E1 as (E1 & W1 & _).
  rewrite Hkw, crs_cmove, Ek. destruct r1 as [|q r1]; [reflexivity|]. cbn [slit].
  destruct (N.eqb_spec q c0) as [->|]; [|reflexivity]. exfalso. eapply Hn; eauto.
Qed.

Lemma after_no l r c0 w r' : after l r -> (c0 = 65 \/ c0 = 79) -> ws w -> r = w ++ c0 :: r' ->
  match l with LOr => False | LAnd => c0 = 79 | _ => True end.
Proof.
  intros (w0 & r0 & -> & W0 & H) Hc W E.
  assert (Z : nows r0).
  { destruct H as [H|[_ H]]; destruct r0 as [|q r0]; cbn in *; try exact I; try contradiction; unfold is_ws; destruct l; lia. }
  assert (Z' : span is_ws (w0 ++ r0) = span is_ws (w ++ c0 :: r')) by now rewrite E.
  rewrite !span_ws_app in Z'; auto. 2:{ cbn. unfold is_ws. lia. }
  injection Z' as -> ->. destruct H as [H|[_ H]]; cbn in H; [lia|]. destruct l; auto.
Qed.
Lemma after_weaken l r : after LOr r -> after l r.
Proof. intros (w & r' & -> & W & [H|[_ H]]); [exists w, r'; auto|]. destruct r'; cbn in H; contradiction. Qed.
Lemma after_weaken2 l r : l <> LOr -> after LAnd r -> after l r.
Proof. intros Hl (w & r' & -> & W & [H|[N H]]); exists w, r'; repeat split; auto. right. split; auto. destruct r'; cbn in *; [contradiction|]. destruct l; auto; congruence. Qed.

Theorem clause_complete l p t x : derives O l p t x -> complete l p t x.
Proof.
  induction 1 as [p a w1 w2 c x y W1 W2 D1 IH1 D2 IH2|p a x D IH|p a w1 w2 c x y W1 W2 D1 IH1 D2 IH2|p a x D IH|p n a x Hn D IH|p a x D IH|p w1 w2 a x W1 W2 D IH| |].
  - intros f d r Ep E Hr. cbn [rule_of]. rewrite cev_or.
    assert (X : cact AOrClause2 SOr d = COk (VNode (NOr x y)) [] (cmove d (a ++ w1 ++ tx "OR" ++ w2 ++ c) r)); [|now rewrite X].
    apply (chain_complete RlogicalOR AOrClause2 LAnd LOr "OR"%string NOr p a w1 w2 c x y); auto.
    + intros; apply cev_OR.
    + intros; reflexivity.
    + intros w r' [W N]. exists w, (tx "OR" ++ r'). repeat split; auto. right. split; auto. reflexivity.
  - intros f d r Ep E Hr. cbn [rule_of]. rewrite cev_or.
    assert (X : cact AOrClause2 SOr d = CNo).
    { eapply (chain_no RlogicalOR AOrClause2 LAnd LOr "OR"%string 79 [82] p a x d r); auto; [intros; apply cev_OR|now apply after_weaken|].
      intros w r' W E'. now apply (after_no LOr r 79 w r') in Hr; auto. }
    rewrite X. cbn [celse]. change (ERule RAndClause) with (ERule (rule_of LAnd)). rewrite (IH [] d r); auto. now apply after_weaken.
  - intros f d r Ep E Hr. cbn [rule_of]. rewrite cev_and.
    assert (X : cact AAndClause2 SAnd d = COk (VNode (NAnd x y)) [] (cmove d (a ++ w1 ++ tx "AND" ++ w2 ++ c) r)); [|now rewrite X].
    apply (chain_complete RlogicalAND AAndClause2 LNot LAnd "AND"%string NAnd p a w1 w2 c x y); auto.
    + intros; apply cev_AND.
    + intros; reflexivity.
    + intros w r' [W N]. exists w, (tx "AND" ++ r'). repeat split; auto. right. split; auto. cbn. auto.
  - intros f d r Ep E Hr. cbn [rule_of]. rewrite cev_and.
    assert (X : cact AAndClause2 SAnd d = CNo).
    { eapply (chain_no RlogicalAND AAndClause2 LNot LAnd "AND"%string 65 [78; 68] p a x d r); auto; [intros; apply cev_AND|now apply after_weaken2|].
      intros w r' W E'. apply (after_no LAnd r 65 w r') in Hr; auto. discriminate. }
    rewrite X. cbn [celse]. change (ERule RNotClause) with (ERule (rule_of LNot)). rewrite (IH [] d r); auto. now apply after_weaken2.
  - now apply complete_not.
  - now apply complete_not1.
  - now apply complete_paren.
  - now apply complete_noarg.
  - now apply complete_vals.
Qed.

(** ** Whole queries *)
Definition cstart (rs : list N) : cres := cv (rules RStart) [] {| pre := []; crs := rs |}.

Lemma cev_query f c : cv (ERule RQuery) f c =
  match cseq cv [ERule R_ws; ELabel "clause"%string (ERule ROrClause); ERule R_ws] [] [] c with
  | COk _ f' c' => COk (get "clause" f') f c'
  | r => r end.
Proof.
  unf ok_nil. cbn [rules]. unf ok_nil. unfe (ESeq [ERule R_ws; ELabel "clause"%string (ERule ROrClause); ERule R_ws]).
  cbn match. destruct (cseq _ _ _ _ _) as [v f' c'| | | |]; reflexivity.
Qed.
Lemma cev_eof f c : cv (ERule REOF) f c = match crs c with [] => COk VNil f c | _ => CNo end.
Proof.
  unf ok_nil. cbn [rules]. unf ok_nil. unf ok_nil. destruct (crs c) as [|x r]; reflexivity.
Qed.
Lemma cstart_eq rs : cstart rs =
  match cv (ERule RQuery) [] {| pre := []; crs := rs |} with
  | COk v _ c' => match crs c' with [] => COk v (set_label "query" v []) c' | _ => CNo end
  | r => r end.
Proof.
  unfold cstart. cbn [rules]. unf ok_nil. unf ok_nil. cbn [cseq]. rewrite cev_label.
  destruct (cv (ERule RQuery) [] _) as [v f' c'| | | |]; try reflexivity. rewrite cev_eof. destruct (crs c'); reflexivity.
Qed.

Lemma query_sound f rs :
  match cv (ERule RQuery) f {| pre := []; crs := rs |} with
  | COk v f' c' => f' = f /\ exists t x r, v = VNode x /\ rs = t ++ r /\ c' = cmove {| pre := []; crs := rs |} t r /\ query O t x
  | CNo | CBad _ => True
  | CPan | CFuel => False
  end.
Proof.
  rewrite cev_query. cbn [cseq]. set (c := {| pre := []; crs := rs |}).
  destruct (span is_ws rs) as [w1 r1] eqn:E1. destruct (cev_ws O [] c w1 r1 E1) as [a1 ->]. apply span_ws in E1 as (E1 & W1 & _).
  rewrite cev_label. pose proof (clause_sound LOr (cmove c w1 r1) []) as D. cbn [rule_of] in D.
  destruct (cv (ERule ROrClause) [] _) as [v f' c'| | | |]; auto.
  destruct D as (-> & t & x & r & -> & E & -> & D). rewrite crs_cmove in E. rewrite pre_cmove in D. rewrite cmove_cmove.
  destruct (span is_ws r) as [w2 r2] eqn:E2.
  match goal with |- context [cv (ERule R_ws) ?f ?d] => destruct (cev_ws O f d w2 r2 E2) as [a2 ->] end. apply span_ws in E2 as (E2 & W2 & _).
  rewrite cmove_cmove. cbn match. split; auto. exists (w1 ++ t ++ w2), x, r2. repeat split.
  - rewrite E1, E, E2, <- !app_assoc. reflexivity.
  - now rewrite <- app_assoc.
  - exists w1, t, w2. auto.
Qed.

Theorem start_sound rs :
  match cstart rs with
  | COk v _ c' => exists x, v = VNode x /\ crs c' = [] /\ query O rs x
  | CNo | CBad _ => True
  | CPan | CFuel => False
  end.
Proof.
  rewrite cstart_eq. pose proof (query_sound [] rs) as Q. destruct (cv (ERule RQuery) [] _) as [v f' c'| | | |]; auto.
  destruct Q as (-> & t & x & r & -> & -> & -> & Q). rewrite crs_cmove. destruct r; [|exact I]. exists x. rewrite app_nil_r. auto.
Qed.

Theorem start_complete rs x : query O rs x -> exists f c', cstart rs = COk (VNode x) f c' /\ crs c' = [].
Proof.
  intros (w1 & a & w2 & -> & W1 & W2 & D). rewrite cstart_eq, cev_query. cbn [cseq]. set (c := {| pre := []; crs := w1 ++ a ++ w2 |}).
  destruct (cev_ws O [] c w1 (a ++ w2)) as [a1 ->]; [apply span_ws_app; auto; eapply derives_nows; eauto|].
  rewrite cev_label. change (ERule ROrClause) with (ERule (rule_of LOr)). rewrite (clause_complete _ _ _ _ D [] (cmove c w1 (a ++ w2)) w2).
  2: rewrite pre_cmove; reflexivity. 2: reflexivity. 2: (exists w2, []; rewrite app_nil_r; repeat split; auto; left; exact I).
  match goal with |- context [cv (ERule R_ws) ?f ?d] => destruct (cev_ws O f d w2 []) as [a2 ->] end.
  { rewrite crs_cmove. rewrite <- (app_nil_r w2) at 1. apply span_ws_app; auto. exact I. }
  cbn match. rewrite !cmove_cmove, crs_cmove. eauto.
Qed.

(** The language is unambiguous. *)
Theorem query_unique rs x y : query O rs x -> query O rs y -> x = y.
Proof.
  intros A B. apply start_complete in A as (f & c & E & _). apply start_complete in B as (f' & c' & E' & _).
  rewrite E in E'. now injection E'.
Qed.
End V.
