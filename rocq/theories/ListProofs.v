(** Operators and value lists. *)
From Verif Require Import Bytes Utf8 Utf8Proofs GoStrconv Oracles Ast PegSyntax Grammar Actions Engine EngineBasics CleanEval Lexer GrammarSpec TokenProofs TokenProofs2 ValueProofs FieldProofs.
From Coq Require Import ZifyBool ZifyN ZifyNat.

Lemma ctext_cmove c t r : crs c = t ++ r -> ctext c (cmove c t r) = encode t.
Proof. intros E. unfold ctext. now rewrite (between_adv c t (cmove c t r)). Qed.

(** *** Operators *)
Definition noargs_expr := EChoice [ELit [101; 120; 105; 115; 116; 115] false """exists"""%string; ELit [110; 117; 108; 108] false """null"""%string].
Lemma tok_noargs k : tok (sc (S (S k)) noargs_expr) (fun t => t = tx "exists" \/ t = tx "null") any.
Proof.
  apply tok_choice. eapply (tok_choice2 _ _ _ _ _ any any any); [apply tok_elit|apply tok_elit|auto|auto|].
  intros t r t' r' -> _ ->; discriminate.
Qed.
Lemma slit2 x y rs : slit false [x; y] rs = match rs with a :: a' :: r => if a =? x then if a' =? y then Some ([a; a'], r) else None else None | _ => None end.
Proof. destruct rs as [|a [|a' r]]; cbn; try reflexivity; destruct (a =? x); try reflexivity; destruct (a' =? y); reflexivity. Qed.

Definition comp_expr := EChoice [ELit [62; 60] false """><"""%string; ELit [126] false """~"""%string; ESeq [EClass "[<>]"%string [60; 62] [] false false; EOpt (ELit [61] false """="""%string)]].
Definition comp_scan (rs : list N) : option (list N * list N) :=
  match rs with
  | [] => None
  | x :: r =>
    let eq := match r with y :: r' => if y =? 61 then Some ([x; y], r') else Some ([x], r) | [] => Some ([x], r) end in
    if x =? 62 then match r with y :: r' => if y =? 60 then Some ([x; y], r') else eq | [] => eq end
    else if x =? 126 then Some ([x], r)
    else if x =? 60 then eq else None
  end.
Lemma sc_comp k rs : sc (S (S (S (S k)))) comp_expr rs = comp_scan rs.
Proof.
  unfold comp_expr. cbn [sc schoice sseq].
  rewrite slit2, !slit1. unfold comp_scan. destruct rs as [|x r]; [reflexivity|].
  replace (xorb false (in_class [60; 62] [] x)) with ((x =? 60) || (x =? 62)) by (unfold in_class, xorb; cbn [existsb]; rewrite (N.eqb_sym 60), (N.eqb_sym 62), !orb_false_r; destruct (_ || _); reflexivity).
  destruct (N.eqb_spec x 62) as [->|N1].
  - destruct r as [|y r']; [reflexivity|].
    destruct (N.eqb_spec y 60) as [->|]; [reflexivity|]. cbn. destruct (N.eqb_spec y 61); reflexivity.
  - destruct r as [|y r'].
    + destruct (N.eqb_spec x 126); [reflexivity|]. destruct (N.eqb_spec x 60) as [->|]; reflexivity.
    + destruct (N.eqb_spec x 126); [reflexivity|]. destruct (N.eqb_spec x 60) as [->|]; [|reflexivity].
      cbn. destruct (N.eqb_spec y 61); reflexivity.
Qed.

Section V.
Context (O : oracles).
Notation cv := (cev O []).
Ltac unf H := rewrite (cev_unfold O _ H) by (vm_compute; reflexivity).
Ltac unfe e := rewrite (cev_unfold O _ ok_nil e) by (vm_compute; reflexivity).
Ltac tokrule e := rewrite (cev_tokrule O _ _ e) by (vm_compute; reflexivity).

Lemma noargs_eval f c : cv (ERule RopNoArgs) f c =
  match sc 20 noargs_expr (crs c) with
  | Some (t, r) => COk (VOp (if beqb (encode t) (b "exists") then EXS else NUL)) f (cmove c t r)
  | None => CNo
  end.
Proof. tokrule noargs_expr. destruct (sc 20 noargs_expr (crs c)) as [[t r]|]; [|reflexivity]. cbn [run_action]. destruct (beqb _ _); reflexivity. Qed.
Lemma noargs_sound f c :
  match cv (ERule RopNoArgs) f c with
  | COk v f' c' => f' = f /\ exists t o r, v = VOp o /\ crs c = t ++ r /\ c' = cmove c t r /\ noarg_op t o
  | CNo => True
  | _ => False
  end.
Proof.
  rewrite noargs_eval. destruct (sc 20 noargs_expr (crs c)) as [[t r]|] eqn:E; [|exact I].
  apply (tok_noargs 18) in E as [E H]. split; auto. exists t. eexists. exists r. repeat split; auto.
  destruct H as [-> | ->]; constructor.
Qed.
Lemma noargs_complete f c t o r : crs c = t ++ r -> noarg_op t o -> cv (ERule RopNoArgs) f c = COk (VOp o) f (cmove c t r).
Proof.
  intros E H. rewrite noargs_eval, E. rewrite (proj2 (tok_noargs 18) t r); [|destruct H; auto|exact I].
  destruct H; reflexivity.
Qed.
Lemma noargs_no f c : (match crs c with x :: _ => x <> 101 /\ x <> 110 | [] => True end) -> cv (ERule RopNoArgs) f c = CNo.
Proof.
  intros H. rewrite noargs_eval. rewrite (tok_none _ _ _ _ (tok_noargs 18)); [reflexivity|].
  intros t r [-> | ->] E; rewrite E in H; cbn in H; lia.
Qed.

Definition is_opc (x : N) : bool := (x =? 60) || (x =? 62) || (x =? 126).
Definition op_of (t : list N) : op :=
  let text := encode t in
  if beqb text (b "><") then BET else if beqb text (b "~") then SIM else if beqb text (b "<") then LT
  else if beqb text (b "<=") then LTE else if beqb text (b ">") then GT else GTE.
Lemma comp_eval f c : cv (ERule RopComp) f c =
  match comp_scan (crs c) with
  | Some (t, r) => COk (VOp (op_of t)) f (cmove c t r)
  | None => CNo
  end.
Proof.
  tokrule comp_expr. rewrite (sc_comp 16). destruct (comp_scan (crs c)) as [[t r]|]; [|reflexivity]. cbn [run_action]. unfold op_of.
  repeat match goal with |- context [if ?x then _ else _] => destruct x end; reflexivity.
Qed.
Lemma comp_sound f c :
  match cv (ERule RopComp) f c with
  | COk v f' c' => f' = f /\ exists t o r, v = VOp o /\ crs c = t ++ r /\ c' = cmove c t r /\ comp_op t o
  | CNo => True
  | _ => False
  end.
Proof.
  rewrite comp_eval. unfold comp_scan. destruct (crs c) as [|x r]; [exact I|].
  assert (X : forall t r', x :: r = t ++ r' -> comp_op t (op_of t) ->
    f = f /\ exists t0 o r0, VOp (op_of t) = VOp o /\ x :: r = t0 ++ r0 /\ cmove c t r' = cmove c t0 r0 /\ comp_op t0 o).
  { intros t r' E H. split; auto. exists t, (op_of t), r'. auto. }
  destruct (N.eqb_spec x 62) as [->|].
  - destruct r as [|y r']; [apply X; constructor|].
    destruct (N.eqb_spec y 60) as [->|]; [apply X; constructor|].
    destruct (N.eqb_spec y 61) as [->|]; apply X; constructor.
  - destruct (N.eqb_spec x 126) as [->|]; [apply X; constructor|].
    destruct (N.eqb_spec x 60) as [->|]; [|exact I].
    destruct r as [|y r']; [apply X; constructor|].
    destruct (N.eqb_spec y 61) as [->|]; apply X; constructor.
Qed.
Lemma comp_complete f c t o r : crs c = t ++ r -> t <> [] -> comp_op t o ->
  (match r with x :: _ => x <> 60 /\ x <> 61 | [] => True end) ->
  cv (ERule RopComp) f c = COk (VOp o) f (cmove c t r).
Proof.
  intros E N H Hr. rewrite comp_eval, E.
  assert (X : match r with x :: r' => (x =? 60) = false /\ (x =? 61) = false | [] => True end) by (destruct r; [exact I|split; apply N.eqb_neq; tauto]).
  destruct H; try congruence; destruct r as [|y r']; try reflexivity; destruct X as [X1 X2]; unfold comp_scan;
    match goal with |- context [tx ?s] => let l := eval vm_compute in (tx s) in change (tx s) with l end; cbn beta iota zeta delta [app];
    repeat (match goal with |- context [if ?a =? ?c then _ else _] =>
       let v := eval vm_compute in (a =? c) in first [constr_eq v true; change (a =? c) with true|constr_eq v false; change (a =? c) with false] end; cbn beta iota zeta);
    rewrite ?X1, ?X2; reflexivity.
Qed.
Lemma comp_no f c : (match crs c with x :: _ => is_opc x = false | [] => True end) -> cv (ERule RopComp) f c = CNo.
Proof.
  intros H. rewrite comp_eval. unfold comp_scan. destruct (crs c) as [|x r]; [reflexivity|]. unfold is_opc in H.
  apply orb_false_iff in H as [H H3]. apply orb_false_iff in H as [H1 H2]. now rewrite H1, H2, H3.
Qed.

(** *** Value lists *)
Definition EItem := ESeq [ERule R_ws; ELit [44] false ""","""%string; ERule R_ws; ERule RValue].
(** zero or more further values *)
Inductive mvs : text -> text -> list aval -> Prop :=
| mvs_nil pre : mvs pre [] []
| mvs_cons pre w1 w2 t v u vs : ws w1 -> ws w2 ->
    literal O t (pos_of (pre ++ w1 ++ tx "," ++ w2) t) v ->
    mvs (pre ++ w1 ++ tx "," ++ w2 ++ t) u vs ->
    mvs pre (w1 ++ tx "," ++ w2 ++ t ++ u) (v :: vs).
Lemma mvs_more pre t vs : mvs pre t vs -> vs <> [] -> more_values O pre t vs.
Proof.
  induction 1 as [|pre w1 w2 t v u vs H1 H2 L M IH]; intros N; [congruence|].
  destruct vs as [|v' vs'].
  - inversion M; subst. rewrite app_nil_r. now constructor.
  - apply mv_cons; auto. apply IH. discriminate.
Qed.
Lemma more_mvs pre t vs : more_values O pre t vs -> mvs pre t vs.
Proof.
  induction 1 as [pre w1 w2 t v H1 H2 L|pre w1 w2 t v u vs H1 H2 L M IH].
  - rewrite <- (app_nil_r t) at 1. apply mvs_cons; auto. constructor.
  - now apply mvs_cons.
Qed.

Lemma item_sound c :
  match cv EItem [] c with
  | COk v f' c' => exists w1 w2 t x r a1 a2 a3, v = VList [a1; a2; a3; VVal x] /\ crs c = w1 ++ tx "," ++ w2 ++ t ++ r /\
      c' = cmove c (w1 ++ tx "," ++ w2 ++ t) r /\ ws w1 /\ ws w2 /\ literal O t (pos_of (rev (pre c) ++ w1 ++ tx "," ++ w2) t) x
  | CNo | CBad _ => True
  | _ => False
  end.
Proof.
  unfold EItem. unf ok_nil. cbn [cseq].
  destruct (span is_ws (crs c)) as [w1 r1] eqn:E1. destruct (cev_ws O [] c _ _ E1) as [a1 ->]. apply span_ws in E1 as (E1 & W1 & _).
  rewrite cev_lit1 by discriminate. rewrite crs_cmove. destruct r1 as [|y r1]; [exact I|]. destruct (N.eqb_spec y 44) as [->|]; [|exact I].
  rewrite cmove_cmove.
  destruct (span is_ws r1) as [w2 r2] eqn:E2. destruct (cev_ws O [] (cmove c (w1 ++ [44]) r1) _ _ E2) as [a2 ->]. apply span_ws in E2 as (E2 & W2 & _).
  rewrite cmove_cmove.
  pose proof (vsound O [] (cmove c ((w1 ++ [44]) ++ w2) r2)) as V. unfold vgood in V.
  destruct (cv (ERule RValue) [] _) as [v f' c'| | | |]; auto.
  destruct V as (-> & t & x & r & -> & E & -> & L). rewrite crs_cmove in E. rewrite pre_cmove in L. cbn [rev app].
  exists w1, w2, t, x, r. do 3 eexists. split; [reflexivity|]. rewrite E1, E2, E. rewrite <- !app_assoc in *. repeat split; auto.
  now rewrite cmove_cmove, <- !app_assoc.
Qed.

Lemma items_sound k : forall acc f c, (length (crs c) < k)%nat ->
  match cstar cv k EItem acc f c with
  | COk v f' c' => f' = f /\ exists l t vs r, v = VList (rev acc ++ l) /\ vals_rest l = Yes vs /\ (l = [] <-> vs = []) /\
      crs c = t ++ r /\ c' = cmove c t r /\ mvs (rev (pre c)) t vs
  | CBad _ => True
  | _ => False
  end.
Proof.
  induction k as [|k IH]; intros acc f c Hk; [lia|]. cbn [cstar]. pose proof (item_sound c) as D.
  destruct (cv EItem [] c) as [v f' c'| | | |]; auto.
  - destruct D as (w1 & w2 & t & x & r & a1 & a2 & a3 & -> & E & -> & W1 & W2 & L).
    specialize (IH (VList [a1; a2; a3; VVal x] :: acc) f (cmove c (w1 ++ tx "," ++ w2 ++ t) r)). rewrite crs_cmove, pre_cmove in IH.
    assert (Hl : (length r < k)%nat) by (rewrite E, !app_length in Hk; cbn in Hk; lia). specialize (IH Hl).
    destruct (cstar cv k EItem _ f _) as [v f'' c''| | | |]; auto.
    destruct IH as (-> & l & t' & vs & r' & -> & F & N & E' & -> & D). split; auto.
    exists (VList [a1; a2; a3; VVal x] :: l), (w1 ++ tx "," ++ w2 ++ t ++ t'), (x :: vs), r'.
    repeat split; auto; try discriminate.
    + cbn [rev]. now rewrite <- app_assoc.
    + cbn. now rewrite F.
    + rewrite E, E', <- !app_assoc. reflexivity.
    + rewrite cmove_cmove. now rewrite <- !app_assoc.
    + now apply mvs_cons.
  - split; auto. exists [], [], [], (crs c). rewrite app_nil_r. repeat split; auto; [destruct c; reflexivity|constructor].
Qed.

Definition EMany := [ELit [40] false """("""%string; ERule R_ws; ELabel "first"%string (ERule RValue); ELabel "rest"%string (EStar EItem); ERule R_ws; ELit [41] false """)"""%string].
Lemma cev_list f c : cv (ERule RValueList) f c =
  cpop f (match (match cseq cv EMany [] [] c with
                 | COk _ f' c' => match run_action O AValueList2 f' (pos_at c) (ctext c c') with
                                  | AOk v => COk v f' c' | AErr _ k => CBad {| pe_kind := k; pe_pos := pos_at c |} | APanic => CPan end
                 | r => r end) with
          | COk v _ c' => COk v [] c'
          | CNo =>
            match cv (ERule RValue) [] c with
            | COk v _ c' => match run_action O AValueList17 [("value"%string, v)] (pos_at c) (ctext c c') with
                            | AOk v => COk v [] c' | AErr _ k => CBad {| pe_kind := k; pe_pos := pos_at c |} | APanic => CPan end
            | r => r end
          | r => r end).
Proof.
  unf ok_nil. cbn [rules]. unf ok_nil. cbn [cchoice].
  unfe (EAction AValueList2 (ESeq EMany)). unfe (ESeq EMany). unfe (EAction AValueList17 (ELabel "value"%string (ERule RValue))). rewrite cev_label.
  f_equal. cbn match. destruct (cseq cv EMany [] [] c) as [v f' c'| | | |]; try reflexivity.
  - destruct (run_action O AValueList2 f' (pos_at c) (ctext c c')); reflexivity.
  - destruct (cv (ERule RValue) [] c) as [v f' c'| | | |]; try reflexivity. cbn match.
    destruct (run_action O AValueList17 _ (pos_at c) (ctext c c')); reflexivity.
Qed.

Lemma cev_rest f c : cv (ELabel "rest"%string (EStar EItem)) f c =
  match cstar cv (S (length (crs c))) EItem [] [] c with COk v _ c' => COk v (set_label "rest" v f) c' | r => r end.
Proof. unfe (ELabel "rest"%string (EStar EItem)). unfe (EStar EItem). reflexivity. Qed.

Definition lgood (c : cursor) (f : frame) (r : cres) : Prop :=
  match r with
  | COk v f' c' => f' = f /\ exists t vs r, v = VVals vs /\ crs c = t ++ r /\ c' = cmove c t r /\ values O (rev (pre c)) t vs
  | CNo | CBad _ => True
  | CPan | CFuel => False
  end.

Lemma many_sound c :
  match cseq cv EMany [] [] c with
  | COk _ f' c' => exists w1 t v u vs w2 r l a, f' = [("rest"%string, VList l); ("first"%string, VVal v)] ++ a /\
      vals_rest l = Yes vs /\ (l = [] <-> vs = []) /\
      crs c = (tx "(" ++ w1 ++ t ++ u ++ w2 ++ tx ")") ++ r /\ c' = cmove c (tx "(" ++ w1 ++ t ++ u ++ w2 ++ tx ")") r /\
      ws w1 /\ ws w2 /\ literal O t (pos_of (rev (pre c) ++ tx "(" ++ w1) t) v /\
      mvs (rev (pre c) ++ tx "(" ++ w1 ++ t) u vs
  | CNo | CBad _ => True
  | CPan | CFuel => False
  end.
Proof.
  unfold EMany. cbn [cseq]. rewrite cev_lit1 by discriminate.
  destruct (crs c) as [|y r0] eqn:Ec; [exact I|]. destruct (N.eqb_spec y 40) as [->|]; [|exact I].
  destruct (span is_ws r0) as [w1 r1] eqn:E1. destruct (cev_ws O [] (cmove c [40] r0) _ _ E1) as [a1 ->]. apply span_ws in E1 as (E1 & W1 & _).
  rewrite cmove_cmove, cev_label.
  pose proof (vsound O [] (cmove c ([40] ++ w1) r1)) as V. unfold vgood in V.
  destruct (cv (ERule RValue) [] _) as [v f' c'| | | |]; auto.
  destruct V as (-> & t & x & r2 & -> & E2 & -> & L). rewrite crs_cmove in E2. rewrite pre_cmove in L. rewrite cmove_cmove.
  rewrite cev_rest, crs_cmove. set (c2 := cmove c (([40] ++ w1) ++ t) r2).
  pose proof (items_sound (S (length r2)) [] [] c2 ltac:(cbn; lia)) as D.
  destruct (cstar cv (S (length r2)) EItem [] [] c2) as [v f' c'| | | |]; auto.
  destruct D as (-> & l & u & vs & r3 & -> & F & N & E3 & -> & D). unfold c2 in *. rewrite crs_cmove in E3. rewrite pre_cmove in D. rewrite cmove_cmove.
  destruct (span is_ws r3) as [w2 r4] eqn:E4. match goal with |- context [cv (ERule R_ws) ?f ?d] => destruct (cev_ws O f d w2 r4 E4) as [a4 ->] end.
  apply span_ws in E4 as (E4 & W2 & _). rewrite cmove_cmove, cev_lit1, crs_cmove by discriminate.
  destruct r4 as [|y r5]; [exact I|]. destruct (N.eqb_spec y 41) as [->|]; [|exact I]. rewrite cmove_cmove.
  exists w1, t, x, u, vs, w2, r5, l, []. rewrite app_nil_r. cbn [rev app] in *.
  rewrite <- ?app_assoc in *. cbn [app] in *. repeat split; auto; try apply N.
  - rewrite E1, E2, E3, E4. cbn. rewrite <- ?app_assoc. reflexivity.
Qed.

Lemma list_sound f c : lgood c f (cv (ERule RValueList) f c).
Proof.
  rewrite cev_list. pose proof (many_sound c) as M.
  destruct (cseq cv EMany [] [] c) as [v f' c'| | | |]; auto; try exact I.
  - destruct M as (w1 & t & v' & u & vs & w2 & r & l & a & -> & F & N & E & -> & W1 & W2 & L & M).
    cbn [run_action get String.eqb app as_val to_any]. cbn.
    destruct l as [|i l']; [exact I|]. rewrite F. cbn. split; auto.
    eexists. exists (v' :: vs), r. split; [reflexivity|]. split; [exact E|]. split; [reflexivity|].
    apply vs_many; auto. apply mvs_more; auto. intros ->. destruct N as [_ N]. discriminate (N eq_refl).
  - pose proof (vsound O [] c) as V. unfold vgood in V. destruct (cv (ERule RValue) [] c) as [v f' c'| | | |]; auto; try exact I.
    destruct V as (-> & t & x & r & -> & E & -> & L). cbn. split; auto. exists t, [x], r. repeat split; auto. now constructor.
Qed.

(** Completeness *)
Lemma follow_comma w r : ws w -> follow (w ++ 44 :: r).
Proof. intros H. exists w, (44 :: r). repeat split; auto. left. cbn. auto. Qed.
Lemma follow_close w r : ws w -> follow (w ++ 41 :: r).
Proof. intros H. exists w, (41 :: r). repeat split; auto. left. cbn. auto. Qed.
Lemma nows_lit t p v r : literal O t p v -> nows (t ++ r).
Proof.
  intros L. apply literal_hd in L as (x & u & -> & Hx). cbn. unfold lit_char, digit in Hx. unfold is_ws. lia.
Qed.

Lemma mvs_follow pre u vs w2 r : mvs pre u vs -> ws w2 -> follow (u ++ w2 ++ 41 :: r).
Proof.
  intros M W. destruct M.
  - now apply follow_close.
  - rewrite <- !app_assoc. now apply follow_comma.
Qed.

Lemma item_end w2 r c : ws w2 -> crs c = w2 ++ 41 :: r -> cv EItem [] c = CNo.
Proof.
  intros W E. unfold EItem. unf ok_nil. cbn [cseq].
  destruct (cev_ws O [] c w2 (41 :: r)) as [a1 ->]; [rewrite E; apply span_ws_app; auto; reflexivity|].
  rewrite cev_lit1 by discriminate. reflexivity.
Qed.

Lemma items_complete p u vs : mvs p u vs -> forall k acc f c w2 r, p = rev (pre c) -> ws w2 -> crs c = u ++ w2 ++ 41 :: r -> (length (crs c) < k)%nat ->
  exists l, cstar cv k EItem acc f c = COk (VList (rev acc ++ l)) f (cmove c u (w2 ++ 41 :: r)) /\ vals_rest l = Yes vs /\ (vs <> [] -> l <> []).
Proof.
  induction 1 as [p|p w1 w2' t v u vs W1 W2' L M IH]; intros k acc f c w2 r -> W2 E Hk.
  - destruct k as [|k]; [lia|]. cbn [cstar]. cbn [app] in E. rewrite (item_end w2 r c W2 E).
    exists []. rewrite app_nil_r. repeat split; auto. rewrite <- E. destruct c; reflexivity.
  - destruct k as [|k]; [lia|]. cbn [cstar]. rewrite <- !app_assoc in E.
    assert (X : exists a1 a2 a3, cv EItem [] c = COk (VList [a1; a2; a3; VVal v]) [] (cmove c (w1 ++ tx "," ++ w2' ++ t) (u ++ w2 ++ 41 :: r))).
    { unfold EItem. unf ok_nil. cbn [cseq].
      destruct (cev_ws O [] c w1 (tx "," ++ w2' ++ t ++ u ++ w2 ++ 41 :: r)) as [a1 ->]; [rewrite E; apply span_ws_app; auto; reflexivity|].
      rewrite cev_lit1 by discriminate. rewrite crs_cmove. change (tx "," ++ ?x) with (44 :: x). cbn match. change (44 =? 44) with true. cbn match.
      rewrite cmove_cmove. destruct (cev_ws O [] (cmove c (w1 ++ [44]) (w2' ++ t ++ u ++ w2 ++ 41 :: r)) w2' (t ++ u ++ w2 ++ 41 :: r)) as [a2 ->].
      { rewrite crs_cmove. apply span_ws_app; auto. eapply nows_lit; eauto. }
      rewrite cmove_cmove. rewrite (vcomplete O [] _ t (u ++ w2 ++ 41 :: r) v).
      - rewrite cmove_cmove. cbn [rev app]. do 3 eexists. f_equal. rewrite <- !app_assoc. reflexivity.
      - reflexivity.
      - eapply mvs_follow; eauto.
      - rewrite pre_cmove. rewrite <- !app_assoc. exact L. }
    destruct X as (a1 & a2 & a3 & X). rewrite X.
    destruct (IH k (VList [a1; a2; a3; VVal v] :: acc) f (cmove c (w1 ++ tx "," ++ w2' ++ t) (u ++ w2 ++ 41 :: r)) w2 r) as (l & El & Fl & _).
    + now rewrite pre_cmove.
    + auto.
    + reflexivity.
    + rewrite crs_cmove. rewrite E, !app_length in Hk. cbn in Hk. rewrite !app_length. cbn. lia.
    + exists (VList [a1; a2; a3; VVal v] :: l). rewrite El. cbn [rev]. rewrite <- app_assoc, cmove_cmove, <- !app_assoc.
      split; [reflexivity|]. split; [|discriminate]. cbn. now rewrite Fl.
Qed.

Lemma list_complete f c t vs r : crs c = t ++ r -> follow r -> values O (rev (pre c)) t vs ->
  cv (ERule RValueList) f c = COk (VVals vs) f (cmove c t r).
Proof.
  intros E Hr V. rewrite cev_list. remember (rev (pre c)) as p eqn:Ep. destruct V as [p t v L|p w1 t v u vs w2 W1 W2 L M]; subst p.
  - assert (X : cseq cv EMany [] [] c = CNo).
    { unfold EMany. cbn [cseq]. rewrite cev_lit1 by discriminate. rewrite E. apply literal_hd in L as (x & u & -> & Hx). cbn [app].
      destruct (N.eqb_spec x 40) as [->|]; [|reflexivity]. unfold lit_char, digit in Hx. lia. }
    rewrite X. rewrite (vcomplete O [] c t r v); auto.
  - rewrite <- !app_assoc in E. pose proof (more_mvs _ _ _ M) as M'.
    assert (Nv : vs <> []) by (destruct M; discriminate).
    assert (X : exists y l, cseq cv EMany [] [] c = COk y [("rest"%string, VList l); ("first"%string, VVal v)] (cmove c (tx "(" ++ w1 ++ t ++ u ++ w2 ++ tx ")") r) /\
       vals_rest l = Yes vs /\ l <> []).
    { unfold EMany. cbn [cseq]. rewrite cev_lit1 by discriminate. rewrite E. change (tx "(" ++ ?x) with (40 :: x). cbn match. change (40 =? 40) with true. cbn match.
      destruct (cev_ws O [] (cmove c [40] (w1 ++ t ++ u ++ w2 ++ tx ")" ++ r)) w1 (t ++ u ++ w2 ++ tx ")" ++ r)) as [a1 ->].
      { rewrite crs_cmove. apply span_ws_app; auto. eapply nows_lit; eauto. }
      rewrite cmove_cmove, cev_label. rewrite (vcomplete O [] _ t (u ++ w2 ++ tx ")" ++ r) v).
      2: reflexivity. 2: eapply mvs_follow; eauto. 2: now rewrite pre_cmove.
      rewrite cmove_cmove, cev_rest, crs_cmove.
      destruct (items_complete _ u vs M' (S (length (u ++ w2 ++ tx ")" ++ r))) [] [] (cmove c (([40] ++ w1) ++ t) (u ++ w2 ++ tx ")" ++ r)) w2 r) as (l & El & Fl & Nl).
      - rewrite pre_cmove. now rewrite <- !app_assoc.
      - auto.
      - reflexivity.
      - rewrite crs_cmove. lia.
      - rewrite El. rewrite cmove_cmove.
        match goal with |- context [cv (ERule R_ws) ?f ?d] => destruct (cev_ws O f d w2 (41 :: r)) as [a4 ->] end.
        { rewrite crs_cmove. apply span_ws_app; auto. reflexivity. }
        rewrite cmove_cmove, cev_lit1 by discriminate. rewrite crs_cmove. change (41 =? 41) with true. cbn match.
        rewrite cmove_cmove. do 2 eexists. split; [|split; [exact Fl|auto]]. f_equal. rewrite <- !app_assoc. reflexivity. }
    destruct X as (y & l & -> & Fl & Nl). cbn [run_action get String.eqb app as_val to_any]. cbn. destruct l; [congruence|]. now rewrite Fl.
Qed.

Lemma values_hd pre t vs : values O pre t vs -> exists x u, t = x :: u /\ (lit_char x \/ x = 40).
Proof.
  destruct 1 as [pre t v L|].
  - apply literal_hd in L as (x & u & -> & Hx). do 2 eexists. split; [reflexivity|tauto].
  - do 2 eexists. split; [reflexivity|tauto].
Qed.
End V.
