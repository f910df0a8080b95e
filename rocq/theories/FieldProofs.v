(** Field paths and value lists. *)
From Verif Require Import Bytes Utf8 Utf8Proofs GoStrconv Oracles Ast PegSyntax Grammar Actions Engine EngineBasics CleanEval Lexer GrammarSpec TokenProofs TokenProofs2 ValueProofs.
From Coq Require Import ZifyBool ZifyN ZifyNat.

Section V.
Context (O : oracles).
Notation cv := (cev O []).
Ltac unf H := rewrite (cev_unfold O _ H) by (vm_compute; reflexivity).
Ltac unfe e := rewrite (cev_unfold O _ ok_nil e) by (vm_compute; reflexivity).
Ltac tokrule e := rewrite (cev_tokrule O _ _ e) by (vm_compute; reflexivity).

Lemma crs_cmove c t r : crs (cmove c t r) = r. Proof. reflexivity. Qed.
Lemma pre_cmove c t r : rev (pre (cmove c t r)) = rev (pre c) ++ t.
Proof. cbn. now rewrite rev_app_distr, rev_involutive. Qed.

Lemma cev_label l r f c : cv (ELabel l (ERule r)) f c =
  match cv (ERule r) [] c with COk v _ c' => COk v (set_label l v f) c' | x => x end.
Proof. rewrite (cev_unfold O _ ok_nil) by (destruct r; reflexivity). reflexivity. Qed.

Lemma sc_ws k rs : sc (S (S (S k))) (ERule R_ws) rs = Some (span is_ws rs).
Proof.
  change (sstar (sc (S k) (EClass "[ \n\t\r]"%string [32; 10; 9; 13] [] false false)) (S (length rs)) rs = Some (span is_ws rs)).
  rewrite (sstar_span _ is_ws); [reflexivity|apply class_ws|lia].
Qed.
Lemma sc_space k rs : sc (S (S (S k))) (ERule Rspace) rs = match span is_ws rs with ([], _) => None | x => Some x end.
Proof.
  change (sc (S (S (S k))) (ERule Rspace) rs) with (match sstar (sc (S k) (EClass "[ \n\t\r]"%string [32; 10; 9; 13] [] false false)) (S (length rs)) rs with Some ([], _) => None | x => x end).
  rewrite (sstar_span _ is_ws); [destruct (span is_ws rs) as [[|] ?]; reflexivity|apply class_ws|lia].
Qed.
Lemma cev_ws f c w r : span is_ws (crs c) = (w, r) -> exists v, cv (ERule R_ws) f c = COk v f (cmove c w r).
Proof.
  intros E. pose proof (cev_pure O _ ok_nil 5 (ERule R_ws) f c ltac:(vm_compute; reflexivity) ltac:(vm_compute; reflexivity)) as P.
  rewrite (sc_ws 2), E in P. apply P.
Qed.
Lemma cev_space f c w r : span is_ws (crs c) = (w, r) ->
  match w with [] => cv (ERule Rspace) f c = CNo | _ => exists v, cv (ERule Rspace) f c = COk v f (cmove c w r) end.
Proof.
  intros E. pose proof (cev_pure O _ ok_nil 5 (ERule Rspace) f c ltac:(vm_compute; reflexivity) ltac:(vm_compute; reflexivity)) as P.
  rewrite (sc_space 2), E in P. destruct w; [exact P|apply P].
Qed.
Lemma span_ws rs w r : span is_ws rs = (w, r) -> rs = w ++ r /\ ws w /\ nows r.
Proof. intros E. pose proof (span_spec is_ws rs) as (A & B & C). rewrite E in *. cbn in *. repeat split; auto. now apply wss_spec. Qed.
Lemma span_ws_app w r : ws w -> nows r -> span is_ws (w ++ r) = (w, r).
Proof. intros H. apply wss_spec in H. now apply span_app. Qed.

Lemma cev_lit1 x s f c : x <> 65533 -> cv (ELit [x] false s) f c =
  match crs c with y :: r => if y =? x then COk (VBytes (encode [y])) f (cmove c [y] r) else CNo | [] => CNo end.
Proof.
  intros Hx. rewrite (cev_elit O _ ok_nil).
  - rewrite slit1. destruct (crs c) as [|y r]; [reflexivity|]. destruct (y =? x); reflexivity.
  - cbn. destruct (x =? 65533) eqn:E; [lia|]. cbn. unfold rune_error. rewrite E. reflexivity.
Qed.

(** *** Pieces *)
Definition piece_char (x : N) : Prop := x = 34 \/ name_char x \/ x = 42.
Lemma piece_hd t s : piece t s -> exists x u, t = x :: u /\ piece_char x.
Proof.
  unfold piece_char. destruct 1 as [t s (body & -> & _) _|t H Hn|].
  - do 2 eexists; split; [reflexivity|tauto].
  - destruct t as [|x u]; [congruence|]. inversion H; subst. do 2 eexists; split; [reflexivity|tauto].
  - do 2 eexists; split; [reflexivity|tauto].
Qed.
Lemma piece_char_facts x : piece_char x -> x =? 10 = false /\ is_ws x = false /\ x <> 40 /\ x <> 33 /\ x <> 58 /\ x <> 46.
Proof. unfold piece_char, name_char, is_ws, digit. lia. Qed.

Definition pgood (c : cursor) (f : frame) (r : cres) : Prop :=
  match r with
  | COk v f' c' => f' = f /\ exists t s r, v = VStr s /\ crs c = t ++ r /\ c' = cmove c t r /\ piece t s
  | CNo => match crs c with x :: _ => ~ piece_char x | [] => True end
  | CBad _ => True
  | CPan | CFuel => False
  end.

Lemma cev_qpiece f c : cv (ERule RQuotedFieldPiece) f c =
  match cv (ERule RQuotedValue) [] c with
  | COk (VVal (AStr s _)) _ c' => COk (VStr s) f c'
  | COk _ _ _ => CPan
  | r => r
  end.
Proof.
  unf ok_nil. cbn [rules]. unf ok_nil. rewrite cev_label.
  destruct (cv (ERule RQuotedValue) [] c) as [v f' c'| | | |]; try reflexivity.
  cbn [run_action set_label get String.eqb]. cbn. destruct v; try reflexivity. destruct v; reflexivity.
Qed.
Definition star_lit := ELit [42] false """*"""%string.
Lemma sc_star_lit rs : sc 20 star_lit rs = match rs with y :: r => if y =? 42 then Some ([y], r) else None | [] => None end.
Proof. change (sc 20 star_lit rs) with (slit false [42] rs). apply slit1. Qed.

Lemma sc_names k rs : sc (S (S k)) (EPlus EName) rs = match span is_name rs with ([], _) => None | x => Some x end.
Proof.
  change (sc (S (S k)) (EPlus EName) rs) with (match sstar (sc (S k) EName) (S (length rs)) rs with Some ([], _) => None | x => x end).
  rewrite (sstar_span _ is_name); [destruct (span is_name rs) as [[|] ?]; reflexivity|apply class_name|lia].
Qed.
Lemma piece_sound f c : pgood c f (cv (ERule RFieldPiece) f c).
Proof.
  unf ok_nil. cbn [rules]. unf ok_nil. cbn [cchoice]. rewrite cev_qpiece.
  pose proof (cev_quoted O [] c) as Q.
  destruct (is_hd 34 (crs c)) eqn:Eh.
  - (* a quote *)
    destruct (crs c) as [|x r] eqn:Ec; [discriminate|]. cbn in Eh. rewrite Eh in Q.
    destruct Q as (body & r1 & Qs & Q). apply qstar_sound in Qs as [Er Hb].
    destruct r1 as [|y r2]; [rewrite Q; exact I|].
    destruct (N.eqb_spec y 34) as [->|]; [|rewrite Q; exact I]. cbn zeta in Q. rewrite Q.
    destruct (unquote _) as [s|] eqn:U; [|exact I]. cbn [cpop]. split; auto.
    exists ([34] ++ body ++ [34]), s, r2. repeat split; auto.
    + rewrite Ec, Er. apply N.eqb_eq in Eh. subst x. rewrite <- !app_assoc. reflexivity.
    + apply pc_quoted; auto. exists body; auto.
  - rewrite (q_none O) by exact Eh. tokrule (EPlus EName).
    destruct (sc 20 (EPlus EName) (crs c)) as [[t r]|] eqn:E1.
    + apply (tok_name 18) in E1 as [E1 [H1 H2]]. cbn. split; auto. exists t, (encode t), r. repeat split; auto. now apply pc_plain.
    + tokrule star_lit. rewrite sc_star_lit.
      destruct (crs c) as [|x r] eqn:Ec; [cbn; now rewrite Ec|].
      destruct (N.eqb_spec x 42) as [->|Hn].
      * cbn. split; auto. exists (tx "*"), (b "*"), r. repeat split; auto. apply pc_star.
      * cbn [cpop pgood]. rewrite Ec. unfold piece_char. intros [-> |[Hx|Hx]]; [discriminate| |congruence].
        rewrite (sc_names 18) in E1. cbn [span] in E1. rewrite (proj2 (is_name_spec x) Hx) in E1. destruct (span is_name r); discriminate.
Qed.

Lemma piece_complete f c t s r : crs c = t ++ r -> piece t s -> noname r -> cv (ERule RFieldPiece) f c = COk (VStr s) f (cmove c t r).
Proof.
  intros E P Hr. unf ok_nil. cbn [rules]. unf ok_nil. cbn [cchoice]. rewrite cev_qpiece.
  destruct P as [t s Q U|t H Hn|].
  - rewrite (q_ok O [] c t r s); auto.
  - destruct t as [|x u]; [congruence|]. assert (Hx : name_char x) by now inversion H.
    rewrite (q_none O) by (rewrite E; cbn; unfold name_char, digit in Hx; lia).
    tokrule (EPlus EName). rewrite E, (proj2 (tok_name 18) (x :: u) r); auto.
  - rewrite (q_none O) by (rewrite E; reflexivity). tokrule (EPlus EName).
    rewrite (tok_none _ _ _ _ (tok_name 18)).
    + tokrule star_lit. rewrite sc_star_lit, E. reflexivity.
    + intros t' r' [H Hn] E'. destruct t' as [|x u]; [congruence|]. rewrite E in E'. injection E' as <- _. inversion H; subst.
      unfold name_char, digit in *. lia.
Qed.

(** *** Paths *)
Inductive dotted : text -> list bytes -> Prop :=
| dt_nil : dotted [] []
| dt_cons t s u l : piece t s -> dotted u l -> dotted (tx "." ++ t ++ u) (s :: l).
Lemma pieces_dotted t l : pieces t l <-> exists t1 s u l1, t = t1 ++ u /\ piece t1 s /\ dotted u l1 /\ l = s :: l1.
Proof.
  split.
  - induction 1 as [t s H|t s u l H _ (t1 & s1 & u1 & l1 & -> & P & D & ->)].
    + exists t, s, [], []. rewrite app_nil_r. repeat split; auto. constructor.
    + exists t, s, (tx "." ++ t1 ++ u1), (s1 :: l1). repeat split; auto. now constructor.
  - intros (t1 & s & u & l1 & -> & P & D & ->). revert t1 s P. induction D as [|t s u l P' D IH]; intros t1 s1 P.
    + rewrite app_nil_r. now constructor.
    + apply pcs_more; auto.
Qed.

Definition EDotPiece := ESeq [ELit [46] false """."""%string; ERule RFieldPiece].
Lemma dot_item c :
  match cv EDotPiece [] c with
  | COk v f' c' => exists t s r w, v = VList [w; VStr s] /\ crs c = tx "." ++ t ++ r /\ c' = cmove c (tx "." ++ t) r /\ piece t s
  | CNo => True
  | CBad _ => True
  | CPan | CFuel => False
  end.
Proof.
  unfold EDotPiece. unf ok_nil. cbn [cseq]. rewrite cev_lit1 by discriminate.
  destruct (crs c) as [|y r] eqn:Ec; [exact I|]. destruct (N.eqb_spec y 46) as [->|]; [|exact I].
  pose proof (piece_sound [] (cmove c [46] r)) as P.
  destruct (cv (ERule RFieldPiece) [] (cmove c [46] r)) as [v f' c'| | | |]; auto.
  destruct P as (-> & t & s & r' & -> & E & -> & P). rewrite crs_cmove in E. cbn [cseq rev app].
  exists t, s, r'. eexists. repeat split; auto; [now rewrite E|now rewrite cmove_cmove].
Qed.

Lemma dots_sound k : forall acc f c, (length (crs c) < k)%nat ->
  match cstar cv k EDotPiece acc f c with
  | COk v f' c' => f' = f /\ exists l t ss r, v = VList (rev acc ++ l) /\ field_rest l = Some ss /\
      crs c = t ++ r /\ c' = cmove c t r /\ dotted t ss
  | CBad _ => True
  | _ => False
  end.
Proof.
  induction k as [|k IH]; intros acc f c Hk; [lia|]. cbn [cstar]. pose proof (dot_item c) as D.
  destruct (cv EDotPiece [] c) as [v f' c'| | | |]; auto.
  - destruct D as (t & s & r & w & -> & E & -> & P).
    specialize (IH (VList [w; VStr s] :: acc) f (cmove c (tx "." ++ t) r)). rewrite crs_cmove in IH.
    assert (Hl : (length r < k)%nat) by (rewrite E, !app_length in Hk; cbn in Hk; lia). specialize (IH Hl).
    destruct (cstar cv k EDotPiece _ f _) as [v f'' c''| | | |]; auto.
    destruct IH as (-> & l & t' & ss & r' & -> & F & E' & -> & D). split; auto.
    exists (VList [w; VStr s] :: l), ((tx "." ++ t) ++ t'), (s :: ss), r'.
    repeat split; auto.
    + cbn [rev]. now rewrite <- app_assoc.
    + cbn. now rewrite F.
    + rewrite E, E', <- !app_assoc. reflexivity.
    + now rewrite cmove_cmove.
    + rewrite <- app_assoc. now constructor.
  - split; auto. exists [], [], [], (crs c). rewrite app_nil_r. repeat split; auto; [destruct c; reflexivity|constructor].
Qed.

Definition fgood (c : cursor) (f : frame) (r : cres) : Prop :=
  match r with
  | COk v f' c' => f' = f /\ exists t l r, v = VStrs l /\ crs c = t ++ r /\ c' = cmove c t r /\ field t l
  | CNo | CBad _ => True
  | CPan | CFuel => False
  end.
Definition EPieces := ESeq [ERule RFieldPiece; EStar EDotPiece].
Lemma cev_field f c : cv (ERule RField) f c =
  cpop f (match cseq cv [ERule RFieldPiece; EStar EDotPiece] [] [] c with
          | COk v _ c' =>
            match run_action O AField1 [("pieces"%string, v)] (pos_at c) (ctext c c') with
            | AOk v' => COk v' [("pieces"%string, v)] c'
            | AErr _ k => CBad {| pe_kind := k; pe_pos := pos_at c |}
            | APanic => CPan
            end
          | r => r
          end).
Proof.
  unf ok_nil. cbn [rules]. unf ok_nil. unfe (ELabel "pieces"%string EPieces). unfe EPieces. unfold EPieces. cbn match.
  destruct (cseq _ _ _ _ _); reflexivity.
Qed.

Lemma field_sound f c : fgood c f (cv (ERule RField) f c).
Proof.
  rewrite cev_field. cbn [cseq]. pose proof (piece_sound [] c) as P.
  destruct (cv (ERule RFieldPiece) [] c) as [v f' c'| | | |]; auto; try exact I.
  destruct P as (-> & t & s & r & -> & E & -> & P).
  unfe (EStar EDotPiece). rewrite crs_cmove. pose proof (dots_sound (S (length r)) [] [] (cmove c t r)) as D.
  rewrite crs_cmove in D. specialize (D ltac:(lia)).
  destruct (cstar _ _ _ _ _ _) as [v f' c'| | | |]; auto; try exact I.
  destruct D as (-> & l & t' & ss & r' & -> & F & E' & -> & D). cbn [cseq rev app run_action get String.eqb to_any as_str]. cbn.
  rewrite F. cbn. split; auto.
  exists (t ++ t'), (remove_stars (s :: ss)), r'. repeat split; auto.
  - rewrite E, E', app_assoc. reflexivity.
  - now rewrite cmove_cmove.
  - exists (s :: ss). split; [|reflexivity]. apply pieces_dotted. exists t, s, t', ss. auto.
Qed.

Definition nofield : lang := fun r => noname r /\ nohd 46 r.
Lemma dots_complete u l : dotted u l -> forall k acc f c r, crs c = u ++ r -> nofield r -> (length (crs c) < k)%nat ->
  exists vs, cstar cv k EDotPiece acc f c = COk (VList (rev acc ++ vs)) f (cmove c u r) /\ field_rest vs = Some l.
Proof.
  induction 1 as [|t s u l P D IH]; intros k acc f c r E [N1 N2] Hk.
  - destruct k as [|k]; [lia|]. cbn [cstar app] in *.
    assert (X : cv EDotPiece [] c = CNo).
    { unfold EDotPiece. unf ok_nil. cbn [cseq]. rewrite cev_lit1 by discriminate. rewrite E. destruct r as [|x r]; auto.
      cbn in N2. now rewrite (proj2 (N.eqb_neq x 46)). }
    rewrite X. exists []. rewrite app_nil_r. split; auto. rewrite <- E. destruct c; reflexivity.
  - destruct k as [|k]; [lia|]. cbn [cstar].
    assert (X : exists w, cv EDotPiece [] c = COk (VList [w; VStr s]) [] (cmove c (tx "." ++ t) (u ++ r))).
    { unfold EDotPiece. unf ok_nil. cbn [cseq]. rewrite cev_lit1 by discriminate. rewrite E. change ((tx "." ++ t ++ u) ++ r) with (46 :: (t ++ u) ++ r). cbn match. change (46 =? 46) with true. cbn match.
      rewrite (piece_complete [] (cmove c [46] ((t ++ u) ++ r)) t s (u ++ r)); auto.
      - rewrite cmove_cmove. cbn. eauto.
      - rewrite crs_cmove. now rewrite app_assoc.
      - destruct D as [|t' s' u' l' P' D']; [exact N1|]. reflexivity. }
    destruct X as [w X]. rewrite X.
    destruct (IH k (VList [w; VStr s] :: acc) f (cmove c (tx "." ++ t) (u ++ r)) r) as (vs & Ev & Fv).
    + reflexivity.
    + split; auto.
    + rewrite crs_cmove. rewrite E, !app_length in Hk. cbn in Hk. rewrite app_length. lia.
    + exists (VList [w; VStr s] :: vs). split; [|cbn; now rewrite Fv].
      rewrite Ev. cbn [rev]. rewrite <- app_assoc, cmove_cmove, <- app_assoc. reflexivity.
Qed.

Lemma field_complete f c t l r : crs c = t ++ r -> field t l -> nofield r ->
  cv (ERule RField) f c = COk (VStrs l) f (cmove c t r).
Proof.
  intros E (l0 & P & ->) Hr. apply pieces_dotted in P as (t1 & s & u & l1 & -> & P & D & ->).
  rewrite cev_field. cbn [cseq]. rewrite <- app_assoc in E.
  rewrite (piece_complete [] c t1 s (u ++ r)); auto.
  - unfe (EStar EDotPiece). rewrite crs_cmove.
    destruct (dots_complete u l1 D (S (length (u ++ r))) [] [] (cmove c t1 (u ++ r)) r) as (vs & Ev & Fv); auto.
    rewrite Ev. cbn [cseq rev app run_action get String.eqb to_any as_str]. cbn. rewrite Fv. cbn. rewrite cmove_cmove. reflexivity.
  - destruct D; [apply Hr|reflexivity].
Qed.

Lemma pieces_hd t l : pieces t l -> exists x u, t = x :: u /\ piece_char x.
Proof. intros H. apply pieces_dotted in H as (t1 & s & u & l1 & -> & P & _). apply piece_hd in P as (x & v & -> & Hx). cbn; eauto. Qed.
Lemma field_hd t l : field t l -> exists x u, t = x :: u /\ piece_char x.
Proof. intros (l0 & P & _). eapply pieces_hd; eauto. Qed.
End V.
