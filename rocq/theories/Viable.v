(** Where the farthest failure of the parser lies: the text before it can be continued to a
    text of the grammar, read as a context-free grammar. *)
From Verif Require Import Bytes Utf8 Utf8Proofs Oracles Ast PegSyntax Grammar Actions Engine EngineBasics Bridge.
From Verif Require GrammarSpec ShapeSpec.
From Coq Require Import ZifyBool ZifyN ZifyNat.

(** ** The context-free language of an expression *)
Definition lower_if (ic : bool) (c : N) : N := if ic then to_lower c else c.

(** Whether an expression that looks at one character only matches [c]. *)
Fixpoint flat (n : nat) (e : expr) : bool :=
  match n with
  | 0%nat => false
  | S n' =>
    match e with
    | ELit [_] _ _ | EClass _ _ _ _ _ | EAny => true
    | ERule r => flat n' (rules r)
    | EChoice es => forallb (flat n') es
    | ENot e1 => flat n' e1
    | _ => false
    end
  end.
Fixpoint flatm (n : nat) (e : expr) (c : N) : bool :=
  match n with
  | 0%nat => false
  | S n' =>
    match e with
    | ELit [w] ic _ => lower_if ic c =? w
    | EClass _ chars ranges ic invd => xorb invd (in_class chars ranges (lower_if ic c))
    | EAny => true
    | ERule r => flatm n' (rules r) c
    | EChoice es => existsb (fun e1 => flatm n' e1 c) es
    | ENot e1 => negb (flatm n' e1 c)
    | _ => false
    end
  end.

(** A sequence that reads one character after a negative look-ahead. *)
Definition not_any (es : list expr) : option expr :=
  match es with [ENot e; EAny] => Some e | _ => None end.
Definition is_value8 (a : act) : bool := match a with AValue8 => true | _ => false end.

(** What could stand in place of the text an action has rejected, and where a closing character is
    missing.  As these words are words of the rule around the action anyway, the language of the
    grammar remains the same (ViableForm). *)
Definition instead (a : act) (w : list N) : Prop :=
  match a with
  | AValue8 | ARegexValue2 | ABoolValue1 | AFloatValue1 | AIntValue1 | AIPValue1 | ATimestamp1 => ShapeSpec.value_form w
  | AValueList2 => ShapeSpec.values_form w
  | AQuotedValue2 => GrammarSpec.quoted w
  | _ => False
  end.
Definition closes (c : code) (w : list N) : Prop := match c with CUntermStr => w = [34] | CUntermRegex => w = [47] end.
Definition throws (l : string) (c : code) : bool :=
  match c with CUntermStr => String.eqb l "errUntermStr" | CUntermRegex => String.eqb l "errUntermRegex" end.

Inductive L : expr -> list N -> Prop :=
| L_action a e w : is_value8 a = false -> L e w -> L (EAction a e) w
| L_seq es w : not_any es = None -> Ls es w -> L (ESeq es) w
| L_notany e c : flatm 10 e c = false -> L (ESeq [ENot e; EAny]) [c]
| L_choice es e w : In e es -> L e w -> L (EChoice es) w
| L_label l e w : L e w -> L (ELabel l e) w
| L_rule r w : L (rules r) w -> L (ERule r) w
| L_lit s ic want w : map (lower_if ic) w = s -> L (ELit s ic want) w
| L_class v chars ranges ic invd c : xorb invd (in_class chars ranges (lower_if ic c)) = true ->
    L (EClass v chars ranges ic invd) [c]
| L_any c : L EAny [c]
| L_not e : L (ENot e) []
| L_star0 e : L (EStar e) []
| L_star e w1 w2 : L e w1 -> L (EStar e) w2 -> L (EStar e) (w1 ++ w2)
| L_plus e w1 w2 : L e w1 -> L (EStar e) w2 -> L (EPlus e) (w1 ++ w2)
| L_opt0 e : L (EOpt e) []
| L_opt e w : L e w -> L (EOpt e) w
| L_recover e r ls w : L e w -> L (ERecover e r ls) w
| L_instead a e w : instead a w -> L (EAction a e) w
| L_throw l c w : throws l c = true -> closes c w -> L (EThrow l) w
with Ls : list expr -> list N -> Prop :=
| Ls_nil : Ls [] []
| Ls_cons e es w1 w2 : L e w1 -> Ls es w2 -> Ls (e :: es) (w1 ++ w2).

(** Some word of an expression (no inverted class, no negative look-ahead before a character
    except for those that admit a letter). *)
Definition cands : list N := [97; 49; 32; 46; 34; 47; 60; 92].
Fixpoint gen (n : nat) (e : expr) : option (list N) :=
  match n with
  | 0%nat => None
  | S n' =>
    match e with
    | EAction a e1 => if is_value8 a then None else gen n' e1
    | ESeq es =>
      match not_any es with
      | Some e1 => match find (fun c => negb (flatm 10 e1 c)) cands with Some c => Some [c] | None => None end
      | None => fold_right (fun e1 r => match gen n' e1, r with Some x, Some y => Some (x ++ y) | _, _ => None end) (Some []) es
      end
    | EChoice es => fold_right (fun e1 r => match gen n' e1 with Some x => Some x | None => r end) None es
    | ELabel _ e1 => gen n' e1
    | ERule r => gen n' (rules r)
    | ELit s ic _ => if forallb (fun c => lower_if ic c =? c) s then Some s else None
    | EClass _ chars ranges ic invd =>
      match find (fun c => xorb invd (in_class chars ranges (lower_if ic c))) (cands ++ chars) with Some c => Some [c] | None => None end
    | EAny => Some [97]
    | ENot _ => Some []
    | EStar _ => Some []
    | EPlus e1 => match gen n' e1 with Some x => Some (x ++ []) | None => None end
    | EOpt _ => Some []
    | ERecover e1 _ _ => gen n' e1
    | EThrow _ | EState _ => None
    end
  end.

Lemma gen_sound n : forall e w, gen n e = Some w -> L e w.
Proof.
  induction n as [|n IH]; intros e w H; [discriminate|].
  destruct e as [a e|l|l|l e|r|s ic want|v chars ranges ic invd| |e|e|e|e|e rc ls|l|cd]; cbn [gen] in H.
  - destruct (is_value8 a) eqn:E; [discriminate|]. constructor; auto.
  - destruct (not_any l) as [e1|] eqn:E.
    + destruct (find _ cands) as [c|] eqn:F; [|discriminate]. injection H as <-.
      apply find_some in F as [_ F]. apply negb_true_iff in F.
      destruct l as [|[] [|[] [|]]]; try discriminate. injection E as ->. now constructor.
    + constructor; auto. clear E. revert w H. induction l as [|e l IHl]; intros w H; cbn in H.
      * injection H as <-. constructor.
      * destruct (gen n e) eqn:E1; [|discriminate]. destruct (fold_right _ _ l) eqn:E2; [|discriminate].
        injection H as <-. constructor; auto.
  - induction l as [|e l IHl]; cbn in H; [discriminate|].
    destruct (gen n e) eqn:E1.
    + injection H as <-. apply L_choice with e; [now left|auto].
    + specialize (IHl H). inversion IHl; subst. eapply L_choice; [right; eassumption|assumption].
  - constructor. auto.
  - constructor. auto.
  - destruct (forallb _ s) eqn:E; [|discriminate]. injection H as <-. constructor.
    induction s as [|c s IHs]; [reflexivity|]. cbn in E |- *. apply andb_true_iff in E as [E1 E2].
    apply N.eqb_eq in E1. rewrite E1, IHs; auto.
  - destruct (find _ _) as [c|] eqn:F; [|discriminate]. injection H as <-. apply find_some in F as [_ F]. now constructor.
  - injection H as <-. constructor.
  - injection H as <-. constructor.
  - injection H as <-. constructor.
  - destruct (gen n e) eqn:E; [|discriminate]. injection H as <-. constructor; auto. constructor.
  - injection H as <-. constructor.
  - constructor. auto.
  - discriminate.
  - discriminate.
Qed.

(** The entries that an expression that looks at one character only can add to the list of
    what was expected; under a negative look-ahead they begin with an exclamation mark. *)
Definition signed (inv : bool) (w : string) : string := if inv then String.append "!" w else w.
Lemma prod_eq_dec (p p' : N * N) : {p = p'} + {p <> p'}.
Proof. decide equality; apply N.eq_dec. Defined.
Fixpoint wants (n : nat) (inv : bool) (e : expr) : list string :=
  match n with
  | 0%nat => []
  | S n' =>
    match e with
    | ELit _ _ w | EClass w _ _ _ _ => [signed inv w]
    | EAny => [signed inv "."]
    | ERule r => wants n' inv (rules r)
    | EChoice es => flat_map (wants n' inv) es
    | ENot e1 => wants n' (negb inv) e1
    | _ => []
    end
  end.
(** The literals and classes of the grammar, without those that are used in look-aheads only. *)
Definition atoms : list expr :=
  [ ELit [40] false """("""%string;
    ELit [41] false """)"""%string;
    ELit [58] false """:"""%string;
    ELit [46] false """."""%string;
    EClass "[a-z0-9_-]i"%string [95; 45] [(97, 122); (48, 57)] true false;
    ELit [42] false """*"""%string;
    ELit [44] false ""","""%string;
    EClass "[^ \n\t\r]"%string [32; 10; 9; 13] [] false true;
    ELit [34] false """\"""""%string;
    ELit [92] false """\\"""%string;
    EClass "[""\\bfnrt]"%string [34; 92; 98; 102; 110; 114; 116] [] false false;
    ELit [117] false """u"""%string;
    EClass "[0-9a-f]i"%string [] [(48, 57); (97, 102)] true false;
    ELit [47] false """/"""%string;
    ELit [102; 97; 108; 115; 101] false """false"""%string;
    ELit [116; 114; 117; 101] false """true"""%string;
    ELit [45] false """-"""%string;
    EClass "[0-9]"%string [] [(48, 57)] false false;
    ELit [116] true """T""i"%string;
    ELit [32] false """ """%string;
    ELit [43] false """+"""%string;
    ELit [122] true """Z""i"%string;
    ELit [79; 82] false """OR"""%string;
    ELit [65; 78; 68] false """AND"""%string;
    ELit [78; 79; 84] false """NOT"""%string;
    ELit [33] false """!"""%string;
    ELit [101; 120; 105; 115; 116; 115] false """exists"""%string;
    ELit [110; 117; 108; 108] false """null"""%string;
    ELit [62; 60] false """><"""%string;
    ELit [126] false """~"""%string;
    EClass "[<>]"%string [60; 62] [] false false;
    ELit [61] false """="""%string;
    EClass "[ \n\t\r]"%string [32; 10; 9; 13] [] false false ].
Definition same_atom (x y : expr) : bool :=
  match x, y with
  | ELit s ic w, ELit s' ic' w' => (if list_eq_dec N.eq_dec s s' then true else false) && Bool.eqb ic ic' && String.eqb w w'
  | EClass v c r ic n, EClass v' c' r' ic' n' =>
    String.eqb v v' && (if list_eq_dec N.eq_dec c c' then true else false) &&
    (if list_eq_dec (fun p p' : N * N => prod_eq_dec p p') r r' then true else false) && Bool.eqb ic ic' && Bool.eqb n n'
  | _, _ => false
  end.
Definition is_atom (e : expr) : bool := existsb (same_atom e) atoms.
Lemma is_atom_in e : is_atom e = true -> In e atoms.
Proof.
  unfold is_atom. rewrite existsb_exists. intros (y & Hy & E). replace e with y; [exact Hy|]. clear Hy.
  destruct e, y; try discriminate E; cbn [same_atom] in E; rewrite ?andb_true_iff in E.
  - destruct E as ((E1 & E2) & E3). apply Bool.eqb_prop in E2. apply String.eqb_eq in E3. destruct (list_eq_dec _ _ _); congruence.
  - destruct E as ((((E1 & E2) & E3) & E4) & E5). apply Bool.eqb_prop in E4, E5. apply String.eqb_eq in E1.
    destruct (list_eq_dec _ chars _); [|discriminate]. destruct (list_eq_dec _ ranges _); congruence.
Qed.
Definition fallback : string := "[^ \n\t\r]".
Definition negative (w : string) : bool :=
  match w with String c w' => (Ascii.eqb c "!") && negb (String.eqb w' ".") | EmptyString => false end.
Definition aside (w : string) : bool := String.eqb w "." || negative w.

(** Side conditions on the grammar: every part of a sequence has a word, negative look-aheads
    look at one character, the fall-back value is a run of characters of one class, and
    recoveries only record an error. *)
Definition has_word (e : expr) : bool := match gen 60 e with Some w => forallb is_scalar w | None => false end.
Fixpoint ok (e : expr) : bool :=
  match e with
  | EAction a e1 => if is_value8 a then match e1 with EPlus (EClass v _ _ _ _) => String.eqb v fallback | _ => false end else ok e1
  | ESeq es => match not_any es with Some e1 => flat 10 e1 && forallb aside (wants 10 true e1) && has_word (ESeq es) | None => forallb ok es && forallb has_word es end
  | EChoice es => forallb ok es
  | ELabel _ e1 => ok e1
  | ERule (RStart | REOF | REOL | REscapedChar | RValueChars | RErrUntermStr | RErrUntermRegex) => false
  | ERule _ => true
  | ELit _ _ _ | EClass _ _ _ _ _ => is_atom e
  | EAny => false
  | ENot e1 => false
  | EStar e1 | EPlus e1 | EOpt e1 => ok e1
  | ERecover e1 (ERule r) ls => ok e1 && match rules r with EState c => forallb (fun l => throws l c) ls | _ => false end
  | ERecover _ _ _ => false
  | EThrow _ => true
  | EState _ => false
  end.
Lemma ok_rules r : ok (ERule r) = true -> ok (rules r) = true.
Proof. destruct r; try discriminate; intros _; vm_compute; reflexivity. Qed.

Global Strategy 1000 [gen].
Lemma word_of e : has_word e = true -> exists w, scalars w /\ L e w.
Proof.
  unfold has_word. destruct (gen 60 e) as [w|] eqn:E; [|discriminate]. intros H. exists w.
  split; [|eapply gen_sound; eauto]. apply Forall_forall. apply forallb_forall. exact H.
Qed.
Lemma words_of es : forallb has_word es = true -> exists w, scalars w /\ Ls es w.
Proof.
  rewrite forallb_forall. induction es as [|e es IH]; intros H.
  - exists []. split; constructor.
  - pose proof (H e (or_introl eq_refl)) as H1. assert (H2 : forall x, In x es -> has_word x = true) by (intros; apply H; now right). destruct (word_of e H1) as (w1 & S1 & L1). destruct (IH H2) as (w2 & S2 & L2).
    exists (w1 ++ w2). split; [apply Forall_app; auto|constructor; auto].
Qed.

(** The errors recorded while parsing do not say that nothing matched. *)
Lemma action_kind O a f p t v k : run_action O a f p t = AErr v k -> forall l, k <> KNoMatch l.
Proof.
  destruct a; cbn; unfold bind_node; repeat match goal with |- context [match ?x with _ => _ end] => destruct x end; try congruence;
    intros [= <- <-]; discriminate.
Qed.
(** What the errors say could stand in the place they are reported at. *)
Definition place (k : err_kind) (w : list N) : Prop :=
  match k with
  | KUnknownValue _ | KCloseParen | KBadRegex _ _ | KBadBool _ | KBadFloat _ _ | KBadInt _ | KBadNet _ _ | KBadTime _ _ => ShapeSpec.value_form w
  | KParenSingle => ShapeSpec.values_form w
  | KBadString _ => GrammarSpec.quoted w
  | KUntermStr => w = [34]
  | KUntermRegex => w = [47]
  | _ => False
  end.
Lemma action_place O a f p t v k w : run_action O a f p t = AErr v k -> place k w -> instead a w.
Proof.
  destruct a; cbn; unfold bind_node; repeat match goal with |- context [match ?x with _ => _ end] => destruct x end; try congruence;
    intros [= <- <-]; cbn; auto.
Qed.
Lemma code_kind c l : run_code c <> KNoMatch l.
Proof. destruct c; discriminate. Qed.

Section V.
Context (O : oracles) (q : bytes).
(** [V P]: the text [P] can be continued. *)
Variable V : list N -> Prop.
Hypothesis Vpre : forall P w, scalars w -> V (P ++ w) -> V P.
(** [Cp P]: the text [P] is complete. *)
Variable Cp : list N -> Prop.

(** What the entries of the list of what was expected stand for: words of a literal or of a
    class with which the text can be continued, the end of the text, or, for the last two, nothing
    in particular. *)
Inductive sugg (P : list N) : string -> Prop :=
| sg_lit s ic want : In (ELit s ic want) atoms -> (forall w, scalars w -> L (ELit s ic want) w -> V (P ++ w)) -> sugg P want
| sg_class want chars ranges ic invd : In (EClass want chars ranges ic invd) atoms -> (forall w, scalars w -> L (EClass want chars ranges ic invd) w -> V (P ++ w)) -> sugg P want
| sg_any c : is_scalar c = true -> V (P ++ [c]) -> sugg P "."
| sg_end : Cp P -> sugg P "!."
| sg_fallback : sugg P fallback
| sg_not w : negative w = true -> sugg P w.

(** The parser stands after the text [P], no error has been recorded. *)
Definition here (P : list N) (s : state) : Prop :=
  errs s = [] /\ off (at_ (pt s)) = Z.of_nat (length (encode P)) /\ q = encode P ++ rest (pt s) /\
  scalars P /\ decode_rune (rest (pt s)) <> (rune_error, 1%nat).
Definition nextc (P : list N) (x : N) : Prop := is_scalar x = true /\ exists r, q = encode P ++ encode_rune x ++ r.
(** The farthest failure recorded so far lies behind a text that can be continued. *)
Definition okpos (k : err_kind) (p : position) : Prop :=
  exists before after, q = encode before ++ after /\ scalars before /\
    off p = Z.of_nat (length (encode before)) /\ V before /\ forall w, scalars w -> place k w -> V (before ++ w).
Definition mfok (s : state) : Prop :=
  exists before after, q = encode before ++ after /\ scalars before /\
    off (mf_pos s) = Z.of_nat (length (encode before)) /\ V before /\ Forall (sugg before) (mf_exp s).
Definition mf (s : state) : position * list string := (mf_pos s, mf_exp s).
(** Errors have been recorded, and the first one is about the encoding or lies behind a text
    that can be continued. *)
Definition bad (s : state) : Prop :=
  exists e l, errs s = l ++ [e] /\ (pe_kind e = KInvalidEncoding \/ okpos (pe_kind e) (pe_pos e)) /\ forall l, pe_kind e <> KNoMatch l.
Definition badr (r : res) : Prop :=
  match r with RVal _ _ s | RFail s | RPanic s => bad s | RFuel => False end.
Lemma bad_eq s s' : errs s' = errs s -> bad s -> bad s'.
Proof. unfold bad. now intros ->. Qed.
Lemma bad_add s k p : bad s -> bad (add_err s k p).
Proof. intros (e & l & E & H). exists e, ({| pe_kind := k; pe_pos := p |} :: l). cbn [add_err errs]. rewrite E. auto. Qed.
Lemma bad_new s k p : errs s = [] -> (forall l, k <> KNoMatch l) -> k = KInvalidEncoding \/ okpos k p -> bad (add_err s k p).
Proof. intros E Nk H. exists {| pe_kind := k; pe_pos := p |}, []. cbn [add_err errs]. rewrite E. auto. Qed.
Lemma bad_read s : bad s -> bad (read s).
Proof. intros H. unfold read, read_at. destruct (_ && _); [apply bad_add|]; exact H. Qed.
Lemma bad_step p0 s s' : step p0 s s' -> bad s -> bad s'.
Proof.
  destruct 1; intros B; auto.
  - now apply bad_read.
  - eapply bad_eq; [apply errs_fail|exact B].
  - now apply bad_add.
Qed.
Lemma bad_steps p0 s s' : steps p0 s s' -> bad s -> bad s'.
Proof. induction 1; auto. intros. eapply bad_step; eauto. Qed.
Lemma good_bad p0 nl s r : good p0 nl s r -> bad s -> badr r \/ r = RFuel.
Proof. destruct r; cbn; intros G H; auto; left; eapply bad_steps; try exact H; apply G. Qed.
Lemma bad_fail s inv fl p w : bad s -> bad (fail_at inv fl p w s).
Proof. apply bad_eq. apply errs_fail. Qed.

Lemma nextc_fun P x y : nextc P x -> nextc P y -> x = y.
Proof.
  intros (Hx & r & E) (Hy & r' & E'). rewrite E in E'. apply app_inv_head in E'.
  assert (D : decode_rune (encode_rune x ++ r) = decode_rune (encode_rune y ++ r')) by now rewrite E'.
  rewrite !decode_encode_rune in D by assumption. congruence.
Qed.

Lemma here_cases P s : here P s ->
  (at_eof (pt s) = true /\ forall x, ~ nextc P x) \/
  (at_eof (pt s) = false /\ exists x, nextc P x /\ cur_rune (pt s) = x /\ rest (pt s) <> [] /\
    (bad (read s) \/ (here (P ++ [x]) (read s) /\ mf (read s) = mf s))).
Proof.
  intros (H1 & H2 & H3 & H4 & H5).
  destruct (at_eof (pt s)) eqn:E.
  - left. split; [reflexivity|]. intros x (Hx & r & Eq). apply eof_rest in E. rewrite E, app_nil_r in H3.
    rewrite H3 in Eq. rewrite <- (app_nil_r (encode P)) in Eq at 1. apply app_inv_head in Eq.
    pose proof (encode_rune_len x) as Len. apply (f_equal (@length N)) in Eq. rewrite app_length in Eq. cbn in Eq. lia.
  - right. split; [reflexivity|]. pose proof (noeof_rest _ E) as Hne.
    destruct (decode_rune (rest (pt s))) as [x w] eqn:D.
    destruct (decode_rune_ok _ _ _ D H5 Hne) as (Hx & Hr & Hw).
    exists x. split; [split; [exact Hx|exists (skipn w (rest (pt s))); now rewrite <- Hr]|].
    split; [unfold cur_rune; now rewrite D|]. split; [exact Hne|].
    assert (Hcw : cur_width (pt s) = w) by (unfold cur_width; now rewrite D).
    unfold read, read_at. destruct ((cur_rune (next_point (pt s)) =? rune_error) && Nat.eqb (cur_width (next_point (pt s))) 1) eqn:B.
    + left. apply bad_new; auto. discriminate.
    + right. split; [|reflexivity]. unfold here. cbn [errs pt set_pt]. rewrite next_point_off, next_point_rest, Hcw.
      split; [exact H1|]. split; [rewrite H2, encode_app, app_length; cbn [encode map concat]; rewrite app_nil_r, Hw; lia|].
      split; [rewrite encode_app, <- app_assoc; cbn [encode map concat]; rewrite app_nil_r; rewrite <- Hr; exact H3|].
      split; [apply Forall_app; split; [exact H4|repeat constructor; exact Hx]|].
      intros C. unfold cur_rune, cur_width in B. rewrite next_point_rest, Hcw, C in B. discriminate.
Qed.

Lemma fail_mfok P s0 inv fl w s : here P s0 -> V P -> (fl = inv -> sugg P (signed inv w)) -> mfok s -> mfok (fail_at inv fl (at_ (pt s0)) w s).
Proof.
  intros (_ & H2 & H3 & H4 & _) HV HS M. unfold fail_at. destruct (Bool.eqb fl inv) eqn:Ef; [|exact M]. cbn [negb].
  apply Bool.eqb_prop in Ef. specialize (HS Ef). clear Ef. fold (signed inv w).
  destruct (Z.ltb_spec (off (at_ (pt s0))) (off (mf_pos s))); [exact M|].
  destruct (Z.ltb_spec (off (mf_pos s)) (off (at_ (pt s0)))).
  - exists P, (rest (pt s0)). cbn [mf_pos mf_exp]. auto 8.
  - destruct M as (bf & af & M1 & M2 & M3 & M4 & M5). exists bf, af. cbn [mf_pos mf_exp]. do 4 (split; [assumption|]).
    apply Forall_app. split; [exact M5|]. constructor; [|constructor].
    assert (bf = P); [|now subst].
    apply encode_inj; auto. rewrite H3 in M1. apply (f_equal (firstn (length (encode P)))) in M1.
    assert (El : length (encode P) = length (encode bf)) by lia.
    rewrite firstn_app, firstn_all, Nat.sub_diag, firstn_O, app_nil_r in M1. rewrite El, firstn_app, firstn_all, Nat.sub_diag, firstn_O, app_nil_r in M1. auto.
Qed.
Lemma here_fail P s p inv fl w : here P s -> here P (fail_at inv fl p w s).
Proof. unfold here. now rewrite errs_fail, pt_fail. Qed.
Lemma here_back P s s' : here P s -> errs s' = [] -> pt s' = pt s -> here P s'.
Proof. unfold here. intros (_ & H) E ->. auto. Qed.
Lemma mfok_eq s s' : mf s' = mf s -> mfok s -> mfok s'.
Proof. unfold mfok, mf. intros E. injection E as -> ->. auto. Qed.

Lemma lit_here ic w : forallb (fun c => negb (c =? rune_error)) w = true -> forall P s, here P s ->
  match lit_loop ic w s with
  | (Some s', _) => bad s' \/ (mf s' = mf s /\ exists u, scalars u /\ map (lower_if ic) u = w /\ here (P ++ u) s')
  | (None, s') => bad s' \/ (mf s' = mf s /\ errs s' = [] /\
       forall x, nextc P x -> match w with [c] => lower_if ic x <> c | _ => True end)
  end.
Proof.
  induction w as [|c w IH]; intros Hw P s H; cbn [lit_loop].
  - right. split; [reflexivity|]. exists []. rewrite app_nil_r. repeat split; auto. constructor. all: apply H.
  - cbn in Hw. apply andb_true_iff in Hw as [Hc Hw]. fold (lower_if ic (cur_rune (pt s))).
    destruct (here_cases P s H) as [(E & Nx)|(E & x & Nx & Ex & Hne & R)].
    + apply eof_rest in E. unfold cur_rune at 1. rewrite E. cbn [decode_rune fst].
      replace (lower_if ic rune_error) with rune_error by (destruct ic; reflexivity).
      rewrite N.eqb_sym. apply negb_true_iff in Hc. rewrite Hc. right. split; [reflexivity|]. split; [apply H|].
      intros x Hx. destruct (Nx x Hx).
    + rewrite Ex. destruct (N.eqb_spec (lower_if ic x) c) as [Ec|Ec].
      * destruct R as [D|(R & Mf)].
        -- pose proof (lit_loop_good (pt (read s)) ic w Hw (read s)) as G.
           destruct (lit_loop ic w (read s)) as [[s'|] s'']; left.
           ++ destruct G as (_ & G & _). eapply bad_steps; eauto.
           ++ destruct G as (_ & G). eapply bad_steps; eauto.
        -- specialize (IH Hw _ _ R). destruct (lit_loop ic w (read s)) as [[s'|] s''] eqn:El.
           ++ destruct IH as [IH|(M & u & Su & Mu & Hu)]; [now left|right]. split; [congruence|].
              exists (x :: u). split; [constructor; [apply Nx|auto]|]. split; [cbn; congruence|].
              rewrite <- app_assoc in Hu. exact Hu.
           ++ destruct w; [discriminate El|].
              destruct IH as [IH|(M & E2 & _)]; [now left|right]. split; [congruence|]. split; auto.
      * right. split; [reflexivity|]. split; [apply H|]. intros y Hy. destruct w; [|trivial].
        rewrite (nextc_fun _ _ _ Hy Nx). exact Ec.
Qed.

Definition vout (e : expr) (P : list N) (r : res) : Prop :=
  r = RFuel \/ badr r \/
  match r with
  | RVal _ _ s' => mfok s' /\ exists w, scalars w /\ L e w /\ here (P ++ w) s'
  | RFail s' => mfok s' /\ here P s'
  | RPanic s' => errs s' = []
  | RFuel => False
  end.
Definition fout (k : nat) (e : expr) (P : list N) (r : res) : Prop :=
  r = RFuel \/ badr r \/
  match r with
  | RVal _ _ s' => mfok s' /\ errs s' = [] /\ forall x, nextc P x -> flatm k e x = true
  | RFail s' => mfok s' /\ here P s' /\ forall x, nextc P x -> flatm k e x = false
  | RPanic _ => False
  | RFuel => False
  end.

Definition rec_ok (p : list string * expr) : Prop :=
  match snd p with ERule r => match rules r with EState c => forall l, In l (fst p) -> throws l c = true | _ => False end | _ => False end.

Lemma flat_out k : forall n inv recs e f P s, flat k e = true -> wf e = true -> recs_ok recs -> here P s -> V P -> mfok s ->
  (forall w, In w (wants k inv e) -> sugg P w) -> fout k e P (eval O n inv recs e f s).
Proof.
  induction k as [|k IHk]; intros n inv recs e f P s0 Hf Hw Hr H0 HV M0 HS; [discriminate|].
  destruct n as [|n]; [left; reflexivity|].
  cbn [eval]. set (s := tick s0). assert (H : here P s) by exact H0. assert (M : mfok s) by exact M0. clearbody s. clear H0 M0 s0.
  assert (Hg : forall inv p0 e f s, wf e = true -> adv p0 (pt s) -> good p0 (nullable e) s (eval O n inv recs e f s))
    by (intros; apply eval_good; auto).
  destruct e as [a e|l|l|l e|r|w ic want|v chars ranges ic invd| |e|e|e|e|e rc ls|l|cd]; try discriminate Hf; cbn [flat] in Hf; cbn zeta;
    cbn [wf] in Hw; apply andb_true_iff in Hw as [_ Hw].
  - (* choice *)
    unfold fout. cbn [flatm]. cbn [wants] in HS. revert s H M. induction l as [|e l IHl]; intros s H M; cbn [choice_loop].
    + right. right. split; [exact M|]. split; [exact H|]. reflexivity.
    + cbn [forallb] in Hf, Hw. apply andb_true_iff in Hf as [Hf1 Hf2]. apply andb_true_iff in Hw as [Hw1 Hw2].
      assert (HS1 : forall w, In w (wants k inv e) -> sugg P w) by (intros w Hin; apply HS; cbn [flat_map]; apply in_or_app; now left).
      assert (HS2 : forall w, In w (flat_map (wants k inv) l) -> sugg P w) by (intros w Hin; apply HS; cbn [flat_map]; apply in_or_app; now right).
      pose proof (IHk n inv recs e [] P s Hf1 Hw1 Hr H HV M HS1) as B. pose proof (Hg inv (pt s) e [] s Hw1 (adv_refl _)) as G.
      destruct B as [B|[B|B]].
      * rewrite B. left. reflexivity.
      * destruct (eval O n inv recs e [] s) as [v f' s'|s'|s'|]; cbn in B; [| | |contradiction].
        -- right. left. exact B.
        -- pose proof (choice_loop_good (pt s') (eval O n inv recs) (Hg inv (pt s')) l f s' Hw2 (adv_refl _)) as G'.
           apply good_bad in G'; auto. destruct G' as [G'|G']; [right; left; exact G'|left; exact G'].
        -- right. left. exact B.
      * destruct (eval O n inv recs e [] s) as [v f' s'|s'|s'|]; try contradiction.
        -- right. right. destruct B as (B1 & B2 & B3). split; [exact B1|]. split; [exact B2|].
           intros x Hx. cbn [existsb]. now rewrite (B3 x Hx).
        -- destruct B as (B1 & B2 & B3). specialize (IHl Hf2 Hw2 HS2 s' B2 B1).
           destruct IHl as [IHl|[IHl|IHl]]; [left; auto|right; left; auto|right; right].
           destruct (choice_loop _ l f s') as [v f' s2|s2|s2|]; try contradiction.
           ++ destruct IHl as (I1 & I2 & I3). split; [exact I1|]. split; [exact I2|]. intros x Hx. cbn [existsb].
              rewrite (I3 x Hx). apply orb_true_r.
           ++ destruct IHl as (I1 & I2 & I3). split; [exact I1|]. split; [exact I2|]. intros x Hx. cbn [existsb].
              rewrite (I3 x Hx), (B3 x Hx). reflexivity.
  - (* rule *)
    pose proof (IHk n inv recs (rules r) [] P s Hf (wf_rules r) Hr H HV M HS) as B. unfold fout in B |- *. cbn [flatm].
    destruct B as [B|[B|B]]; [left; now rewrite B|right; left|right; right]; destruct (eval O n inv recs (rules r) [] s); auto.
  - (* literal *)
    destruct w as [|c [|]]; try discriminate Hf. assert (HSs : sugg P (signed inv want)) by (apply HS; now left).
    pose proof (lit_here ic [c] Hw P s H) as B. pose proof (lit_loop_good (pt s) ic [c] Hw s) as G.
    destruct (lit_loop ic [c] s) as [[s'|] s''].
    + destruct B as [B|(Mf & u & Su & Mu & Hu)]; [right; left; now apply bad_fail|right; right].
      split; [apply (fail_mfok P); auto; now apply (mfok_eq s)|]. split; [rewrite errs_fail; apply Hu|].
      intros x Hx. cbn [flatm]. destruct u as [|y [|]]; try discriminate Mu. injection Mu as Mu.
      assert (nextc P y) as Hy.
      { inversion Su; subst. split; auto. destruct Hu as (_ & _ & Hq & _). rewrite encode_app in Hq. cbn [encode map concat] in Hq.
        rewrite app_nil_r, <- app_assoc in Hq. eauto. }
      rewrite (nextc_fun _ _ _ Hx Hy), Mu. apply N.eqb_refl.
    + destruct G as (G1 & _). rewrite restore_back by (now rewrite pt_fail).
      destruct B as [B|(Mf & Er & Nx)]; [right; left; now apply bad_fail|right; right].
      split; [apply (mfok_eq (fail_at inv false (at_ (pt s)) want s'')); [reflexivity|]; apply (fail_mfok P s inv false want s''); auto; now apply (mfok_eq s)|].
      split; [apply (here_back P s); auto; cbn [set_pt errs]; now rewrite errs_fail|].
      intros x Hx. cbn [flatm]. apply N.eqb_neq. exact (Nx x Hx).
  - (* class *)
    assert (HSs : sugg P (signed inv v)) by (apply HS; now left).
    destruct (here_cases P s H) as [(E & Nx)|(E & x & Nx & Ex & Hne & R)]; rewrite E.
    + right. right. split; [apply (fail_mfok P); auto|]. split; [now apply here_fail|]. intros x Hx. destruct (Nx x Hx).
    + rewrite Ex. fold (lower_if ic x). destruct (xorb _ _) eqn:B.
      * destruct R as [R|(R & Mf)]; [right; left; now apply bad_fail|right; right].
        split; [apply (fail_mfok P); auto; now apply (mfok_eq s)|]. split; [rewrite errs_fail; apply R|].
        intros y Hy. rewrite (nextc_fun _ _ _ Hy Nx). exact B.
      * right. right. split; [apply (fail_mfok P); auto|]. split; [now apply here_fail|].
        intros y Hy. rewrite (nextc_fun _ _ _ Hy Nx). exact B.
  - (* any *)
    assert (HSs : sugg P (signed inv ".")) by (apply HS; now left).
    destruct (here_cases P s H) as [(E & Nx)|(E & x & Nx & Ex & Hne & R)]; rewrite E.
    + right. right. split; [apply (fail_mfok P); auto|]. split; [now apply here_fail|]. intros x Hx. destruct (Nx x Hx).
    + destruct R as [R|(R & Mf)]; [right; left; now apply bad_fail|right; right].
      split; [apply (fail_mfok P); auto; now apply (mfok_eq s)|]. split; [rewrite errs_fail; apply R|].
      reflexivity.
  - (* not *)
    pose proof (IHk n (negb inv) recs e [] P s Hf Hw Hr H HV M HS) as B. pose proof (Hg (negb inv) (pt s) e [] s Hw (adv_refl _)) as G.
    unfold fout. cbn [flatm].
    destruct B as [B|[B|B]]; [left; now rewrite B| |].
    + destruct (eval O n (negb inv) recs e [] s) as [v f' s'|s'|s'|]; cbn in B; [| | |contradiction]; right; left.
      * destruct G as (G1 & _). rewrite restore_back by auto. exact B.
      * destruct G as (G1 & _). rewrite restore_back by (rewrite G1; apply adv_refl). exact B.
      * exact B.
    + destruct (eval O n (negb inv) recs e [] s) as [v f' s'|s'|s'|]; try contradiction; right; right.
      * destruct G as (G1 & _). rewrite restore_back by auto. destruct B as (B1 & B2 & B3).
        split; [exact B1|]. split; [now apply (here_back P s)|]. intros x Hx. now rewrite (B3 x Hx).
      * destruct G as (G1 & _). rewrite restore_back by (rewrite G1; apply adv_refl). destruct B as (B1 & B2 & B3).
        split; [exact B1|]. split; [apply B2|]. intros x Hx. now rewrite (B3 x Hx).
Qed.

(** Sequences, choices, repetitions *)
Section Loops.
Variable ev : expr -> frame -> state -> res.
Hypothesis Hg : forall p0 e f s, wf e = true -> adv p0 (pt s) -> good p0 (nullable e) s (ev e f s).
Hypothesis Hv : forall e f P s, ok e = true -> wf e = true -> here P s -> V P -> mfok s ->
  (forall w, scalars w -> L e w -> V (P ++ w)) -> vout e P (ev e f s).

Lemma seq_viable start s0 P0 es : start = pt s0 -> here P0 s0 ->
  forall P acc f s, forallb ok es = true -> forallb has_word es = true -> forallb wf es = true ->
  here P s -> V P -> mfok s -> adv start (pt s) -> (forall w, scalars w -> Ls es w -> V (P ++ w)) ->
  seq_loop ev start es acc f s = RFuel \/ badr (seq_loop ev start es acc f s) \/
  match seq_loop ev start es acc f s with
  | RVal _ _ s' => mfok s' /\ exists w, scalars w /\ Ls es w /\ here (P ++ w) s'
  | RFail s' => mfok s' /\ here P0 s'
  | RPanic s' => errs s' = []
  | RFuel => False
  end.
Proof.
  intros Est H0. induction es as [|e es IH]; intros P acc f s Hok Hwd Hw H HV M Ha HL; cbn [seq_loop].
  - right. right. split; [exact M|]. exists []. rewrite app_nil_r. split; [constructor|]. split; [constructor|exact H].
  - cbn [forallb] in Hok, Hw. apply andb_true_iff in Hok as [Ho1 Ho2]. apply andb_true_iff in Hw as [Hw1 Hw2].
    rewrite forallb_forall in Hwd.
    assert (Hwd2 : forallb has_word es = true) by (apply forallb_forall; intros x Hx; apply Hwd; now right).
    destruct (words_of es Hwd2) as (z & Sz & Lz).
    assert (HL1 : forall w, scalars w -> L e w -> V (P ++ w)).
    { intros w Sw Lw. apply (Vpre (P ++ w) z Sz). rewrite <- app_assoc. apply HL; [apply Forall_app; auto|constructor; auto]. }
    pose proof (Hv e f P s Ho1 Hw1 H HV M HL1) as B. pose proof (Hg start e f s Hw1 Ha) as G.
    destruct B as [B|[B|B]]; [left; now rewrite B| |].
    + destruct (ev e f s) as [v f' s'|s'|s'|]; cbn in B; [| | |contradiction].
      * destruct G as (G1 & _ & _).
        pose proof (seq_loop_good start ev (Hg start) start es (v :: acc) f' s' Hw2 (adv_refl _) (adv_trans _ _ _ Ha G1)) as G'.
        destruct (seq_loop ev start es (v :: acc) f' s') as [v2 f2 s2|s2|s2|]; [| | |left; reflexivity]; right; left;
          cbn; (eapply bad_steps; [apply G'|auto]).
      * right. left. destruct G as (G1 & _). rewrite restore_back by (now rewrite G1). exact B.
      * right. left. exact B.
    + destruct (ev e f s) as [v f' s'|s'|s'|]; try contradiction.
      * destruct B as (M' & w & Sw & Lw & H'). destruct G as (G1 & _).
        assert (HL2 : forall w2, scalars w2 -> Ls es w2 -> V ((P ++ w) ++ w2)).
        { intros w2 S2 L2. rewrite <- app_assoc. apply HL; [apply Forall_app; auto|constructor; auto]. }
        specialize (IH (P ++ w) (v :: acc) f' s' Ho2 Hwd2 Hw2 H' (HL1 w Sw Lw) M' (adv_trans _ _ _ Ha G1) HL2).
        destruct IH as [IH|[IH|IH]]; [left; auto|right; left; auto|right; right].
        destruct (seq_loop ev start es (v :: acc) f' s') as [v2 f2 s2|s2|s2|]; try contradiction; auto.
        destruct IH as (I1 & w2 & S2 & L2 & I2). split; [exact I1|]. exists (w ++ w2). rewrite app_assoc.
        split; [apply Forall_app; auto|]. split; [constructor; auto|exact I2].
      * right. right. destruct G as (G1 & _). rewrite restore_back by (now rewrite G1). destruct B as (B1 & B2).
        split; [exact B1|]. apply (here_back P0 s0); auto. apply B2.
      * right. right. exact B.
Qed.

Lemma choice_viable es0 es : (forall e, In e es -> In e es0) -> forall P f s, forallb ok es = true -> forallb wf es = true ->
  here P s -> V P -> mfok s -> (forall w, scalars w -> L (EChoice es0) w -> V (P ++ w)) ->
  vout (EChoice es0) P (choice_loop ev es f s).
Proof.
  induction es as [|e es IH]; intros Hin P f s Hok Hw H HV M HL; cbn [choice_loop].
  - right. right. auto.
  - cbn [forallb] in Hok, Hw. apply andb_true_iff in Hok as [Ho1 Ho2]. apply andb_true_iff in Hw as [Hw1 Hw2].
    assert (HL1 : forall w, scalars w -> L e w -> V (P ++ w)).
    { intros w Sw Lw. apply HL; auto. apply L_choice with e; auto. apply Hin. now left. }
    pose proof (Hv e [] P s Ho1 Hw1 H HV M HL1) as B. pose proof (Hg (pt s) e [] s Hw1 (adv_refl _)) as G.
    destruct B as [B|[B|B]]; [left; now rewrite B| |].
    + destruct (ev e [] s) as [v f' s'|s'|s'|]; cbn in B; [| | |contradiction].
      * right. left. exact B.
      * pose proof (choice_loop_good (pt s') ev (Hg (pt s')) es f s' Hw2 (adv_refl _)) as G'.
        apply good_bad in G'; auto. destruct G' as [G'|G']; [right; left; exact G'|left; exact G'].
      * right. left. exact B.
    + destruct (ev e [] s) as [v f' s'|s'|s'|]; try contradiction.
      * right. right. destruct B as (M' & w & Sw & Lw & H'). split; [exact M'|]. exists w. split; [exact Sw|]. split; [|exact H'].
        apply L_choice with e; auto. apply Hin. now left.
      * destruct B as (B1 & B2). apply IH; auto. intros e' He'. apply Hin. now right.
      * right. right. exact B.
Qed.

Lemma star_viable e k : ok e = true -> wf e = true -> forall P acc f s,
  here P s -> V P -> mfok s -> (forall w, scalars w -> L (EStar e) w -> V (P ++ w)) ->
  star_loop ev k e acc f s = RFuel \/ badr (star_loop ev k e acc f s) \/
  match star_loop ev k e acc f s with
  | RVal v _ s' => mfok s' /\ exists w, scalars w /\ L (EStar e) w /\ here (P ++ w) s' /\
      exists l, v = VList (rev acc ++ l) /\ (l <> [] -> exists w1 w2, w = w1 ++ w2 /\ L e w1 /\ L (EStar e) w2) /\
                (l = [] -> w = [])
  | RFail _ => False
  | RPanic s' => errs s' = []
  | RFuel => False
  end.
Proof.
  intros Ho Hw. induction k as [|k IH]; intros P acc f s H HV M HL; cbn [star_loop]; [left; reflexivity|].
  assert (HL1 : forall w, scalars w -> L e w -> V (P ++ w)).
  { intros w Sw Lw. apply HL; auto. rewrite <- (app_nil_r w). apply L_star; auto. constructor. }
  pose proof (Hv e [] P s Ho Hw H HV M HL1) as B.
  destruct B as [B|[B|B]]; [left; now rewrite B| |].
  - destruct (ev e [] s) as [v f' s'|s'|s'|]; cbn in B; [| | |contradiction].
    + pose proof (star_loop_good (pt s') ev (Hg (pt s')) e k Hw (v :: acc) f s' (adv_refl _)) as G'.
      destruct (star_loop ev k e (v :: acc) f s') as [v2 f2 s2|s2|s2|]; [| | |left; reflexivity]; [|contradiction|]; right; left;
        cbn; (eapply bad_steps; [apply G'|auto]).
    + right. left. exact B.
    + right. left. exact B.
  - destruct (ev e [] s) as [v f' s'|s'|s'|]; try contradiction.
    + destruct B as (M' & w & Sw & Lw & H').
      assert (HL2 : forall w2, scalars w2 -> L (EStar e) w2 -> V ((P ++ w) ++ w2)).
      { intros w2 S2 L2. rewrite <- app_assoc. apply HL; [apply Forall_app; auto|constructor; auto]. }
      specialize (IH (P ++ w) (v :: acc) f s' H' (HL1 w Sw Lw) M' HL2).
      destruct IH as [IH|[IH|IH]]; [left; auto|right; left; auto|right; right].
      destruct (star_loop ev k e (v :: acc) f s') as [v2 f2 s2|s2|s2|]; try contradiction; auto.
      destruct IH as (I1 & w2 & S2 & L2 & I2 & l & El & _). split; [exact I1|]. exists (w ++ w2).
      split; [apply Forall_app; auto|]. split; [apply L_star; auto|]. split; [rewrite app_assoc; exact I2|].
      exists (v :: l). cbn [rev] in El. rewrite <- app_assoc in El. split; [exact El|]. split; [eauto|discriminate].
    + right. right. destruct B as (B1 & B2). split; [exact B1|]. exists []. rewrite app_nil_r. split; [constructor|]. split; [constructor|].
      split; [exact B2|]. exists []. rewrite app_nil_r. split; [reflexivity|]. split; [congruence|reflexivity].
    + right. right. exact B.
Qed.
End Loops.

Lemma value8_err f p t v : run_action O AValue8 f p t <> AOk v.
Proof.
  cbn [run_action]. destruct t as [|c t]; [discriminate|].
  destruct c as [|c]; [discriminate|]. repeat (destruct c as [c|c|]; try discriminate).
Qed.

Lemma class_errs n inv recs v chars ranges ic invd f s :
  match eval O n inv recs (EClass v chars ranges ic invd) f s with
  | RVal _ _ s' | RFail s' => exists l, errs s' = l ++ errs s /\ Forall (fun e => pe_kind e = KInvalidEncoding) l
  | RPanic _ => False
  | RFuel => True
  end.
Proof.
  destruct n as [|n]; [exact Logic.I|]. cbn [eval]. destruct (at_eof _).
  - exists []. rewrite errs_fail. auto.
  - destruct (xorb _ _).
    + rewrite errs_fail. unfold read, read_at. destruct (_ && _); cbn [add_err set_pt errs tick].
      * eexists [_]. split; [reflexivity|]. repeat constructor.
      * exists []. auto.
    + exists []. rewrite errs_fail. auto.
Qed.
Lemma star_class_errs n inv recs v chars ranges ic invd k : forall acc f s,
  match star_loop (eval O n inv recs) k (EClass v chars ranges ic invd) acc f s with
  | RVal _ _ s' | RFail s' => exists l, errs s' = l ++ errs s /\ Forall (fun e => pe_kind e = KInvalidEncoding) l
  | RPanic _ => False
  | RFuel => True
  end.
Proof.
  induction k as [|k IH]; intros acc f s; cbn [star_loop]; [exact Logic.I|].
  pose proof (class_errs n inv recs v chars ranges ic invd [] s) as C.
  destruct (eval O n inv recs _ [] s) as [v1 f' s'|s'|s'|]; auto.
  destruct C as (l & E & Fl). specialize (IH (v1 :: acc) f s').
  destruct (star_loop _ k _ (v1 :: acc) f s') as [v2 f2 s2|s2|s2|]; auto; destruct IH as (l2 & E2 & F2); exists (l2 ++ l); rewrite E2, E, app_assoc;
    (split; [reflexivity|apply Forall_app; auto]).
Qed.
Lemma invalid_bad s l : errs s = l -> Forall (fun e => pe_kind e = KInvalidEncoding) l -> l = [] \/ bad s.
Proof.
  intros E H. destruct l as [|e l _] using rev_ind; [now left|right]. exists e, l. split; [exact E|].
  apply Forall_app in H as [_ H]. inversion H as [|? ? Hk _]; subst. split; [now left|congruence].
Qed.

Lemma recs_state P rs recs : V P -> Forall rec_ok recs -> forall n inv l f s, here P s -> (forall w, scalars w -> L (EThrow l) w -> V (P ++ w)) ->
  throw_loop (eval O n inv rs) l recs f s = RFail s \/ badr (throw_loop (eval O n inv rs) l recs f s) \/
  throw_loop (eval O n inv rs) l recs f s = RFuel.
Proof.
  intros HV Hr n inv l f s Hs HL. assert (Hev : forall e f ls, In l ls -> rec_ok (ls, e) ->
    badr (eval O n inv rs e f s) /\ (exists v f' s', eval O n inv rs e f s = RVal v f' s') \/ eval O n inv rs e f s = RFuel).
  { intros e f0 ls Hl He. destruct n as [|n]; [right; reflexivity|]. unfold rec_ok in He. cbn [fst snd] in He.
    destruct e; try contradiction. cbn [eval]. destruct n as [|n]; [right; reflexivity|].
    destruct (rules r) as [| | | | | | | | | | | | | |c] eqn:Er; try contradiction. cbn [eval pop]. left. split; [|eauto].
    apply bad_new; [apply Hs|now apply code_kind|]. right. exists P, (rest (pt s)). destruct Hs as (_ & H2 & H3 & H4 & _).
    do 4 (split; [assumption|]). intros w Sw Hp. apply HL; auto. apply (L_throw l c); auto. destruct c; exact Hp. }
  induction Hr as [|[lbs e] recs He Hr IH]; cbn [throw_loop]; [auto|].
  destruct (existsb _ lbs) eqn:Ex; auto. apply existsb_exists in Ex as (l' & Hl & El). apply String.eqb_eq in El. subst l'.
  destruct (Hev e f lbs Hl He) as [(D & v & f' & s' & E)|E]; rewrite E in *; auto.
Qed.

Theorem viable n : forall recs e f P s, ok e = true -> wf e = true -> recs_ok recs -> Forall rec_ok recs ->
  here P s -> V P -> mfok s -> (forall w, scalars w -> L e w -> V (P ++ w)) ->
  vout e P (eval O n false recs e f s).
Proof.
  induction n as [|n IH]; intros recs e f P s0 Ho Hw Hr Hrr H0 HV M0 HL; [left; reflexivity|].
  cbn [eval]. set (s := tick s0). assert (H : here P s) by exact H0. assert (M : mfok s) by exact M0. clearbody s. clear H0 M0 s0.
  assert (Hg : forall inv p0 e f s, wf e = true -> adv p0 (pt s) -> good p0 (nullable e) s (eval O n inv recs e f s))
    by (intros; apply eval_good; auto).
  assert (Hv : forall e f P s, ok e = true -> wf e = true -> here P s -> V P -> mfok s ->
    (forall w, scalars w -> L e w -> V (P ++ w)) -> vout e P (eval O n false recs e f s)) by (intros; apply IH; auto).
  destruct e as [a e|l|l|l e|r|w ic want|v chars ranges ic invd| |e|e|e|e|e rc ls|l|cd]; cbn zeta;
    cbn [wf] in Hw; apply andb_true_iff in Hw as [_ Hw]; cbn [ok] in Ho.
  - (* action *)
    destruct (is_value8 a) eqn:E8.
    + destruct a; try discriminate. destruct e as [| | | | | | | | | |e| | | |]; try discriminate Ho. destruct e; try discriminate Ho. apply String.eqb_eq in Ho. subst val.
      destruct n as [|n]; [left; reflexivity|]. cbn [eval].
      set (ev := eval O n false recs) in *. cbn [wf] in Hw. apply andb_true_iff in Hw as [_ Hw]. apply andb_true_iff in Hw as [Hw Hn].
      pose proof (flat_out 1 n false recs (EClass fallback chars ranges ignore_case inverted) [] P (tick s) eq_refl Hw Hr H HV M
        ltac:(intros w [<-|[]]; apply sg_fallback)) as B.
      fold ev in B. cbn [star_loop]. set (e := EClass fallback chars ranges ignore_case inverted) in *.
      assert (Hge : forall p0 e f s, wf e = true -> adv p0 (pt s) -> good p0 (nullable e) s (ev e f s))
        by (intros; apply eval_good; auto).
      assert (Hact : forall v2 f2 s2, errs s2 = [] \/ bad s2 ->
        let r := match run_action O AValue8 f2 (at_ (pt s)) (slice (pt s) (pt s2)) with
                 | AOk v => RVal v f2 s2 | AErr v k => RVal v f2 (add_err s2 k (at_ (pt s))) | APanic => RPanic s2 end in
        vout (EAction AValue8 (EPlus e)) P (match RVal v2 f2 s2 with RVal _ _ _ => r | r' => r' end)).
      { intros v2 f2 s2 Hs. cbn zeta. destruct (run_action _ _ _ _ _) eqn:Er; [destruct (value8_err _ _ _ _ Er)| |].
        - right. left. destruct Hs as [Hs|Hs]; [apply bad_new; [exact Hs|now apply (action_kind _ _ _ _ _ _ _ Er)|]|now apply bad_add]. right. exists P, (rest (pt s)).
          destruct H as (_ & H2 & H3 & H4 & _). do 4 (split; [assumption|]). intros w Sw Hp. apply HL; auto. apply L_instead. exact (action_place _ _ _ _ _ _ _ w Er Hp).
        - destruct Hs as [Hs|Hs]; right; [right|left]; exact Hs. }
      destruct B as [B|[B|B]].
      * rewrite B. left. reflexivity.
      * pose proof (class_errs n false recs fallback chars ranges ignore_case inverted [] (tick s)) as Ce. fold e ev in Ce.
        destruct (ev e [] (tick s)) as [v f' s'|s'|s'|] eqn:Ev; cbn [badr] in B; [| |contradiction|contradiction].
        -- pose proof (star_loop_good (pt s') ev (Hge (pt s')) e (length (rest (pt (tick s)))) Hw [v] f s' (adv_refl _)) as G'.
           pose proof (star_class_errs n false recs fallback chars ranges ignore_case inverted (length (rest (pt (tick s)))) [v] f s') as Se.
           fold e ev in Se. destruct (star_loop ev _ e [v] f s') as [v2 f2 s2|s2|s2|]; [|contradiction|contradiction|left; reflexivity].
           destruct G' as (_ & G' & l & -> & _). cbn [rev app]. apply (Hact (VList (v :: l))). right. eapply bad_steps; eauto.
        -- right. left. exact B.
      * destruct (ev e [] (tick s)) as [v f' s'|s'|s'|] eqn:Ev; try contradiction.
        -- pose proof (star_loop_good (pt s') ev (Hge (pt s')) e (length (rest (pt (tick s)))) Hw [v] f s' (adv_refl _)) as G'.
           pose proof (star_class_errs n false recs fallback chars ranges ignore_case inverted (length (rest (pt (tick s)))) [v] f s') as Se.
           fold e ev in Se. destruct (star_loop ev _ e [v] f s') as [v2 f2 s2|s2|s2|]; [|contradiction|contradiction|left; reflexivity].
           destruct G' as (_ & G' & l & -> & _). cbn [rev app]. apply (Hact (VList (v :: l))).
           destruct B as (_ & B & _). destruct Se as (l2 & E2 & F2). rewrite B, app_nil_r in E2.
           destruct (invalid_bad s2 l2 E2 F2) as [->|Bd]; auto.
        -- right. right. split; apply B.
    + pose proof (Hv e f P s Ho Hw H HV M (fun w Sw Lw => HL w Sw (L_action a e w E8 Lw))) as B.
      destruct B as [B|[B|B]]; [left; now rewrite B| |].
      * right. left. destruct (eval O n false recs e f s) as [v f' s'|s'|s'|]; cbn [badr] in B; auto.
        destruct (run_action _ _ _ _ _); cbn [badr]; auto. now apply bad_add.
      * destruct (eval O n false recs e f s) as [v f' s'|s'|s'|]; try contradiction; [|right; right; exact B|right; right; exact B].
        destruct B as (M' & w & Sw & Lw & H'). destruct (run_action _ _ _ _ _) eqn:Er.
        -- right. right. split; [exact M'|]. exists w. split; [exact Sw|]. split; [now constructor|exact H'].
        -- right. left. apply bad_new; [apply H'|now apply (action_kind _ _ _ _ _ _ _ Er)|]. right. exists P, (rest (pt s)). destruct H as (_ & H2 & H3 & H4 & _).
           do 4 (split; [assumption|]). intros w1 Sw1 Hp. apply HL; auto. apply L_instead. exact (action_place _ _ _ _ _ _ _ w1 Er Hp).
        -- right. right. apply H'.
  - (* sequence *)
    destruct (not_any l) as [e1|] eqn:En.
    + destruct l as [|[] [|[] [|]]]; try discriminate En. injection En as ->.
      apply andb_true_iff in Ho as [Ho Hwd]. apply andb_true_iff in Ho as [Ho Has].
      destruct (word_of _ Hwd) as (z & Sz & Lz). inversion Lz as [|? ? Enn| ? c0 Fc| | | | | | | | | | | | | | |]; subst; [discriminate Enn|].
      assert (HSa : sugg P ".") by (apply (sg_any P c0); [now inversion Sz|apply HL; auto]).
      assert (HSs : forall w, In w (wants 10 true e1) -> sugg P w).
      { intros w Hin. rewrite forallb_forall in Has. specialize (Has w Hin). unfold aside in Has. apply orb_true_iff in Has as [Has|Has].
        - apply String.eqb_eq in Has. now subst.
        - now apply sg_not. }
      cbn [seq_loop]. cbn [forallb] in Hw. apply andb_true_iff in Hw as [Hw1 _].
      destruct n as [|n]; [left; reflexivity|]. cbn [eval].
      pose proof (eval_good O (pt s) n true recs e1 [] (tick s)) as G.
      cbn [wf] in Hw1. apply andb_true_iff in Hw1 as [_ Hw1]. specialize (G Hw1 Hr (adv_refl _)).
      pose proof (flat_out 10 n true recs e1 [] P (tick s) Ho Hw1 Hr H HV M HSs) as B. cbn [negb].
      destruct B as [B|[B|B]]; [left; now rewrite B| |].
      * destruct (eval O n true recs e1 [] (tick s)) as [v f' s'|s'|s'|]; cbn in B; [| | |contradiction].
        -- right. left. destruct G as (G1 & _). rewrite (restore_back s' (pt (tick s))) by auto.
           rewrite restore_back by (cbn; apply adv_refl). exact B.
        -- destruct G as (G1 & _). rewrite restore_back by (rewrite G1; apply adv_refl).
           cbn [eval]. set (s2 := tick (set_pt s' (pt (tick s)))). assert (B2 : bad s2) by exact B.
           assert (P2 : pt s2 = pt s) by reflexivity. clearbody s2.
           destruct (at_eof (pt s2)) eqn:E.
           ++ right. left. apply (bad_fail s2 false false (at_ (pt s2)) ".") in B2. unfold restore. destruct (_ =? _)%Z; exact B2.
           ++ right. left. apply bad_fail. now apply bad_read.
        -- right. left. exact B.
      * destruct (eval O n true recs e1 [] (tick s)) as [v f' s'|s'|s'|]; try contradiction.
        -- destruct G as (G1 & _). rewrite (restore_back s' (pt (tick s))) by auto.
           rewrite restore_back by (cbn; apply adv_refl). destruct B as (B1 & B2 & _).
           right. right. split; [exact B1|]. now apply (here_back P s).
        -- destruct B as (B1 & B2 & B3). destruct G as (G1 & _). rewrite restore_back by (rewrite G1; apply adv_refl).
           cbn [eval]. set (s2 := tick (set_pt s' (pt (tick s)))).
           assert (H2 : here P s2) by (apply (here_back P s); auto; apply B2).
           assert (M2 : mfok s2) by exact B1. assert (P2 : pt s2 = pt s) by reflexivity. clearbody s2. 
           destruct (here_cases P s2 H2) as [(E & Nx)|(E & x & Nx & Ex & Hne & R)]; rewrite E.
           ++ right. right. rewrite restore_back by (rewrite pt_fail, P2; apply adv_refl).
              split; [apply (mfok_eq (fail_at false false (at_ (pt s2)) "." s2)); [reflexivity|]; apply (fail_mfok P); auto|].
              apply (here_back P s); auto. cbn [set_pt errs]. rewrite errs_fail. apply H2.
           ++ destruct R as [R|(R & Mf)]; [right; left; now apply bad_fail|right; right].
              split; [apply (fail_mfok P); auto; now apply (mfok_eq s2)|]. exists [x].
              split; [repeat constructor; apply Nx|]. split; [apply L_notany; auto|]. now apply here_fail.
    + apply andb_true_iff in Ho as [Ho Hwd].
      pose proof (seq_viable _ (Hg false) Hv (pt s) s P l eq_refl H P [] f s Ho Hwd Hw H HV M (adv_refl _)
        (fun w Sw Lw => HL w Sw (L_seq l w En Lw))) as B.
      destruct B as [B|[B|B]]; [left; auto|right; left; auto|right; right].
      destruct (seq_loop _ _ _ _ _ _); auto.
      destruct B as (M' & w & Sw & Lw & H'). split; [exact M'|]. exists w. split; [exact Sw|]. split; [now constructor|exact H'].
  - eapply choice_viable; eauto.
  - pose proof (Hv e [] P s Ho Hw H HV M (fun w Sw Lw => HL w Sw (L_label l e w Lw))) as B.
    destruct B as [B|[B|B]]; [left; now rewrite B|right; left|right; right]; destruct (eval O n false recs e [] s); auto.
    destruct B as (M' & w & Sw & Lw & H'). split; [exact M'|]. exists w. split; [exact Sw|]. split; [now constructor|exact H'].
  - pose proof (Hv (rules r) [] P s (ok_rules r Ho) (wf_rules r) H HV M (fun w Sw Lw => HL w Sw (L_rule r w Lw))) as B.
    destruct B as [B|[B|B]]; [left; now rewrite B|right; left|right; right]; destruct (eval O n false recs (rules r) [] s); auto.
    destruct B as (M' & w & Sw & Lw & H'). split; [exact M'|]. exists w. split; [exact Sw|]. split; [now constructor|exact H'].
  - (* literal *)
    assert (HSs : sugg P (signed false want)) by (apply (sg_lit P w ic want); [now apply is_atom_in|exact HL]).
    pose proof (lit_here ic w Hw P s H) as B. pose proof (lit_loop_good (pt s) ic w Hw s) as G.
    destruct (lit_loop ic w s) as [[s'|] s''].
    + destruct B as [B|(Mf & u & Su & Mu & Hu)]; [right; left; now apply bad_fail|right; right].
      split; [apply (fail_mfok P); auto; now apply (mfok_eq s)|]. exists u. split; [exact Su|]. split; [now constructor|].
      now apply here_fail.
    + destruct G as (G1 & _). rewrite restore_back by (now rewrite pt_fail).
      destruct B as [B|(Mf & Er & Nx)]; [right; left; now apply bad_fail|right; right].
      split; [apply (mfok_eq (fail_at false false (at_ (pt s)) want s'')); [reflexivity|]; apply (fail_mfok P s false false want s''); auto; now apply (mfok_eq s)|].
      apply (here_back P s); auto; cbn [set_pt errs]; now rewrite errs_fail.
  - (* class *)
    assert (HSs : sugg P (signed false v)) by (apply (sg_class P v chars ranges ic invd); [now apply is_atom_in|exact HL]).
    destruct (here_cases P s H) as [(E & Nx)|(E & x & Nx & Ex & Hne & R)]; rewrite E.
    + right. right. split; [apply (fail_mfok P); auto|]. now apply here_fail.
    + rewrite Ex. fold (lower_if ic x). destruct (xorb _ _) eqn:B.
      * destruct R as [R|(R & Mf)]; [right; left; now apply bad_fail|right; right].
        split; [apply (fail_mfok P); auto; now apply (mfok_eq s)|]. exists [x].
        split; [repeat constructor; apply Nx|]. split; [now constructor|]. now apply here_fail.
      * right. right. split; [apply (fail_mfok P); auto|]. now apply here_fail.
  - discriminate Ho.
  - discriminate Ho.
  - (* star *)
    apply andb_true_iff in Hw as [Hw _].
    pose proof (star_viable _ (Hg false) Hv e (S (length (rest (pt s)))) Ho Hw P [] f s H HV M HL) as B.
    destruct B as [B|[B|B]]; [left; auto|right; left; auto|right; right].
    destruct (star_loop _ _ _ _ _ _); try contradiction; auto.
    destruct B as (M' & w & Sw & Lw & H' & _). eauto.
  - (* plus *)
    apply andb_true_iff in Hw as [Hw _].
    assert (HL1 : forall w, scalars w -> L (EStar e) w -> V (P ++ w)).
    { intros w Sw Lw. inversion Lw; subst; [now rewrite app_nil_r|]. apply HL; auto. now constructor. }
    pose proof (star_viable _ (Hg false) Hv e (S (length (rest (pt s)))) Ho Hw P [] f s H HV M HL1) as B.
    destruct B as [B|[B|B]]; [left; now rewrite B|right; left|right; right].
    + destruct (star_loop _ _ _ _ _ _) as [v f' s'|s'|s'|]; cbn in B; try contradiction; auto. destruct v; auto. destruct l; auto.
    + destruct (star_loop _ _ _ _ _ _) as [v f' s'|s'|s'|]; try contradiction; auto.
      destruct B as (M' & w & Sw & Lw & H' & l & -> & B1 & B2). cbn [rev app]. destruct l.
      * rewrite (B2 eq_refl), app_nil_r in H'. split; auto.
      * destruct (B1 ltac:(discriminate)) as (w1 & w2 & -> & L1 & L2). split; [exact M'|]. exists (w1 ++ w2).
        split; [exact Sw|]. split; [now constructor|exact H'].
  - pose proof (Hv e [] P s Ho Hw H HV M (fun w Sw Lw => HL w Sw (L_opt e w Lw))) as B.
    destruct B as [B|[B|B]]; [left; now rewrite B|right; left|right; right]; destruct (eval O n false recs e [] s); auto.
    + destruct B as (M' & w & Sw & Lw & H'). split; [exact M'|]. exists w. split; [exact Sw|]. split; [now constructor|exact H'].
    + destruct B as (M' & H'). split; [exact M'|]. exists []. rewrite app_nil_r. split; [constructor|]. split; [constructor|exact H'].
  - (* recover *)
    apply andb_true_iff in Hw as [Hw Hd]. apply andb_true_iff in Hw as [Hw Hrc].
    destruct rc; try discriminate Ho. apply andb_true_iff in Ho as [Ho1 Ho2].
    assert (B : vout e P (eval O n false ((ls, ERule r) :: recs) e f s)).
    { apply IH; auto.
      - constructor; auto. cbn. split; auto. now apply Nat.leb_le.
      - constructor; auto. unfold rec_ok. cbn [fst snd]. destruct (rules r); try discriminate. now apply forallb_forall.
      - intros w Sw Lw. apply HL; auto. now constructor. }
    destruct B as [B|[B|B]]; [left; auto|right; left; auto|right; right].
    destruct (eval O n false ((ls, ERule r) :: recs) e f s); auto.
    destruct B as (M' & w & Sw & Lw & H'). split; [exact M'|]. exists w. split; [exact Sw|]. split; [now constructor|exact H'].
  - (* throw *)
    destruct (recs_state P recs recs HV Hrr n false l f s H HL) as [B|[B|B]].
    + rewrite B. right. right. auto.
    + right. left. exact B.
    + left. exact B.
  - discriminate Ho.
Qed.
End V.
