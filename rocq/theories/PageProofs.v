(** Reading the markup of messages; texts without the two characters that browsers treat specially. *)
From Verif Require Import Bytes Utf8 Utf8Proofs GoStrconv GoFloat GoTime GoNet Oracles Ast PegSyntax Engine Validators Visitors ParseQuery ParserTop QueryMessages Marshal Wasm WasmProofs
  Reasons Texts MarshalProofs GrammarSpec FaultSpec BlameSpec MessageSpec WasmSpec Page PageSpec.
From Verif Require Prop_Grammar Prop_Fault Prop_Blame Prop_Paths CostUpper GrammarFacts.
From Coq Require Import ZifyBool ZifyN ZifyNat.

(** No < and no & *)
Definition plain_char (c : N) : bool := negb ((c =? 60) || (c =? 38)).
Definition clean (s : bytes) : Prop := Forall (fun c => plain_char c = true) s.
Lemma clean_lit s : forallb plain_char s = true -> clean s.
Proof. intros H. apply Forall_forall, forallb_forall. exact H. Qed.
Lemma clean_app x y : clean (x ++ y) <-> clean x /\ clean y.
Proof. apply Forall_app. Qed.
Lemma clean_not s : clean s <-> ~ In 60 s /\ ~ In 38 s.
Proof.
  unfold clean. rewrite Forall_forall. split.
  - intros H. split; intros I0; apply H in I0; discriminate.
  - intros [A B] c I0. unfold plain_char. destruct (N.eqb_spec c 60) as [->|_]; [contradiction|]. destruct (N.eqb_spec c 38) as [->|_]; [contradiction|]. reflexivity.
Qed.
Lemma clean_incl x y : incl x y -> clean y -> clean x.
Proof. unfold clean. rewrite !Forall_forall. auto. Qed.
Lemma clean_inert s : clean s -> inert s.
Proof.
  intros C. apply clean_not in C as [A B]. split; intros x c y ->; exfalso; [apply A|apply B]; apply in_or_app; right; now left.
Qed.
Lemma inert_tail c s : inert (c :: s) -> inert s.
Proof. intros [A B]. split; intros x d y ->; [apply (A (c :: x) d y)|apply (B (c :: x) d y)]; reflexivity. Qed.
(** Inert pieces may be put together if the seam is not one of the characters. *)
Lemma inert_app x y : inert x -> inert y -> follows opens y = false -> follows refers y = false -> inert (x ++ y).
Proof.
  revert y. induction x as [|a x IH]; intros y X Y Fo Fr; [exact Y|].
  specialize (IH y (inert_tail _ _ X) Y Fo Fr). destruct IH as [I1 I2]. destruct X as [X1 X2].
  split; intros [|p u] c v E; cbn [app] in E; injection E as -> E.
  - destruct x as [|d x]; cbn [app] in E; [subst y; exact Fo|injection E as -> _; now apply (X1 [] c x)].
  - now apply (I1 u c v).
  - destruct x as [|d x]; cbn [app] in E; [subst y; exact Fr|injection E as -> _; now apply (X2 [] c x)].
  - now apply (I2 u c v).
Qed.

Lemma tokens_inert s t : inert s -> follows opens t = false -> follows refers t = false ->
  tokens Data (s ++ t) = map Ch s ++ tokens Data t.
Proof.
  intros X Fo Fr. induction s as [|c s IH]; [reflexivity|]. specialize (IH (inert_tail _ _ X)). destruct X as [X1 X2].
  cbn [app tokens map].
  assert (G1 : (c =? 60) && follows opens (s ++ t) = false).
  { destruct (N.eqb_spec c 60) as [->|_]; [|reflexivity]. destruct s as [|d s]; [exact Fo|]. cbn. now apply (X1 [] d s). }
  assert (G2 : (c =? 38) && follows refers (s ++ t) = false).
  { destruct (N.eqb_spec c 38) as [->|_]; [|reflexivity]. destruct s as [|d s]; [exact Fr|]. cbn. now apply (X2 [] d s). }
  rewrite G1, G2. now rewrite IH.
Qed.

(** ** Texts *)
Lemma clean_rune c : plain_char c = true -> clean (encode_rune c).
Proof.
  intros H. apply Forall_forall. intros k I0. unfold plain_char. destruct (N.eqb_spec k 60) as [->|_].
  - apply Prop_Paths.encode_rune_has in I0; [|lia]. now subst.
  - destruct (N.eqb_spec k 38) as [->|_]; [|reflexivity]. apply Prop_Paths.encode_rune_has in I0; [|lia]. now subst.
Qed.
Lemma clean_encode rs : Forall (fun c => plain_char c = true) rs -> clean (encode rs).
Proof. induction 1 as [|c rs H _ IH]; [constructor|]. rewrite encode_cons. apply clean_app. split; [now apply clean_rune|exact IH]. Qed.
Lemma encode_in k rs : k < 128 -> In k rs -> In k (encode rs).
Proof.
  intros K. induction rs as [|c rs IH]; [easy|]. rewrite encode_cons. intros [->|I0]; apply in_or_app; [left|right; auto].
  rewrite encode_rune_ascii by exact K. now left.
Qed.
Lemma clean_points rs : clean (encode rs) -> Forall (fun c => plain_char c = true) rs.
Proof.
  intros C. apply clean_not in C as [A B]. apply Forall_forall. intros c I0. unfold plain_char.
  destruct (N.eqb_spec c 60) as [->|_]; [destruct A; now apply encode_in|]. destruct (N.eqb_spec c 38) as [->|_]; [destruct B; now apply encode_in|]. reflexivity.
Qed.
Lemma clean_hex' d : clean [hex_digit d].
Proof. constructor; [|constructor]. unfold plain_char, hex_digit. destruct (N.ltb_spec d 10); lia. Qed.
Lemma clean_cons c s : plain_char c = true -> clean s -> clean (c :: s).
Proof. now constructor. Qed.
Lemma clean_quote_rune pr c : plain_char c = true -> clean (quote_rune pr c).
Proof.
  intros H. pose proof clean_hex' as X. unfold quote_rune.
  assert (Y : forall d s, clean s -> clean (hex_digit d :: s)) by (intros d s Hs; change (hex_digit d :: s) with ([hex_digit d] ++ s); apply clean_app; auto).
  repeat match goal with |- clean (if ?x then _ else _) => destruct x end;
    repeat (first [apply clean_rune; exact H|apply Y|apply clean_cons; [first [exact H|reflexivity]|]|constructor]).
Qed.
Lemma clean_quote_loop pr n : forall s, clean s -> clean (quote_loop pr n s).
Proof.
  induction n as [|n IH]; intros s C; [constructor|]. destruct s as [|c s]; [constructor|]. cbn [quote_loop].
  destruct (decode_rune (c :: s)) as [r w] eqn:D. apply clean_app. split.
  - destruct ((r =? rune_error) && Nat.eqb w 1).
    + do 2 (apply clean_cons; [reflexivity|]). change [hex_digit (c / 16); hex_digit (c mod 16)] with ([hex_digit (c / 16)] ++ [hex_digit (c mod 16)]). apply clean_app. split; apply clean_hex'.
    + apply clean_quote_rune. unfold plain_char. pose proof (proj1 (clean_not _) C) as [A B].
      destruct (N.eqb_spec r 60) as [->|_].
      * destruct (CostUpper.decode_ascii (c :: s) 60) as (s' & E); [lia|now rewrite D|]. rewrite E in A. destruct A. now left.
      * destruct (N.eqb_spec r 38) as [->|_]; [|reflexivity].
        destruct (CostUpper.decode_ascii (c :: s) 38) as (s' & E); [lia|now rewrite D|]. rewrite E in B. destruct B. now left.
  - apply IH. eapply clean_incl; [|exact C]. intros x I0. rewrite <- (firstn_skipn w (c :: s)). apply in_or_app. now right.
Qed.
Lemma clean_quote pr s : clean s -> clean (quote pr s).
Proof. intros C. unfold quote. apply clean_cons; [reflexivity|]. apply clean_app. split; [now apply clean_quote_loop|now apply clean_lit]. Qed.

Lemma try_clean {A} (e : step A) k : (forall r, e = Stop r -> clean r) -> (forall a, clean (or_empty (k a))) ->
  clean (or_empty (match e with Go a => k a | Stop r => Some r end)).
Proof. intros H K. destruct e; [apply K|now apply H]. Qed.
Lemma need_clean c w r : forallb plain_char (b w) = true -> need c w = Stop r -> clean r.
Proof. unfold need. destruct c; [discriminate|]. intros H [= <-]. apply clean_app. split; now apply clean_lit. Qed.
Lemma or_stop_clean {A} (x : option A) r : or_stop x = Stop r -> clean r.
Proof. destruct x; [discriminate|]. intros [= <-]. constructor. Qed.
Lemma zone_clean s r : zone_reason s = Stop r -> clean r.
Proof.
  unfold zone_reason. destruct s as [|c s]; [intros [= <-]; constructor|].
  assert (G : match (do (h, r) <- num2 s;; do r <- eat 58 r;; do (m, r) <- num2 r;; match r with [] => Some (h, m) | _ => None end) with
     | None => Stop []
     | Some (h, m) => if 60 <? m then Stop (b "time zone offset minute out of range") else if 24 <? h then Stop (b "time zone offset hour out of range")
       else if (c =? 43) || (c =? 45) then Go tt else Stop [] end = Stop r -> clean r).
  { destruct (do (h, r) <- num2 s;; _) as [[h m]|]; [|intros [= <-]; constructor].
    destruct (60 <? m); [intros [= <-]; now apply clean_lit|]. destruct (24 <? h); [intros [= <-]; now apply clean_lit|].
    destruct ((c =? 43) || (c =? 45)); [discriminate|intros [= <-]; constructor]. }
  destruct (N.eq_dec c 90) as [->|Hc].
  - destruct s as [|d s]; [discriminate|exact G].
  - intros E. apply G. revert E. destruct c as [|c]; [auto|]. repeat (destruct c as [c|c|]; try (intros E; exact E)).
    destruct s; [now destruct Hc|intros E; exact E].
Qed.
Ltac cl := repeat first
  [ apply try_clean; [first [intros ?; apply or_stop_clean|intros ?; now apply need_clean|intros ?; apply zone_clean]|intros ?]
  | match goal with |- clean (or_empty (let (_, _) := ?x in _)) => destruct x end
  | match goal with |- clean (or_empty (match ?x with [] => _ | _ => _ end)) => destruct x end
  | apply Forall_nil ].
Lemma day_clean y m d : clean (or_empty (day_reason y m d)).
Proof. unfold day_reason. cl. Qed.
Lemma clean_time s : clean (or_empty (time_reason s)).
Proof.
  unfold time_reason. destruct (Nat.eqb _ _).
  - unfold date_reason. cl; apply day_clean.
  - unfold rfc3339_reason. cl; apply day_clean.
Qed.

Lemma clean_ipv4 O s : forall n v d, clean s -> clean (or_empty (ipv4_reason O s n v d)).
Proof.
  induction s as [|c s IH]; intros n v d C; cbn [ipv4_reason].
  - destruct (Nat.ltb n 3); [now apply clean_lit|constructor].
  - assert (C' : clean s) by now inversion C. assert (Q : clean (quote (o_is_print O) (c :: s))) by now apply clean_quote.
    destruct (is_digit c).
    + destruct (Nat.eqb d 1 && (v =? 0)); [now apply clean_lit|]. cbv zeta. destruct (255 <? _); [now apply clean_lit|now apply IH].
    + destruct (c =? 46).
      * destruct (Nat.eqb d 0 || Nat.eqb (length s) 0); [cbn [or_empty]; rewrite !clean_app; split; [now apply clean_lit|split; [exact Q|now apply clean_lit]]|].
        destruct (Nat.eqb n 3); [now apply clean_lit|now apply IH].
      * cbn [or_empty]. rewrite !clean_app. split; [now apply clean_lit|split; [exact Q|now apply clean_lit]].
Qed.
Lemma split_slash_clean s : forall x y, split_slash s = Some (x, y) -> clean s -> clean x /\ clean y.
Proof.
  induction s as [|c s IH]; intros x y E C; [discriminate|]. cbn [split_slash] in E. inversion C as [|? ? Hc C']; subst.
  destruct (split_slash s) as [[u v]|].
  - injection E as <- <-. destruct (IH u v eq_refl C'). split; [now constructor|assumption].
  - destruct (c =? 47); [|discriminate]. injection E as <- <-. split; [constructor|assumption].
Qed.
Lemma clean_net O s : clean s -> clean (or_empty (net_reason O s)).
Proof.
  intros C. unfold net_reason. destruct (split_slash s) as [[a bs]|] eqn:E; [|now apply clean_lit].
  destruct (split_slash_clean s a bs E C) as [Ca Cb].
  assert (A : clean (or_empty (addr_reason O a))) by (unfold addr_reason; destruct (has_byte 46 a); [now apply clean_ipv4|now apply clean_lit]).
  destruct (addr_reason O a) as [r|]; [exact A|]. cbv zeta.
  assert (B : clean (or_empty (Some (b "bad bits after slash: " ++ quote (o_is_print O) bs)))) by (cbn [or_empty]; apply clean_app; split; [now apply clean_lit|now apply clean_quote]).
  destruct bs as [|c r]; [exact B|]. destruct (_ && _); [exact B|]. destruct (digits_acc 0 (c :: r)); [|exact B].
  destruct (32 <? n); [now apply clean_lit|constructor].
Qed.

(** ** Unquoting a text without a backslash *)
Lemma unquote_char_clean s out s' : unquote_char s = Some (out, s') -> clean s -> ~ In 92 s -> clean out /\ clean s' /\ ~ In 92 s'.
Proof.
  intros E C Nb. destruct s as [|c s]; [discriminate|]. unfold unquote_char in E. destruct (c =? 34); [discriminate|].
  destruct (N.leb_spec 128 c) as [Hc|Hc].
  - destruct (decode_rune (c :: s)) as [r w] eqn:D. injection E as <- <-. assert (Sk : incl (skipn w (c :: s)) (c :: s)).
    { intros x I0. rewrite <- (firstn_skipn w (c :: s)). apply in_or_app. now right. }
    split; [|split; [eapply clean_incl; eassumption|intros I0; apply Nb; now apply Sk]].
    apply clean_rune. unfold plain_char. destruct (N.eqb_spec r 60) as [->|_].
    + destruct (CostUpper.decode_ascii (c :: s) 60) as (s' & E); [lia|now rewrite D|]. injection E as -> _. lia.
    + destruct (N.eqb_spec r 38) as [->|_]; [|reflexivity].
      destruct (CostUpper.decode_ascii (c :: s) 38) as (s' & E); [lia|now rewrite D|]. injection E as -> _. lia.
  - destruct (N.eqb_spec c 92) as [->|_]; [destruct Nb; now left|]. cbn [negb] in E. injection E as <- <-. inversion C; subst.
    split; [now constructor; [|constructor]|]. split; [assumption|]. intros I0. apply Nb. now right.
Qed.
Lemma unquote_loop_clean n : forall s out rem, unquote_loop n s = Some (out, rem) -> clean s -> ~ In 92 s -> clean out.
Proof.
  induction n as [|n IH]; intros s out rem E C Nb; [discriminate|]. cbn [unquote_loop] in E. destruct s as [|c s]; [discriminate|].
  assert (G : match unquote_char (c :: s) with None => None | Some (o, s') => match unquote_loop n s' with None => None | Some (os, r) => Some (o ++ os, r) end end = Some (out, rem) -> clean out).
  { intros E'. destruct (unquote_char (c :: s)) as [[o s']|] eqn:U; [|discriminate]. destruct (unquote_char_clean _ _ _ U C Nb) as (A & B & D).
    destruct (unquote_loop n s') as [[os r]|] eqn:L; [|discriminate]. injection E' as <- _. apply clean_app. split; [exact A|eapply IH; eassumption]. }
  destruct (N.eq_dec c 34) as [->|N1]; [injection E as <- _; constructor|]. destruct (N.eq_dec c 10) as [->|N2]; [discriminate|].
  apply G. revert E N1 N2. destruct c as [|c]; [auto|]. do 6 (try (destruct c as [c|c|]; try (intros E _ _; exact E))); intros E N1 N2; congruence.
Qed.
Lemma unquote_clean s u : unquote s = Some u -> clean s -> ~ In 92 s -> clean u.
Proof.
  unfold unquote. destruct s as [|c s]; [discriminate|]. destruct (N.eq_dec c 34) as [->|Hc].
  - destruct (unquote_loop (length (34 :: s)) s) as [[out [|]]|] eqn:E; try discriminate. intros [= <-] C Nb. eapply unquote_loop_clean; [exact E|now inversion C|]. intros I0. apply Nb. now right.
  - intros E. exfalso. revert E. destruct c as [|c]; [discriminate|]. do 6 (try (destruct c as [c|c|]; try discriminate)); congruence.
Qed.

(** ** The values of a query *)
From Verif Require Import Actions.
Lemma unescape_incl s : incl (unescape_slash s) s.
Proof.
  enough (H : forall n s, (length s <= n)%nat -> incl (unescape_slash s) s) by now apply (H (length s)).
  clear s. induction n as [|n IH]; intros [|c s] L; try (cbn in L; lia); try (intros x []).
  cbn [length] in L. assert (G : incl (c :: unescape_slash s) (c :: s)) by (intros x [->|I0]; [now left|right; apply (IH s); [lia|exact I0]]).
  destruct s as [|d s]; [exact G|]. destruct (N.eq_dec d 47) as [->|Hd].
  - change (unescape_slash (c :: 47 :: s)) with (if c =? 92 then 47 :: unescape_slash s else c :: unescape_slash (47 :: s)).
    destruct (c =? 92); [|exact G]. intros x [->|I0]; [right; now left|]. right. right. apply (IH s); [cbn in L; lia|exact I0].
  - replace (unescape_slash (c :: d :: s)) with (c :: unescape_slash (d :: s)); [exact G|].
    remember (unescape_slash (d :: s)) as u eqn:Eu. cbn [unescape_slash]. cbn [unescape_slash] in Eu. rewrite <- Eu. destruct d as [|d]; [reflexivity|]. do 6 (try (destruct d as [d|d|]; try reflexivity)); congruence.
Qed.
Section V.
Context (O : oracles).
Context (Fl : forall f, clean (o_fmt_float O f)).
Lemma literal_clean t p v : literal O t p v -> clean (encode t) -> ~ In 92 (encode t) -> clean (val_string O v).
Proof.
  intros L C Nb. destruct L as [t s p Q U|t v p R E|t v p R E|t v p R E|t v p R E|t v p R E|p|p]; try now apply clean_lit.
  - cbn [val_string]. apply clean_quote. eapply unquote_clean; eassumption.
  - unfold new_regexp_val in E. destruct (o_re_parse O _); [|discriminate]. injection E as <-. cbn [val_string]. eapply clean_incl; [apply unescape_incl|exact C].
  - unfold new_time_val in E. destruct (Nat.eqb _ _); [destruct (parse_date _)|destruct (parse_rfc3339 _)]; try discriminate; injection E as <-; exact C.
  - unfold new_net_val in E. destruct (parse_prefix _ _); [|discriminate]. injection E as <-. cbn [val_string]. unfold net_text. destruct (has_byte 47 _); [exact C|]. apply clean_app. split; [exact C|now apply clean_lit].
  - unfold new_float_val in E. destruct (parse_float _ _) as [f|]; [|discriminate]. destruct f; try discriminate; injection E as <-; apply Fl.
  - unfold new_int_val in E. destruct (parse_int _); [|discriminate]. injection E as <-. exact C.
Qed.

(** ** Errors *)
Context (T : texts).
Context (Re : forall s, clean s -> clean (t_re_error T s)).
Lemma trim_slash_incl s : incl (trim_slash s) s.
Proof.
  assert (L : forall s, incl (trim_left_slash s) s).
  { clear s. induction s as [|c s IH]; [easy|]. intros x I0. cbn [trim_left_slash] in I0.
    assert (G : In x (c :: s) \/ In x (trim_left_slash s)).
    { destruct c as [|c]; [now left|]. do 6 (try (destruct c as [c|c|]; try (left; exact I0))); right; exact I0. }
    destruct G as [G|G]; [exact G|]. right. now apply IH. }
  intros x I0. unfold trim_slash in I0. apply in_rev, L, in_rev, L in I0. exact I0.
Qed.
Lemma unslashed_in t u : unslashed t u -> forall c, In c u -> c = 47 \/ In c t.
Proof.
  induction 1 as [|t u _ IH|c t u _ _ IH]; intros x I0; [destruct I0| |].
  - destruct I0 as [<-|I0]; [now left|]. destruct (IH x I0); [now left|]. right. right. now right.
  - destruct I0 as [<-|I0]; [right; now left|]. destruct (IH x I0); [now left|]. right. now right.
Qed.
Lemma fault_clean before own rest k p : fault O before own rest k p -> clean (encode own) -> clean (error_text O T k).
Proof.
  intros F C. destruct F as [n Q W|n u R W U|n R W|n u R W U|n R W|R W|x w -> Nx Ws Rs Nv|E|w1 t w2 v E W1 W2 L|body p E Bd Nq Nm Of Ln|body p E Bd Nq Nm Of Ln];
    cbn [error_text]; rewrite ?clean_app; repeat split; try (now apply clean_lit); try exact C.
  - apply clean_encode, Forall_forall. intros c I0. destruct (unslashed_in _ _ U c I0) as [->|I1]; [reflexivity|].
    apply clean_points in C. rewrite Forall_forall in C. auto.
  - apply Re. eapply clean_incl; [apply trim_slash_incl|]. apply clean_encode, Forall_forall. intros c I0. destruct (unslashed_in _ _ U c I0) as [->|I1]; [reflexivity|].
    apply clean_points in C. rewrite Forall_forall in C. auto.
  - destruct U as [[_ ->]|[_ ->]]; [exact C|]. rewrite encode_app. apply clean_app. split; [exact C|now apply clean_lit].
  - apply clean_net. destruct U as [[_ ->]|[_ ->]]; [exact C|]. rewrite encode_app. apply clean_app. split; [exact C|now apply clean_lit].
  - apply clean_time.
  - now apply clean_quote.
Qed.
Definition inert_b (s : bytes) : bool :=
  forallb (fun n => match skipn n s with c :: d :: _ => negb ((c =? 60) && opens d) && negb ((c =? 38) && refers d) | _ => true end) (seq 0 (length s)).
Lemma inert_lit s : inert_b s = true -> inert s.
Proof.
  intros H. unfold inert_b in H. rewrite forallb_forall in H. split; intros x c y ->; specialize (H (length x)); rewrite in_seq, app_length in H; cbn [length] in H;
      rewrite skipn_app, skipn_all, Nat.sub_diag in H; cbn in H; assert (H' := H ltac:(lia)); destruct (opens c); destruct (refers c); try reflexivity; discriminate.
Qed.
Lemma op_text_inert o : inert (b "[" ++ op_text o ++ b "] operation ").
Proof. apply inert_lit. destruct o; vm_compute; reflexivity. Qed.
Lemma json_int_clean z : clean (json_int z).
Proof.
  apply Forall_forall. intros c I0. apply json_int_chars in I0. unfold plain_char. lia.
Qed.
(** Values named by an operator check are clean. *)
Definition verr_value (k : verr) : bytes := match k with VeDuplicate sv _ _ | VeConflictBool sv _ _ => sv | _ => [] end.
Lemma verr_inert k : clean (verr_value k) -> inert (verr_text k).
Proof.
  intros C.
  assert (Q : forall o s, clean s -> inert (b "[" ++ op_text o ++ b "] operation " ++ s)).
  { intros o s Cs. change (b "] operation ") with (b "] operation" ++ b " "). rewrite <- app_assoc. rewrite 2!app_assoc. apply inert_app; [|apply clean_inert, clean_app; split; [now apply clean_lit|exact Cs]|reflexivity|reflexivity].
    pose proof (op_text_inert o) as [A B]. split; intros x c y E; [apply (A x c (y ++ b " "))|apply (B x c (y ++ b " "))]; rewrite !app_assoc; change (b "] operation ") with (b "] operation" ++ b " "); rewrite !app_assoc, E, <- app_assoc; reflexivity. }
  destruct k; cbn [verr_text]; rewrite <- ?app_assoc; try (apply Q; rewrite ?clean_app; repeat split; first [now apply clean_lit|apply json_int_clean]).
  - apply clean_inert. rewrite !clean_app. repeat split; first [now apply clean_lit|apply json_int_clean|exact C].
  - apply clean_inert. rewrite !clean_app. repeat split; first [now apply clean_lit|apply json_int_clean|exact C].
  - apply clean_inert. now apply clean_lit.
  - apply inert_lit. vm_compute. reflexivity.
Qed.

(** ** What the page receives *)
Lemma refused_web q : (forall t, parse_plain O q <> QOk t) ->
  (exists e, parse_plain O q = QErr (QSyntax e) /\ p_wrap O q = WebRes [] [err_convert (QSyntax e) q]) \/
  (exists k p, parse_plain O q = QErr (QInvalid k p) /\ p_wrap O q = WebRes [] [err_convert (QInvalid k p) q]).
Proof.
  intros R. pose proof (rejected O q R) as W. unfold parse_plain, parse_query in *. destruct W as [(e & es & P & W)|(k & p & _ & W)].
  - left. exists e. split; [now rewrite P|exact W].
  - right. unfold p_wrap, parse_query in W. destruct (parse O q) as [v|e es|] eqn:P.
    + destruct v; try discriminate W. destruct (walk_validator O n) as [|k' p'|] eqn:V; try discriminate W.
      * exfalso. apply (R n). reflexivity.
      * exists k', p'. split; [reflexivity|]. unfold p_wrap, parse_query. rewrite P, V. reflexivity.
    + cbn in W. injection W as W. destruct e as [ek ep]. destruct ek; discriminate W.
    + discriminate W.
Qed.
Lemma sub_clean x y z : clean (encode (x ++ y ++ z)) -> clean (encode y).
Proof. rewrite !encode_app, !clean_app. tauto. Qed.
Lemma error_inert q m ms : (forall t, parse_plain O q <> QOk t) -> p_wrap O q = WebRes [] ms -> In m ms ->
  clean q -> ~ In 92 q -> inert (pg_msg (page_of O T m)).
Proof.
  intros R W I0 C Nb. destruct (refused_web q R) as [(e & P & W')|(k & p & P & W')]; rewrite W' in W; match type of W with WebRes _ ?x = _ => assert (Em : ms = x) by congruence end; rewrite Em in I0; destruct I0 as [<-|[]]; clear W Em.
  - destruct (err_convert_cases e q) as [(l & Ek & _ & _ & Et)|(Nk & _ & _ & Et)]; unfold page_of, pg_msg; rewrite Et; [apply inert_lit; vm_compute; reflexivity|].
    cbn [qerr_text]. destruct (Prop_Fault.C109_error O q e P) as [(l & E)|[(bf & af & _ & _ & _ & E & _)|(bf & own & rest & af & -> & Sc & _ & No & F)]].
    + now destruct (Nk l).
    + rewrite E. apply inert_lit. vm_compute. reflexivity.
    + apply clean_inert. eapply fault_clean; [exact F|]. apply clean_app in C as [C _]. eapply sub_clean. exact C.
  - cbn [page_of pg_msg err_convert w_text qerr_text]. apply verr_inert.
    apply Prop_Blame.C104_blame in P as (text & t & l1 & [[o vs] p0] & l2 & Hs & -> & (w1 & a & w2 & -> & W1 & W2 & D) & El & _ & B).
    assert (Hi : In (o, vs, p0) (comparisons t)) by (rewrite El; apply in_app_iff; right; now left).
    destruct (Prop_Blame.comparisons_subnode _ _ _ _ Hi) as (f & S).
    destruct (GrammarFacts.derives_expr O _ _ _ _ _ _ _ _ D S) as (a' & own & z & E & Ep & K).
    assert (V : forall v, In v vs -> clean (val_string O v)).
    { intros v Hv. destruct (GrammarFacts.comparison_value_in O _ _ _ _ _ _ K Hv) as (a1 & k1 & z1 & E1 & L).
      assert (Et : w1 ++ a ++ w2 = a1 ++ k1 ++ (z1 ++ z ++ w2)) by (rewrite (app_assoc w1), E, <- !app_assoc, (app_assoc a'), E1; now rewrite <- !app_assoc).
      rewrite Et in C, Nb. apply (literal_clean _ _ _ L); [eapply sub_clean; exact C|]. intros I1. apply Nb. rewrite !encode_app. apply in_or_app. right. apply in_or_app. now left. }
    inversion B; subst; cbn [verr_value]; try apply Forall_nil; apply V; apply in_or_app; right; now left.
Qed.

(** ** Hints *)
Lemma piece_clean t s : piece t s -> clean (encode t) -> ~ In 92 (encode t) -> clean s.
Proof. intros [t' s' Q U|t' Nm Ne|] C Nb; [eapply unquote_clean; eassumption|exact C|now apply clean_lit]. Qed.
Lemma pieces_clean t l : pieces t l -> clean (encode t) -> ~ In 92 (encode t) -> Forall clean l.
Proof.
  induction 1 as [t s P|t s u l P _ IH]; intros C Nb.
  - constructor; [eapply piece_clean; eassumption|constructor].
  - rewrite !encode_app, !clean_app in C. destruct C as (C1 & _ & C2). rewrite !encode_app in Nb.
    constructor; [eapply piece_clean; [exact P|exact C1|intros I0; apply Nb; apply in_or_app; now left]|].
    apply IH; [exact C2|]. intros I0. apply Nb. apply in_or_app. right. apply in_or_app. now right.
Qed.
Lemma join_clean l : Forall clean l -> clean (join (b ".") l).
Proof.
  induction 1 as [|x l Hx Hl IH]; [constructor|]. destruct l as [|y l]; [exact Hx|]. change (join (b ".") (x :: y :: l)) with (x ++ b "." ++ join (b ".") (y :: l)).
  rewrite !clean_app. repeat split; [exact Hx|now apply clean_lit|exact IH].
Qed.
Lemma field_clean t l : field t l -> clean (encode t) -> ~ In 92 (encode t) -> clean (join (b ".") l).
Proof.
  intros (l0 & P & ->) C Nb. apply join_clean, Forall_forall. intros x I0. apply filter_In in I0 as [I0 _].
  pose proof (pieces_clean _ _ P C Nb) as F. rewrite Forall_forall in F. auto.
Qed.
Lemma comparison_clean a k o f vs : GrammarFacts.comparison O a k o f vs -> clean (encode k) -> ~ In 92 (encode k) -> clean (join (b ".") f).
Proof.
  intros [f0 l w1 w2 k0 o0 F _ _ _|f0 l w1 w2 k0 o0 w3 v vs0 F _ _ _ _ _] C Nb; rewrite encode_app in C, Nb; apply clean_app in C as [C _];
    (apply (field_clean _ _ F C); intros I0; apply Nb; apply in_or_app; now left).
Qed.
Lemma hint_inert q t m ms a : parse_plain O q = QOk t -> p_wrap O q = WebRes a ms -> In m ms -> clean q ->
  exists h, w_text m = WHint h /\
    (h <> HSimRegex -> (forall r, h = HOuterGroup r -> clean (t_re_show T r)) -> ((exists g, h = HAlternation g) -> ~ In 92 q) ->
     inert (pg_msg (page_of O T m))).
Proof.
  intros P W I0 C. rewrite (accepted_web O q t P) in W. destruct (marshal_indent _) as [tx0|]; [|discriminate]. injection W as _ <-. apply in_map_iff in I0 as (m0 & <- & I0).
  destruct (web_blocks O t (fun o f vs p Sb => accepted_regex O q t o f vs p P Sb)) as (bl & E & F). rewrite E in I0. apply in_concat in I0 as (ms & Ib & I0).
  destruct (Forall2_in_r _ _ _ F _ Ib) as ([[[o f] v] np] & Iv & (_ & M2 & _)).
  apply placed_in in Iv as (vs & Sb & Iv). apply Prop_Grammar.C03_language in P as (text & Sc & -> & (w1 & a0 & w2 & -> & W1 & W2 & D) & _).
  assert (G : web_gives O o f v (m_type m0) (m_text m0)) by (apply M2; eauto).
  destruct (GrammarFacts.derives_expr O _ _ _ _ _ _ _ _ D Sb) as (a' & own & z & E1 & Ep & K).
  destruct (GrammarFacts.comparison_value_in O _ _ _ _ _ _ K Iv) as (a1 & k1 & z1 & E2 & L).
  exists (m_text m0). split; [reflexivity|]. intros Ns Ng Na. cbn [page_of pg_msg msg_convert w_text].
  assert (Et : w1 ++ a0 ++ w2 = a1 ++ k1 ++ (z1 ++ z ++ w2)) by (rewrite (app_assoc w1), E1, <- !app_assoc, (app_assoc a'), E2; now rewrite <- !app_assoc).
  assert (Et2 : w1 ++ a0 ++ w2 = a' ++ own ++ (z ++ w2)) by (rewrite (app_assoc w1), E1, <- !app_assoc; reflexivity).
  assert (Ck : clean (encode k1)) by (rewrite Et in C; eapply sub_clean; exact C).
  assert (Re' : forall r s p, v = ARegex r s p -> clean s).
  { intros r s p ->. inversion L as [|? ? ? R E'|? ? ? R E'|? ? ? R E'|? ? ? R E'|? ? ? R E'| |]; subst.
    - unfold new_regexp_val in E'. destruct (o_re_parse O _); [|discriminate]. injection E' as _ <-. eapply clean_incl; [apply unescape_incl|exact Ck].
    - unfold new_time_val in E'. destruct (Nat.eqb _ _); [destruct (parse_date _)|destruct (parse_rfc3339 _)]; discriminate.
    - unfold new_net_val in E'. destruct (parse_prefix _ _); discriminate.
    - unfold new_float_val in E'. destruct (parse_float _ _) as [f0|]; [|discriminate]. destruct f0; discriminate.
    - unfold new_int_val in E'. destruct (parse_int _); discriminate. }
  assert (Fi : ~ In 92 (encode (w1 ++ a0 ++ w2)) -> clean (join (b ".") f)).
  { intros Nb. apply (comparison_clean _ _ _ _ _ K); [rewrite Et2 in C; eapply sub_clean; exact C|]. intros I1. apply Nb. rewrite Et2, !encode_app. apply in_or_app. right. apply in_or_app. now left. }
  assert (Gv : forall k h, gives O o f v k h -> h <> HSimRegex -> h <> HSimString -> (forall r, h = HOuterGroup r -> clean (t_re_show T r)) ->
     ((exists g, h = HAlternation g) -> ~ In 92 (encode (w1 ++ a0 ++ w2))) -> clean (web_hint_text T h)).
  { intros k h Gh N1 N2 N3 N4. destruct Gh; try contradiction; cbn [web_hint_text hint_text]; rewrite ?clean_app; repeat split; try (now apply clean_lit); eauto. }
  apply clean_inert. revert G Ns Ng Na. generalize (m_type m0) (m_text m0). intros k h G Ns Ng Na.
  destruct v; cbn [web_gives] in G; try contradiction; try (apply (Gv k h); auto; intros ->; now inversion G).
  destruct G as (_ & _ & ->). now apply clean_lit.
Qed.
End V.
