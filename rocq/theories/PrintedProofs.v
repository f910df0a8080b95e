(** Values with the same printed form. *)
From Verif Require Import Bytes Utf8 Utf8Proofs GoStrconv GoTime GoNet GoFloat Oracles Ast AstSpec Actions GrammarSpec GrammarFacts LiteralSpec LiteralProofs StringProofs RegexLitProofs
  ParseQuery QuoteProofs ValueProofs NumSpec FloatProofs NumProofs NumLitProofs FormatFloat FormatFloatProofs.
From Verif Require Prop_Grammar.
From Coq Require Import Reals ZifyBool ZifyN ZifyNat.

Section WithOracles.
Context (O : oracles).

(** A plain decimal number: sign, digits, optionally a point and digits. *)
Definition plain_decimal (t : bytes) : Prop := exists s ip dot fp, t = s ++ ip ++ dot ++ fp /\ (s = [] \/ s = b "-") /\
  Forall dig ip /\ Forall dig fp /\ ip <> [] /\ (dot = [] /\ fp = [] \/ dot = b "." /\ fp <> []).
(** What the documentation of FormatFloat(f, 'f', -1, 64) promises. *)
Definition formats : Prop := forall f, finite_double f ->
  plain_decimal (o_fmt_float O f) /\ parse_float (o_float_other O) (o_fmt_float O f) = Some f.

(** What the printed form looks like. *)
Inductive shape : aval -> Prop :=
| sh_str u p : scalars u -> shape (AStr (encode u) p)
| sh_bool x p : shape (ABool x p)
| sh_regex pat r p : pat = trim_slash (47 :: r) -> shape (ARegex pat (47 :: r) p)
| sh_net nv c r p : parse_prefix (o_strict_bits O) (c :: r) = Some nv -> dig c -> In 47 r -> ~ In 45 r -> shape (ANet nv (c :: r) p)
| sh_time tv dy c1 c2 c3 c4 r p : new_time_val (c1 :: c2 :: c3 :: c4 :: 45 :: r) p = Some (ATime tv dy (c1 :: c2 :: c3 :: c4 :: 45 :: r) p) ->
    dig c1 -> dig c2 -> dig c3 -> dig c4 -> shape (ATime tv dy (c1 :: c2 :: c3 :: c4 :: 45 :: r) p)
| sh_float f p : finite_double f -> shape (AFloat f (o_fmt_float O f) p)
| sh_int t p : int_lit t -> parse_int t = Some (int_value t) -> shape (AInt (int_value t) t p).

Lemma int_plain t : int_lit t -> plain_decimal t.
Proof.
  intros (s & d & -> & Hs & D & Ne). exists s, d, [], []. rewrite !app_nil_r. split; [reflexivity|]. split; [exact Hs|]. split; [exact D|].
  split; [constructor|]. split; [exact Ne|now left].
Qed.

Lemma digits4 y : ndigits 4 y -> exists c1 c2 c3 c4, y = [c1; c2; c3; c4] /\ dig c1 /\ dig c2 /\ dig c3 /\ dig c4.
Proof.
  intros [D L]. destruct y as [|c1 [|c2 [|c3 [|c4 [|]]]]]; try discriminate L. exists c1, c2, c3, c4.
  unfold digits in D. repeat match goal with H : Forall _ (_ :: _) |- _ => inversion H; clear H; subst end. repeat split; try reflexivity; unfold dig, digit in *; lia.
Qed.
Lemma timestamp_ascii t : timestamp_lit t -> Forall (fun c => c < 128) t.
Proof. intros [H|H]; [now apply datetime_ascii|now apply date_ascii]. Qed.

Definition net_byte (c : N) : Prop := dig c \/ c = 46 \/ c = 47.
Lemma octet_bytes t : octet t -> Forall net_byte t.
Proof. intros [[D _] _]. eapply Forall_impl; [|exact D]. intros c H. left. exact H. Qed.
Lemma ip_bytes t : ip_lit t -> Forall net_byte t /\ exists c r, t = c :: r /\ dig c.
Proof.
  intros (o1 & o2 & o3 & o4 & m & -> & H1 & H2 & H3 & H4 & Hm).
  assert (Dot : Forall net_byte (tx ".")) by (constructor; [right; now left|constructor]). split.
  - do 7 (apply Forall_app; split; auto using octet_bytes). destruct Hm as [->|(d & -> & [D _] & _)]; [constructor|].
    constructor; [right; now right|]. eapply Forall_impl; [|exact D]. intros c H. left. exact H.
  - destruct H1 as [[D Ne] _]. destruct o1 as [|c r]; [congruence|]. exists c. eexists. split; [reflexivity|]. now inversion D.
Qed.
Lemma net_ascii t : Forall net_byte t -> Forall (fun c => c < 128) t.
Proof. apply Forall_impl. unfold net_byte, dig. lia. Qed.

Lemma denotes_scalars t u : denotes_string t u -> scalars t -> scalars u.
Proof.
  induction 1; intros Sc; try (constructor; fail);
  repeat match goal with H : scalars (_ :: _) |- _ => inversion H; clear H; subst | H : Forall _ (_ :: _) |- _ => inversion H; clear H; subst
    | H : scalars (tx _ ++ _) |- _ => apply Forall_app in H as [_ H] end; try (constructor; [assumption|apply IHdenotes_string; assumption]); try (constructor; [apply scalar_spec; lia|apply IHdenotes_string; assumption]).
  apply Forall_app in Sc as [_ Sc]. constructor; [|apply IHdenotes_string; assumption]. now apply (uni_scalar h1 h2 h3 h4).
Qed.

(** Literals have these shapes. *)
Lemma literal_shape t p v : scalars t -> literal O t p v -> shape v.
Proof.
  intros Sc L. destruct L as [t s p Q U|t v p R E|t v p R E|t v p R E|t v p R E|t v p R E|p|p].
  - apply unquote_spec in U; [|exact Q|exact Sc]. destruct U as (body & u & Et & D & ->). apply sh_str.
    assert (Sb : scalars body) by (subst t; apply Forall_app in Sc as [_ Sc]; now apply Forall_app in Sc as [Sc _]).
    eapply denotes_scalars; eauto.
  - destruct R as (body & -> & R). unfold new_regexp_val in E. cbn [app] in E. rewrite encode_cons, encode_rune_ascii in E by lia. cbn [app] in E.
    rewrite unescape_cons in E by lia. cbv zeta in E. destruct (o_re_parse O _); [|discriminate]. injection E as <-. now apply sh_regex.
  - pose proof (timestamp_ascii t R) as A. rewrite (encode_ascii t A) in E. apply ts_shape in R as (y & u & -> & Y).
    apply digits4 in Y as (c1 & c2 & c3 & c4 & -> & D1 & D2 & D3 & D4). cbn [app] in E. pose proof E as E'. unfold new_time_val in E.
    destruct (Nat.eqb _ 10); [destruct (parse_date _)|destruct (parse_rfc3339 _)]; try discriminate; injection E as <-; now apply sh_time.
  - destruct (ip_bytes t R) as (B & c & r & -> & Dc). rewrite (encode_ascii _ (net_ascii _ B)) in E. unfold new_net_val, net_text in E. cbv zeta in E.
    destruct (has_byte 47 (c :: r)) eqn:Hb.
    + destruct (parse_prefix _ _) as [nv|] eqn:P; [|discriminate]. injection E as <-. apply sh_net; [exact P|exact Dc| |].
      * unfold has_byte in Hb. apply existsb_exists in Hb as (x & I & Ex). apply N.eqb_eq in Ex. subst x. destruct I as [->|I]; [unfold dig in Dc; lia|exact I].
      * intros I. inversion B as [|? ? _ B']; subst. rewrite Forall_forall in B'. apply B' in I. unfold net_byte, dig in I. lia.
    + destruct (parse_prefix _ _) as [nv|] eqn:P; [|discriminate]. injection E as <-. apply sh_net; [exact P|exact Dc| |].
      * apply in_app_iff. right. now left.
      * intros I. apply in_app_iff in I as [I|I]; [|cbn in I; lia]. inversion B as [|? ? _ B']; subst. rewrite Forall_forall in B'. apply B' in I. unfold net_byte, dig in I. lia.
  - pose proof (literal_exact O t p v (lit_float O t v p R E)) as X. unfold new_float_val in E.
    destruct (parse_float _ _) as [f|]; [|discriminate]. cbn in E. destruct f; try discriminate; injection E as <-;
      (destruct (X I) as (y & g & _ & _ & Eg & F & _); injection Eg as <-; now apply sh_float).
  - pose proof (int_lit_ascii t R) as A. rewrite (encode_ascii t A) in E. unfold new_int_val in E. pose proof (parse_int_spec t R) as Ps.
    destruct (parse_int t) as [i|] eqn:P; [|discriminate]. cbn in E. injection E as <-.
    destruct ((-9223372036854775808 <=? int_value t) && (int_value t <=? 9223372036854775807))%Z; [|discriminate]. injection Ps as ->. now apply sh_int.
  - apply sh_bool.
  - apply sh_bool.
Qed.

(** ** What distinguishes the forms *)
Inductive text_kind := KQuoted | KRegex | KWord | KNet | KTime | KNumber.
Definition classify (s : bytes) : text_kind :=
  let c := hd 0 s in
  if c =? 34 then KQuoted else if c =? 47 then KRegex else if (c =? 116) || (c =? 102) then KWord else
  if nth 4 s 0 =? 45 then KTime else if has_byte 47 s then KNet else KNumber.
Definition kind (v : aval) : text_kind :=
  match v with AInt _ _ _ | AFloat _ _ _ => KNumber | AStr _ _ => KQuoted | ABool _ _ => KWord | ARegex _ _ _ => KRegex | ANet _ _ _ => KNet | ATime _ _ _ _ => KTime end.

Lemma has_byte_false x s : ~ In x s -> has_byte x s = false.
Proof. intros H. unfold has_byte. destruct (existsb _ s) eqn:E; [|reflexivity]. apply existsb_exists in E as (y & I & Ey). apply N.eqb_eq in Ey. now subst. Qed.
Lemma has_byte_true x s : In x s -> has_byte x s = true.
Proof. intros H. unfold has_byte. apply existsb_exists. exists x. split; [exact H|apply N.eqb_refl]. Qed.
Lemma classify_digit c r : dig c \/ c = 45 -> classify (c :: r) = if nth 4 (c :: r) 0 =? 45 then KTime else if has_byte 47 (c :: r) then KNet else KNumber.
Proof.
  intros D. unfold classify. cbn [hd]. replace (c =? 34) with false by (unfold dig in D; lia). replace (c =? 47) with false by (unfold dig in D; lia).
  replace ((c =? 116) || (c =? 102)) with false by (unfold dig in D; lia). reflexivity.
Qed.
Lemma plain_bytes t : plain_decimal t -> exists c r, t = c :: r /\ (dig c \/ c = 45) /\ Forall (fun x => dig x \/ x = 46) r.
Proof.
  intros (s & ip & dot & fp & -> & Hs & D & F & Ne & Hd).
  assert (A : forall l, Forall dig l -> Forall (fun x => dig x \/ x = 46) l) by (intros l; apply Forall_impl; tauto).
  assert (T : Forall (fun x => dig x \/ x = 46) (dot ++ fp)).
  { apply Forall_app. split; [|now apply A]. destruct Hd as [[-> _]|[-> _]]; [constructor|]. constructor; [now right|constructor]. }
  destruct Hs as [->| ->].
  - destruct ip as [|c ip]; [congruence|]. inversion D; subst. exists c, (ip ++ dot ++ fp). split; [reflexivity|]. split; [now left|]. apply Forall_app. split; [now apply A|exact T].
  - exists 45, (ip ++ dot ++ fp). split; [reflexivity|]. split; [now right|]. apply Forall_app. split; [now apply A|exact T].
Qed.
Lemma classify_plain t : plain_decimal t -> classify t = KNumber.
Proof.
  intros P. destruct (plain_bytes t P) as (c & r & -> & D & F). rewrite classify_digit by exact D. rewrite Forall_forall in F.
  rewrite has_byte_false.
  - cbn [nth]. destruct (nth_in_or_default 3 r 0) as [I|E]; [|rewrite E; reflexivity]. apply F in I.
    replace (nth 3 r 0 =? 45) with false by (unfold dig in I; lia). reflexivity.
  - intros [E|I]; [unfold dig in D; lia|]. apply F in I. unfold dig in I. lia.
Qed.
Lemma classify_value v : formats -> shape v -> classify (val_string O v) = kind v.
Proof.
  intros Fm S0. destruct S0 as [u p Sc|x p|pat r p E|nv c r p E D I Ni|tv dy c1 c2 c3 c4 r p E D1 D2 D3 D4|f p F|t p R P]; cbn [val_string kind].
  - reflexivity.
  - destruct x; reflexivity.
  - reflexivity.
  - rewrite classify_digit by (now left). rewrite has_byte_true by (now right). cbn [nth].
    destruct (nth_in_or_default 3 r 0) as [J|J]; [|rewrite J; reflexivity]. destruct (N.eqb_spec (nth 3 r 0) 45) as [K|K]; [congruence|reflexivity].
  - rewrite classify_digit by (now left). reflexivity.
  - apply classify_plain, Fm, F.
  - apply classify_plain, int_plain, R.
Qed.

(** ** The same printed form means the same value *)
Definition same_value (v w : aval) : Prop :=
  match v, w with
  | AInt i _ _, AInt j _ _ => i = j
  | AFloat f _ _, AFloat g _ _ => f = g
  | AStr s _, AStr s' _ => s = s'
  | ABool x _, ABool y _ => x = y
  | ARegex pat _ _, ARegex pat' _ _ => pat = pat'
  | ANet n _ _, ANet n' _ _ => n = n'
  | ATime i d _ _, ATime i' d' _ _ => i = i' /\ d = d'
  | AInt i _ _, AFloat f _ _ | AFloat f _ _, AInt i _ _ => double_value f = nearest (IZR i)
  | _, _ => False
  end.

Lemma int_float_value t f : formats -> int_lit t -> parse_int t = Some (int_value t) -> finite_double f -> t = o_fmt_float O f -> double_value f = nearest (IZR (int_value t)).
Proof.
  intros Fm R P F E. destruct (Fm f F) as (_ & Pf). rewrite <- E in Pf.
  destruct (parse_float_exact (o_float_other O) t _ (int_literal_decimal t R)) as (H & _).
  assert (In : in_double_range (IZR (int_value t))).
  { apply int_in_range. rewrite parse_int_spec in P by exact R. destruct (_ && _)%Z eqn:B in P; [lia|discriminate]. }
  destruct (H In) as (g & Pg & _ & V). congruence.
Qed.
Lemma shapes_same v w : formats -> shape v -> shape w -> val_string O v = val_string O w -> same_value v w.
Proof.
  intros Fm Sv Sw E. pose proof (f_equal classify E) as K. rewrite !classify_value in K by assumption.
  destruct Sv; destruct Sw; try discriminate K; cbn [val_string same_value] in *.
  - pose proof (unquote_quote (o_is_print O) u ltac:(assumption)) as U1. pose proof (unquote_quote (o_is_print O) u0 ltac:(assumption)) as U2. rewrite E in U1. congruence.
  - destruct x, x0; try reflexivity; discriminate E.
  - congruence.
  - rewrite E in *. congruence.
  - injection E as -> -> -> -> ->. match goal with H1 : new_time_val _ _ = _, H2 : new_time_val _ _ = _ |- _ => unfold new_time_val in H1, H2; revert H1 H2 end.
    destruct (Nat.eqb _ 10); [destruct (parse_date _)|destruct (parse_rfc3339 _)]; try discriminate; intros X1 X2; injection X1 as <- <-; injection X2 as <- <-; now split.
  - match goal with H1 : finite_double f, H2 : finite_double f0 |- _ => destruct (Fm _ H1) as (_ & P1); destruct (Fm _ H2) as (_ & P2) end. rewrite E in P1. congruence.
  - eapply int_float_value; eauto.
  - eapply int_float_value; eauto.
  - now rewrite E.
Qed.

(** The values of accepted queries. *)
Lemma accepted_shape q t o f vs p v : parse_plain O q = QOk t -> subnode (NExpr o f vs p) t -> In v vs -> shape v.
Proof.
  intros P S0 J. apply Prop_Grammar.C03_language in P as (rs & Hs & -> & (w1 & a & w2 & -> & W1 & W2 & D) & C).
  destruct (derives_expr O _ _ _ _ _ _ _ _ D S0) as (a' & k & z & E & -> & K).
  destruct (comparison_value_in O _ _ _ _ _ _ K J) as (a'' & k' & z' & E' & L).
  assert (Sk : scalars (w1 ++ a)) by (rewrite app_assoc in Hs; now apply Forall_app in Hs as [Hs _]).
  rewrite E, app_assoc in Sk. apply Forall_app in Sk as [Sk _]. rewrite E' in Sk. apply Forall_app in Sk as [_ Sk]. apply Forall_app in Sk as [Sk _].
  eapply literal_shape; eauto.
Qed.
End WithOracles.

(** FormatFloat itself is such a formatter. *)
Lemma format_formats O : o_fmt_float O = format_float -> formats O.
Proof.
  intros E f F. rewrite E. split; [|now apply format_parse]. unfold plain_decimal. now apply format_text.
Qed.
