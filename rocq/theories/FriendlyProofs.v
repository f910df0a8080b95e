(** FriendlyString read back as a query. *)
From Verif Require Import Bytes Utf8 Utf8Proofs GoStrconv GoTime GoNet GoFloat Oracles Ast AstSpec Actions GrammarSpec GrammarFacts LiteralSpec LiteralProofs StringProofs RegexLitProofs
  ParseQuery QuoteProofs ValueProofs PathProofs Layout LayoutProofs NumSpec FloatProofs NumProofs NumLitProofs PrintedProofs FormatFloatProofs.
From Verif Require Prop_Grammar Prop_Layout Prop_Paths.
From Coq Require Import Reals Lra ZifyBool ZifyN ZifyNat.
From Flocq Require Import Core BinarySingleNaN.
Local Open Scope N_scope.

(** ** Regular expressions printed without a change *)
Lemma body_bs_end t : regex_body t -> last t 0 = 92 -> exists t', t = t' ++ [92; 92].
Proof.
  induction 1 as [|c t H1 H2 H3 R IH|c t H R IH]; intros L.
  - discriminate.
  - destruct t as [|d t]; [cbn in L; lia|]. destruct (IH L) as (t' & ->). now exists (c :: t').
  - destruct t as [|d t]; [cbn in L; subst c; now exists []|]. destruct (IH L) as (t' & ->). now exists (92 :: c :: t').
Qed.
Lemma unescape_bs_end n : forall x, (length x <= n)%nat -> exists y, unescape_slash (x ++ [92; 92; 47]) = y ++ [92; 47].
Proof.
  induction n as [|n IH]; intros x L.
  - destruct x; [|cbn in L; lia]. now exists [].
  - destruct x as [|c x]; [now exists []|]. cbn [length] in L. cbn [app]. destruct (N.eq_dec c 92) as [->|Hc].
    + destruct x as [|d x]; [exists [92]; reflexivity|]. cbn [length] in L. cbn [app]. destruct (N.eq_dec d 47) as [->|Hd].
      * change (unescape_slash (92 :: 47 :: x ++ [92; 92; 47])) with (47 :: unescape_slash (x ++ [92; 92; 47])).
        destruct (IH x ltac:(lia)) as (y & ->). now exists (47 :: y).
      * rewrite unescape_bs by exact Hd. destruct (IH (d :: x) ltac:(cbn; lia)) as (y & E). cbn [app] in E. rewrite E. now exists (92 :: y).
    + rewrite unescape_cons by exact Hc. destruct (IH x ltac:(lia)) as (y & ->). now exists (c :: y).
Qed.
Lemma denotes_no_slash t u : regex_denotes t u -> ~ In 47 u -> t = u.
Proof.
  induction 1 as [|c t u H1 H2 H3 D IH|t u D IH|c t u H1 H2 D IH]; intros N.
  - reflexivity.
  - f_equal. apply IH. intros J. apply N. now right.
  - exfalso. apply N. now left.
  - f_equal. f_equal. apply IH. intros J. apply N. right. now right.
Qed.
Lemma regex_printed t body : regex_body t -> unescape_slash (encode t ++ [47]) = body ++ [47] -> ~ In 47 body -> last body 0 <> 92 -> body = encode t.
Proof.
  intros R E N L. destruct (N.eq_dec (last t 0) 92) as [Lt|Lt].
  - exfalso. destruct (body_bs_end t R Lt) as (t' & ->). rewrite encode_app in E. change (encode [92; 92]) with [92; 92] in E. rewrite <- app_assoc in E.
    destruct (unescape_bs_end _ (encode t') (Nat.le_refl _)) as (y & Y). cbn [app] in E. rewrite Y in E.
    change (y ++ [92; 47]) with (y ++ [92] ++ [47]) in E. rewrite app_assoc in E. apply app_inj_tail in E as [<- _]. apply L. now rewrite last_last.
  - destruct (regex_body_denotes t R) as (u & D). rewrite (unescape_denotes t u D Lt) in E. apply app_inj_tail in E as [<- _].
    rewrite Prop_Paths.encode_in in N by lia. now rewrite (denotes_no_slash t u D N).
Qed.

Section WithOracles.
Context (O : oracles).

(** Values whose printed form is a literal for them. *)
Definition readable (v : aval) : Prop :=
  match v with
  | AStr s _ => exists u, s = encode u /\ scalars u /\ Forall (quotable (o_is_print O)) u
  | AFloat _ sv _ => In 46 sv
  | ARegex _ sv _ => exists body, sv = b "/" ++ body ++ b "/" /\ ~ In 47 body /\ last body 0 <> 92
  | AInt _ _ _ | ABool _ _ | ANet _ _ _ | ATime _ _ _ _ => True
  end.

Lemma plain_float t : plain_decimal t -> In 46 t -> float_lit t.
Proof.
  intros (s & ip & dot & fp & -> & Hs & D & F & Ne & Hd) J. destruct Hd as [[-> ->]|[-> Nf]].
  - exfalso. rewrite !app_nil_r in J. apply in_app_or in J as [J|J].
    + destruct Hs as [->| ->]; cbn in J; lia.
    + rewrite Forall_forall in D. apply D in J. unfold dig in J. lia.
  - exists s, ip, fp. split; [reflexivity|]. split; [exact Hs|]. split; split; auto.
Qed.
Lemma plain_ascii t : plain_decimal t -> Forall (fun c => c < 128) t.
Proof. intros P. destruct (plain_bytes t P) as (c & r & -> & D & F). constructor; [unfold dig in D; lia|]. eapply Forall_impl; [|exact F]. cbn. unfold dig. lia. Qed.

Lemma readable_literal t p v : formats O -> scalars t -> literal O t p v -> readable v ->
  exists t', val_string O v = encode t' /\ scalars t' /\ literal O t' p v.
Proof.
  intros Fm Sc L Rd. pose proof L as L0. destruct L as [t s p Q U|t v p R E|t v p R E|t v p R E|t v p R E|t v p R E|p|p].
  - destruct Rd as (u & -> & Su & Qu). destruct (quote_text_of _ u Su Qu) as (t' & E & St & Qt & Ut). exists t'. split; [exact E|]. split; [exact St|]. now apply lit_string.
  - exists t. split; [|now split]. destruct R as (body & -> & R). unfold new_regexp_val in E. cbv zeta in E. destruct (o_re_parse O _); [|discriminate].
    set (sv := unescape_slash _) in E. assert (Ev : v = ARegex (trim_slash sv) sv p) by congruence. subst v. unfold sv in *.
    cbn [val_string readable] in *. destruct Rd as (w & Ew & Nw & Lw). rewrite Ew. assert (Ee : encode ([47] ++ body ++ [47]) = 47 :: encode body ++ [47]) by (rewrite !encode_app; reflexivity).
    rewrite Ee in *. rewrite unescape_cons in Ew by lia. cbn [app b] in Ew. injection Ew as Ew. rewrite (regex_printed body w R Ew Nw Lw). reflexivity.
  - exists t. split; [|now split]. unfold new_time_val in E. destruct (Nat.eqb _ 10); [destruct (parse_date _)|destruct (parse_rfc3339 _)]; try discriminate; now injection E as <-.
  - destruct (ip_bytes t R) as (B & _). pose proof (net_ascii t B) as A. rewrite (encode_ascii t A) in E. unfold new_net_val, net_text in E. cbv zeta in E.
    destruct (has_byte 47 t) eqn:Hb.
    + destruct (parse_prefix _ t) as [nv|] eqn:P; [|discriminate]. injection E as <-. exists t. split; [cbn; now rewrite encode_ascii|]. now split.
    + destruct (parse_prefix _ _) as [nv|] eqn:P; [|discriminate]. injection E as <-. exists (t ++ b "/32").
      assert (A' : Forall (fun c => c < 128) (t ++ b "/32")) by (apply Forall_app; split; [exact A|repeat constructor]).
      split; [cbn; now rewrite encode_ascii|]. split; [now apply ascii_scalars|]. apply lit_ip.
      * destruct R as (o1 & o2 & o3 & o4 & m & Et & H1 & H2 & H3 & H4 & Hm). destruct Hm as [->|(d & -> & _)].
        -- exists o1, o2, o3, o4, (tx "/32"). split; [rewrite Et; rewrite <- !app_assoc; reflexivity|]. do 4 (split; [assumption|]). right. exists (tx "32"). split; [reflexivity|].
           split; [|cbn; lia]. split; [|discriminate]. constructor; [unfold digit; cbn; lia|]. constructor; [unfold digit; cbn; lia|constructor].
        -- exfalso. rewrite has_byte_true in Hb; [discriminate|]. rewrite Et. do 7 (apply in_or_app; right). now left.
      * rewrite (encode_ascii _ A'). unfold new_net_val, net_text. cbv zeta. rewrite has_byte_true by (apply in_or_app; right; now left). now rewrite P.
  - pose proof (literal_exact O t p v (lit_float O t v p R E)) as X. unfold new_float_val in E.
    destruct (parse_float _ _) as [f|]; [|discriminate]. cbn in E.
    assert (Ev : v = AFloat f (o_fmt_float O f) p /\ f <> S754_nan) by (destruct f; try discriminate E; injection E as <-; split; try reflexivity; discriminate).
    destruct Ev as (-> & Nn). destruct (X I) as (y & g & _ & _ & Eg & F & _). injection Eg as <-. destruct (Fm f F) as (P & Pf).
    cbn [readable val_string] in *. exists (o_fmt_float O f). pose proof (plain_ascii _ P) as A. split; [now rewrite encode_ascii|]. split; [now apply ascii_scalars|].
    apply lit_float; [now apply plain_float|]. rewrite (encode_ascii _ A). unfold new_float_val. rewrite Pf. cbn. destruct f; try reflexivity. congruence.
  - pose proof (int_lit_ascii t R) as A. rewrite (encode_ascii t A) in E. unfold new_int_val in E. destruct (parse_int t) as [i|] eqn:P; [|discriminate]. cbn in E. injection E as <-.
    exists t. split; [cbn; now rewrite encode_ascii|]. now split.
  - exists (tx "true"). now split.
  - exists (tx "false"). now split.
Qed.

(** ** Comparisons *)
Lemma accepted_literals q t o f vs p : parse_plain O q = QOk t -> subnode (NExpr o f vs p) t ->
  forall v, In v vs -> exists k, scalars k /\ literal O k (val_pos v) v.
Proof.
  intros P S0 v J. apply Prop_Grammar.C03_language in P as (rs & Hs & -> & (w1 & a & w2 & -> & W1 & W2 & D) & C).
  destruct (derives_expr O _ _ _ _ _ _ _ _ D S0) as (a' & k & z & E & -> & K).
  destruct (comparison_value_in O _ _ _ _ _ _ K J) as (a'' & k' & z' & E' & L).
  assert (Sk : scalars (w1 ++ a)) by (rewrite app_assoc in Hs; now apply Forall_app in Hs as [Hs _]).
  rewrite E, app_assoc in Sk. apply Forall_app in Sk as [Sk _]. rewrite E' in Sk. apply Forall_app in Sk as [_ Sk]. apply Forall_app in Sk as [Sk _].
  exists k'. split; [exact Sk|]. now rewrite (literal_pos O _ _ _ L).
Qed.

Fixpoint comma_text (ts : list text) : text := match ts with [] => [] | t :: r => tx "," ++ t ++ comma_text r end.
Lemma comma_text_commas ts : commas ts (comma_text ts).
Proof.
  induction ts as [|t ts IH]; [constructor|]. cbn [comma_text]. change (tx "," ++ t ++ comma_text ts) with ([] ++ tx "," ++ [] ++ t ++ comma_text ts). constructor; auto; constructor.
Qed.
Lemma join_text vs ts v t : Forall2 (fun v t => val_string O v = encode t) (v :: vs) (t :: ts) ->
  join (b ",") (map (val_string O) (v :: vs)) = encode (t ++ comma_text ts).
Proof.
  revert ts v t. induction vs as [|w vs IH]; intros ts v t F.
  - inversion F as [|? ? ? ? E F']; subst. inversion F'; subst. cbn. now rewrite app_nil_r, E.
  - inversion F as [|? ? ? ? E F']; subst. inversion F' as [|? u ? us E' F'']; subst. cbn [map] in IH |- *. change (join (b ",") (val_string O v :: val_string O w :: map (val_string O) vs)) with
      (val_string O v ++ b "," ++ join (b ",") (val_string O w :: map (val_string O) vs)).
    rewrite (IH us w u F'), E. cbn [comma_text]. rewrite !encode_app. reflexivity.
Qed.
Lemma scalars_commas ts : Forall scalars ts -> scalars (comma_text ts).
Proof. induction 1; cbn [comma_text]; [constructor|]. apply Forall_app. split; [repeat constructor|]. apply Forall_app. now split. Qed.

Lemma op_shown o : (if op_eqb o EQ then [] else op_text o) = encode (render_op o).
Proof. now destruct o. Qed.
Lemma render_op_scalars o : scalars (render_op o).
Proof. destruct o; repeat constructor. Qed.

(** A comparison that passes the checks and whose values are printed as literals for them. *)
Lemma friendly_parses o us vs p : checked O (NExpr o (map encode us) vs p) ->
  (forall v, In v vs -> exists t', val_string O v = encode t' /\ scalars t' /\ literal O t' (val_pos v) v) ->
  us <> [] -> Forall scalars us -> Forall (Prop_Paths.printed_well O) us ->
  exists n, parse_plain O (friendly_string O o (map encode us) vs) = QOk n /\ strip n = strip (NExpr o (map encode us) vs p).
Proof.
  intros Cn Lit Ne Su W. destruct (Prop_Paths.field_string_path O us Ne Su W) as (f & Ef & Sf & F).
  assert (V : exists ts, Forall2 (fun v t => val_string O v = encode t) vs ts /\ Forall scalars ts /\ Forall2 (fun t v => literal O t no_position (set_pos no_position v)) ts vs).
  { clear -Lit. induction vs as [|v vs IH]; [exists []; repeat split; constructor|].
    destruct IH as (ts & A1 & A2 & A3); [intros; apply Lit; now right|]. destruct (Lit v (or_introl eq_refl)) as (t' & E & St & Lt).
    exists (t' :: ts). split; [now constructor|]. split; [now constructor|]. constructor; [|exact A3].
    eapply literal_move; eauto. }
  destruct V as (ts & Vs & St & Lt).
  assert (Args : args_ok o vs) by (destruct (Cn o (map encode us) vs p (sub_refl _)) as (A & _); exact A).
  apply checked_strip in Cn.
  assert (One : ws [32]) by (constructor; [now left|constructor]).
  unfold friendly_string. rewrite op_shown, Ef.
  destruct vs as [|v vs].
  - inversion Vs; subst. replace (encode f ++ b ":" ++ encode (render_op o) ++ b " " ++ []) with (encode (f ++ tx ":" ++ render_op o ++ [32])) by (rewrite !encode_app; reflexivity).
    refine (proj2 (Prop_Layout.C05_same_verdict O (TNoArg f (render_op o)) _ _ _ _ _) Cn).
    + apply up_or. cbn [strip map]. apply tt_noarg; [exact F|]. destruct o; cbn in Args; try (constructor; fail);
      try (destruct Args as (? & [=] & _)); try (destruct Args as (? & ? & [=] & _)); try congruence; destruct Args; congruence.
    + exists [], (f ++ [] ++ tx ":" ++ [] ++ render_op o), [32]. split; [rewrite <- ?app_assoc; reflexivity|]. split; [constructor|]. split; [exact One|]. constructor; constructor.
    + repeat (apply Forall_app; split); try apply render_op_scalars; auto; repeat constructor.
  - inversion Vs as [|? t0 ? ts0 E0 Vs']; subst. inversion Lt as [|? ? ? ? L0 Lt']; subst. inversion St as [|? ? S1 S2]; subst.
    assert (No : o <> EXS /\ o <> NUL) by (split; intros ->; discriminate).
    assert (K : comp_op (render_op o) o) by now apply comp_op_render.
    destruct vs as [|w vs].
    + inversion Vs'; subst. rewrite E0.
      replace (encode f ++ b ":" ++ encode (render_op o) ++ b " " ++ encode t0) with (encode (f ++ tx ":" ++ render_op o ++ [32] ++ t0)) by (rewrite !encode_app; reflexivity).
      refine (proj2 (Prop_Layout.C05_same_verdict O (TOne f (render_op o) t0) _ _ _ _ _) Cn).
      * apply up_or. cbn [strip map]. now apply tt_one.
      * exists [], (f ++ [] ++ tx ":" ++ [] ++ render_op o ++ [32] ++ t0), []. rewrite app_nil_r. split; [reflexivity|]. split; [constructor|]. split; [constructor|]. constructor; auto; constructor.
      * repeat (apply Forall_app; split); try apply render_op_scalars; auto; repeat constructor.
    + rewrite (join_text (w :: vs) ts0 v t0) by exact Vs.
      replace (encode f ++ b ":" ++ encode (render_op o) ++ b " " ++ b "(" ++ encode (t0 ++ comma_text ts0) ++ b ")") with
        (encode (f ++ tx ":" ++ render_op o ++ [32] ++ tx "(" ++ (t0 ++ comma_text ts0) ++ tx ")")) by (rewrite !encode_app; reflexivity).
      refine (proj2 (Prop_Layout.C05_same_verdict O (TMany f (render_op o) t0 ts0) _ _ _ _ _) Cn).
      * apply up_or. cbn [strip]. change (map (set_pos no_position) (v :: w :: vs)) with (set_pos no_position v :: map (set_pos no_position) (w :: vs)).
        apply tt_many; auto. clear -Lt'. induction Lt'; constructor; auto.
      * exists [], (f ++ [] ++ tx ":" ++ [] ++ render_op o ++ [32] ++ tx "(" ++ [] ++ t0 ++ comma_text ts0 ++ [] ++ tx ")"), []. rewrite app_nil_r.
        split; [cbn [app]; rewrite <- !app_assoc; reflexivity|]. split; [constructor|]. split; [constructor|].
        constructor; auto using comma_text_commas; try constructor. intros ->. inversion Vs'.
      * repeat (apply Forall_app; split); try apply render_op_scalars; try (apply scalars_commas; assumption); auto; repeat constructor.
Qed.

(** The value read for a printed value: a float printed without a fraction is read as the integer
    with the same value. *)
Inductive read_for : aval -> aval -> Prop :=
| rf_int f sv p : ~ In 46 sv -> f = f_of_Z (int_value sv) -> read_for (AFloat f sv p) (AInt (int_value sv) sv p)
| rf_same v : (forall f sv p, v = AFloat f sv p -> In 46 sv) -> read_for v v.
Definition readable_float (v : aval) : Prop :=
  match v with
  | AFloat f sv _ => (- 2 ^ 63 <= int_value sv < 2 ^ 63)%Z /\ f <> S754_zero true
  | _ => False
  end.

Lemma plain_int t : plain_decimal t -> ~ In 46 t -> int_lit t.
Proof.
  intros (s & ip & dot & fp & -> & Hs & D & F & Ne & Hd) J. destruct Hd as [[-> ->]|[-> Nf]].
  - exists s, ip. rewrite !app_nil_r. split; [reflexivity|]. split; [exact Hs|]. split; auto.
  - exfalso. apply J. rewrite !in_app_iff. cbn. auto.
Qed.

#[local] Instance prec_pos : Prec_gt_0 53 := eq_refl.
Lemma nearest_int_zero z : nearest (IZR z) = 0%R -> z = 0%Z.
Proof.
  intros H. destruct (Z.eq_dec z 0) as [E|N]; [exact E|exfalso].
  assert (L : (bpow radix2 0 <= Rabs (nearest (IZR z)))%R).
  { apply abs_round_ge_generic; [apply (FLT_exp_valid (-1074) 53)|apply valid_rnd_N| |].
    - apply generic_format_bpow. cbn. lia.
    - cbn [bpow]. rewrite <- abs_IZR. apply IZR_le. lia. }
  rewrite H, Rabs_R0 in L. cbn in L. lra.
Qed.

Lemma readable_reads t p v : formats O -> scalars t -> literal O t p v -> readable v \/ readable_float v ->
  exists v' t', read_for v v' /\ val_string O v' = val_string O v /\ val_pos v' = p /\
    val_string O v = encode t' /\ scalars t' /\ literal O t' p v'.
Proof.
  intros Fm Sc L [Rd|Rd].
  - destruct (readable_literal t p v Fm Sc L Rd) as (t' & E & St & Lt). exists v, t'. split; [apply rf_same; intros f sv q ->; exact Rd|]. split; [reflexivity|].
    split; [exact (literal_pos O _ _ _ L)|]. auto.
  - destruct v as [|f sv p'| | | | |]; try contradiction. destruct Rd as (Rz & Nz).
    pose proof (literal_pos O _ _ _ L) as Ep. cbn in Ep. subst p'.
    destruct (in_dec N.eq_dec 46 sv) as [J|J].
    { destruct (readable_literal t p _ Fm Sc L J) as (t' & E & St & Lt). exists (AFloat f sv p), t'. split; [apply rf_same; intros ? ? ? [= <- <- <-]; exact J|]. auto. }
    pose proof (literal_exact O t p _ L I) as (y & g & _ & _ & Eg & F & _). injection Eg as <-.
    assert (Esv : sv = o_fmt_float O f).
    { inversion L as [| | | | ? ? ? R E| | |]; subst; try (unfold new_regexp_val, new_time_val, new_net_val, new_int_val in *;
        repeat match goal with H : context [match ?x with _ => _ end] |- _ => destruct x; try discriminate end; try discriminate).
      unfold new_float_val in E. destruct (parse_float _ _) as [f'|]; [|discriminate]. cbn in E. destruct f'; congruence. }
    destruct (Fm f F) as (P & Pf). rewrite <- Esv in P, Pf. pose proof (plain_int _ P J) as R. pose proof (plain_ascii _ P) as A.
    assert (Pi : parse_int sv = Some (int_value sv)).
    { rewrite parse_int_spec by exact R. destruct (_ && _)%bool eqn:B; [reflexivity|]. exfalso. change (2 ^ 63)%Z with 9223372036854775808%Z in Rz.
      apply andb_false_iff in B as [B|B]; apply Z.leb_gt in B; lia. }
    pose proof (int_float_value O sv f Fm R Pi F Esv) as V.
    destruct (f_of_Z_rounds (int_value sv)) as (Vd & Hr & _). destruct (Hr (int_in_range (int_value sv) ltac:(lia))) as (Dv & Fin).
    assert (Ef : f = f_of_Z (int_value sv)).
    { destruct (Req_dec (double_value f) 0) as [Z0|NZ].
      - rewrite V in Z0. apply nearest_int_zero in Z0. rewrite Z0. rewrite Z0 in V. change (IZR 0) with 0%R in V. unfold nearest in V. rewrite round_0 in V by apply valid_rnd_N.
        destruct F as (_ & F). destruct f as [[|]| | |s m e]; try discriminate F; [congruence|reflexivity|]. exfalso. apply eq_0_F2R in V. destruct s; discriminate V.
      - apply finite_inj; auto; [split; assumption|congruence]. }
    exists (AInt (int_value sv) sv p), sv. split; [now constructor|]. split; [reflexivity|]. split; [reflexivity|].
    split; [cbn; now rewrite encode_ascii|]. split; [now apply ascii_scalars|]. apply lit_int; [exact R|].
    rewrite encode_ascii by exact A. unfold new_int_val. rewrite Pi. reflexivity.
Qed.
End WithOracles.
