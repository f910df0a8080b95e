(** C108: the printed form of a tree (Node.String). *)
From Verif Require Import Bytes Utf8 Utf8Proofs GoStrconv GoTime GoNet GoFloat Oracles Ast AstSpec GrammarSpec GrammarFacts LiteralProofs ParseQuery
  QuoteProofs NumSpec NumProofs NumLitProofs ValueProofs PrintedProofs MarshalSpec WasmProofs TreeTextSpec TestOracle.
From Verif Require Prop_Grammar Prop_Printed.
From Coq Require Import Reals ZifyBool ZifyN ZifyNat.

(** ** Cutting texts *)
Lemma span_cut (ok : N -> Prop) a a' x x' : Forall ok a -> Forall ok a' ->
  match x with [] => True | c :: _ => ~ ok c end -> match x' with [] => True | c :: _ => ~ ok c end ->
  a ++ x = a' ++ x' -> a = a' /\ x = x'.
Proof.
  intros H. revert a'. induction H as [|c a Hc Ha IH]; intros a' H' Hx Hx' E.
  - destruct H' as [|c' a' Hc' Ha']; [auto|]. cbn in E. subst x. contradiction.
  - destruct H' as [|c' a' Hc' Ha']; cbn in E.
    + subst x'. contradiction.
    + injection E as <- E. destruct (IH a' Ha' Hx Hx' E) as (-> & ->). auto.
Qed.

Lemma unquote_quote_rest isprint u k : scalars u -> forall n m, (length (encode u) <= n)%nat ->
  (length (quote_loop isprint n (encode u)) < m)%nat ->
  unquote_loop m (quote_loop isprint n (encode u) ++ 34 :: k) = Some (encode u, k).
Proof.
  induction u as [|c u IH]; intros Su n m Hn Hm.
  - replace (quote_loop isprint n (encode [])) with (@nil N) in * by (now destruct n). destruct m; [cbn in Hm; lia|]. reflexivity.
  - inversion Su as [|? ? Sc Su']; subst. pose proof (encode_rune_len c). pose proof (quote_rune_len isprint c).
    rewrite encode_cons, app_length in Hn. destruct n as [|n]; [lia|]. rewrite quote_loop_cons in * by auto. rewrite app_length in Hm.
    destruct m as [|m]; [lia|]. rewrite <- app_assoc, unquote_quote_rune by auto. rewrite (IH Su' n m) by lia. now rewrite encode_cons.
Qed.
Lemma quote_cut isprint u u' k k' : scalars u -> scalars u' -> quote isprint (encode u) ++ k = quote isprint (encode u') ++ k' -> u = u' /\ k = k'.
Proof.
  intros Su Su' E. unfold quote in E. cbn [app] in E. injection E as E. rewrite <- !app_assoc in E. cbn [app] in E.
  pose (m := S (length (quote_loop isprint (length (encode u)) (encode u)) + length (quote_loop isprint (length (encode u')) (encode u')))).
  pose proof (unquote_quote_rest isprint u k Su (length (encode u)) m ltac:(lia) ltac:(unfold m; lia)) as A.
  pose proof (unquote_quote_rest isprint u' k' Su' (length (encode u')) m ltac:(lia) ltac:(unfold m; lia)) as A'.
  rewrite E in A. rewrite A in A'. injection A' as E1 E2. apply encode_inj in E1; auto.
Qed.

(** ** Fields *)
Definition end_of (r : bytes) : Prop := match r with [] => True | c :: _ => c = 32 end.
Definition follows (n : nat) (k : bytes) : Prop := (exists r, k = 46 :: r) \/ (exists r, k = repeat 41 n ++ r /\ end_of r).
Definition nodot (c : N) : Prop := c <> 32 /\ c <> 46.

Section T.
Context (O : oracles).

Lemma needs_quote_false s : needs_quote s = false -> Forall (fun c => c <> 32 /\ c <> 46 /\ c <> 34) s.
Proof.
  unfold needs_quote. rewrite !orb_false_iff. intros [[H1 H2] H3]. apply Forall_forall. intros c Hc.
  repeat split; intros ->; [rewrite has_byte_true in H1|rewrite has_byte_true in H2|rewrite has_byte_true in H3]; auto; discriminate.
Qed.
Lemma repeat_nodot n : Forall nodot (repeat 41 n).
Proof. apply Forall_forall. intros c Hc. apply repeat_spec in Hc as ->. unfold nodot. lia. Qed.
Lemma piece_cut n s s' k k' : is_utf8 s -> is_utf8 s' -> follows n k -> follows n k' ->
  field_piece_string O s ++ k = field_piece_string O s' ++ k' -> s = s' /\ k = k'.
Proof.
  intros (u & Su & ->) (u' & Su' & ->) Fk Fk' E. unfold field_piece_string in E.
  assert (Mix : forall v v' w w', needs_quote v = false -> follows n w -> v ++ w = quote (o_is_print O) v' ++ w' -> False).
  { intros v v' w w' Hv Hw Ev. apply needs_quote_false in Hv. unfold quote in Ev. cbn [app] in Ev. destruct Hv as [|c v [_ [_ Hc]] _]; cbn in Ev.
    - destruct Hw as [(r & ->)|(r & -> & Hr)]; [discriminate Ev|]. destruct n; cbn in Ev; [|discriminate Ev]. subst r. cbn in Hr. discriminate Hr.
    - injection Ev as -> _. congruence. }
  destruct (needs_quote (encode u)) eqn:N1; destruct (needs_quote (encode u')) eqn:N2.
  - apply quote_cut in E as (-> & ->); auto.
  - exfalso. eapply Mix; [exact N2|exact Fk'|symmetry; exact E].
  - exfalso. eapply Mix; [exact N1|exact Fk|exact E].
  - assert (A : forall v, needs_quote v = false -> Forall nodot v).
    { intros v Hv. apply needs_quote_false in Hv. eapply Forall_impl; [|exact Hv]. unfold nodot. tauto. }
    apply A in N1, N2. set (v := encode u) in *. set (v' := encode u') in *.
    destruct Fk as [(r & ->)|(r & -> & Hr)]; destruct Fk' as [(r' & ->)|(r' & -> & Hr')].
    + apply (span_cut nodot) in E; auto; cbn; unfold nodot; lia.
    + exfalso. rewrite app_assoc in E. apply (span_cut nodot) in E; auto.
      * destruct E as (_ & <-). cbn in Hr'. discriminate Hr'.
      * apply Forall_app. split; [auto|apply repeat_nodot].
      * cbn. unfold nodot. lia.
      * destruct r'; auto. cbn in Hr'. subst. unfold nodot. lia.
    + exfalso. rewrite app_assoc in E. apply (span_cut nodot) in E; auto.
      * destruct E as (_ & ->). cbn in Hr. discriminate Hr.
      * apply Forall_app. split; [auto|apply repeat_nodot].
      * destruct r; auto. cbn in Hr. subst. unfold nodot. lia.
      * cbn. unfold nodot. lia.
    + rewrite !app_assoc in E. apply (span_cut nodot) in E.
      * destruct E as (E & ->). apply app_inv_tail in E. auto.
      * apply Forall_app. split; [auto|apply repeat_nodot].
      * apply Forall_app. split; [auto|apply repeat_nodot].
      * destruct r; auto. cbn in Hr. subst. unfold nodot. lia.
      * destruct r'; auto. cbn in Hr'. subst. unfold nodot. lia.
Qed.
Lemma field_cut n f : forall f' r r', Forall is_utf8 f -> Forall is_utf8 f' -> f <> [[]] -> f' <> [[]] -> end_of r -> end_of r' ->
  field_string O f ++ repeat 41 n ++ r = field_string O f' ++ repeat 41 n ++ r' -> f = f' /\ r = r'.
Proof.
  assert (G : forall f f' r r', f <> [] -> f' <> [] -> Forall is_utf8 f -> Forall is_utf8 f' -> end_of r -> end_of r' ->
    field_string O f ++ repeat 41 n ++ r = field_string O f' ++ repeat 41 n ++ r' -> f = f' /\ r = r').
  { clear f. intros f. induction f as [|s f IH]; intros f' r r' Ne Ne' Hf Hf' Hr Hr' E; [congruence|]. destruct f' as [|s' f']; [congruence|].
    inversion Hf as [|? ? Hs Hf1]; subst. inversion Hf' as [|? ? Hs' Hf1']; subst.
    assert (K : forall g q, exists k, (g = [] -> k = repeat 41 n ++ q) /\ (forall x, field_string O (x :: g) ++ repeat 41 n ++ q = field_piece_string O x ++ k) /\
      (g <> [] -> k = 46 :: field_string O g ++ repeat 41 n ++ q)).
    { intros g q. destruct g as [|y g].
      - exists (repeat 41 n ++ q). repeat split; congruence.
      - exists (46 :: field_string O (y :: g) ++ repeat 41 n ++ q). split; [discriminate|]. split; [|auto]. intros x. cbn [field_string]. rewrite <- !app_assoc. reflexivity. }
    destruct (K f r) as (k & K1 & K2 & K3). destruct (K f' r') as (k' & K1' & K2' & K3'). rewrite K2, K2' in E.
    assert (Fo : forall g q kk, (g = [] -> kk = repeat 41 n ++ q) -> (g <> [] -> kk = 46 :: field_string O g ++ repeat 41 n ++ q) -> end_of q -> follows n kk).
    { intros g q kk A B Hq. destruct g as [|y g]; [right; exists q; auto|left; rewrite B by discriminate; eauto]. }
    apply piece_cut with (n := n) in E as (-> & E); eauto.
    destruct f as [|y f]; destruct f' as [|y' f'].
    - rewrite K1, K1' in E by auto. apply app_inv_head in E. auto.
    - exfalso. rewrite K1, K3' in E by (auto; discriminate). destruct n; cbn in E; [|discriminate E]. subst r. discriminate Hr.
    - exfalso. rewrite K3, K1' in E by (auto; discriminate). destruct n; cbn in E; [|discriminate E]. subst r'. discriminate Hr'.
    - rewrite K3, K3' in E by discriminate. injection E as E. destruct (IH (y' :: f') r r') as (-> & ->); auto; discriminate. }
  intros f' r r' Hf Hf' N1 N2 Hr Hr' E. destruct f as [|s f]; destruct f' as [|s' f'].
  - cbn in E. apply app_inv_head in E. auto.
  - exfalso. change (field_string O []) with (field_string O [[]]) in E. apply G in E; auto; try discriminate; [|constructor; [exists []; split; [constructor|reflexivity]|constructor]]. destruct E as (E & _). congruence.
  - exfalso. change (field_string O []) with (field_string O [[]]) in E. apply G in E; auto; try discriminate; [|constructor; [exists []; split; [constructor|reflexivity]|constructor]]. destruct E as (E & _). congruence.
  - apply G; auto; discriminate.
Qed.

(** ** Values *)
Definition stop (c : N) : Prop := c = 41 \/ c = 44 \/ c = 93.
Definition okc (c : N) : Prop := ~ stop c /\ c <> 34 /\ c <> 91.
Definition printed (s : bytes) : Prop := Forall okc s /\ match s with [] => False | c :: _ => c <> 47 end.

Lemma dig_okc c : dig c -> okc c.
Proof. unfold dig, okc, stop. lia. Qed.
Lemma digits_okc t : digits t -> Forall okc t.
Proof. apply Forall_impl. intros c H. apply dig_okc. exact H. Qed.
Lemma ndigits_okc n t : ndigits n t -> Forall okc t.
Proof. intros [H _]. now apply digits_okc. Qed.
Lemma digits1_okc t : digits1 t -> Forall okc t.
Proof. intros [H _]. now apply digits_okc. Qed.
Ltac okcs := cbn; repeat (apply Forall_cons; [unfold okc, stop; lia|]); apply Forall_nil.
Lemma date_okc t : date_lit t -> Forall okc t.
Proof. intros (y & m & d & -> & Y & M & D). apply ndigits_okc in Y, M, D. repeat (apply Forall_app; split; auto); okcs. Qed.
Lemma timestamp_okc t : timestamp_lit t -> Forall okc t.
Proof.
  intros [(d & s & u & -> & D & S & (h & m & se & f & z & -> & H & M & Se & F & Z))|H]; [|now apply date_okc].
  apply date_okc in D. apply ndigits_okc in H, M, Se.
  assert (F' : Forall okc f) by (destruct F as [->|(d' & -> & D')]; [constructor|apply digits1_okc in D'; apply Forall_app; split; [okcs|auto]]).
  assert (Z' : Forall okc z).
  { destruct Z as [->|[->|(s' & h' & m' & -> & S' & H' & M')]]; [okcs|okcs|]. apply ndigits_okc in H', M'.
    repeat (apply Forall_app; split; auto); [destruct S' as [->| ->]; okcs|okcs]. }
  repeat (apply Forall_app; split; auto); [destruct S as [->|[->| ->]]; okcs|okcs|okcs].
Qed.
Lemma plain_printed t : plain_decimal t -> printed t.
Proof.
  intros P. destruct (plain_bytes t P) as (c & r & -> & D & F). split; [|unfold dig in D; lia].
  constructor; [unfold okc, stop, dig in *; lia|]. eapply Forall_impl; [|exact F]. intros x Hx. unfold okc, stop, dig in *. lia.
Qed.
Lemma net_okc t : Forall net_byte t -> Forall okc t.
Proof. apply Forall_impl. unfold net_byte, okc, stop, dig. lia. Qed.

Definition value_text (v : aval) : Prop :=
  match v with AStr s _ => is_utf8 s | ARegex _ _ _ => True | _ => printed (val_string O v) end.
Lemma literal_text t p v : formats O -> scalars t -> literal O t p v -> value_text v.
Proof.
  intros Fm Sc L. pose proof (literal_shape O t p v Sc L) as Sh. destruct L as [t s p Q U|t v p R E|t v p R E|t v p R E|t v p R E|t v p R E|p|p].
  - inversion Sh; subst. eexists; eauto.
  - unfold new_regexp_val in E. destruct (o_re_parse O _); [|discriminate E]. cbn in E. injection E as <-. exact Logic.I.
  - pose proof (timestamp_okc t R) as A. rewrite (encode_ascii t (timestamp_ascii t R)) in E. unfold new_time_val in E.
    assert (Hv : exists tv dy, v = ATime tv dy t p).
    { destruct (Nat.eqb _ 10); [destruct (parse_date _)|destruct (parse_rfc3339 _)]; try discriminate E; cbn in E; injection E as <-; eauto. }
    destruct Hv as (tv & dy & ->). cbn [value_text val_string]. split; [exact A|].
    apply ts_shape in R as (y & u & -> & Y). apply digits4 in Y as (c1 & c2 & c3 & c4 & -> & D1 & _). cbn. unfold dig in D1. lia.
  - destruct (ip_bytes t R) as (B & c & r & -> & Dc). rewrite (encode_ascii _ (net_ascii _ B)) in E. unfold new_net_val, net_text in E. cbv zeta in E.
    apply net_okc in B. destruct (has_byte 47 (c :: r)); (destruct (parse_prefix _ _) as [nv|]; [|discriminate E]); injection E as <-; cbn [value_text val_string];
      (split; [|cbn; unfold dig in Dc; lia]); [exact B|]. change (Forall okc ((c :: r) ++ b "/32")). apply Forall_app. split; [exact B|okcs].
  - inversion Sh; subst; cbn [value_text val_string]; try exact Logic.I; try (eexists; eauto; fail).
    all: unfold new_float_val in E; destruct (parse_float _ _) as [g|]; try discriminate E; cbn in E; destruct g; try discriminate E.
    all: apply plain_printed; now apply Fm.
  - inversion Sh; subst; cbn [value_text val_string]; try exact Logic.I; try (eexists; eauto; fail).
    all: unfold new_int_val in E; destruct (parse_int _) as [g|]; try discriminate E; cbn in E; try discriminate E.
    apply plain_printed. injection E as _ <- _. now apply int_plain.
  - cbn. split; [okcs|lia].
  - cbn. split; [okcs|lia].
Qed.

(** One value, followed by a closing parenthesis, a comma or a closing bracket. *)
Definition stops (k : bytes) : Prop := match k with c :: _ => stop c | [] => False end.
Lemma printed_cut x y k k' : printed x -> printed y -> stops k -> stops k' -> x ++ k = y ++ k' -> x = y /\ k = k'.
Proof.
  intros [X _] [Y _] K K'. assert (A : forall q, stops q -> match q with [] => True | c :: _ => ~ okc c end) by (intros [|c q]; cbn; unfold okc; tauto).
  exact (span_cut okc x y k k' X Y (A k K) (A k' K')).
Qed.
Lemma value_head v : value_text v -> one_slash v ->
  match v with
  | AStr _ _ => exists r, val_string O v = 34 :: r
  | ARegex _ _ _ => exists r, val_string O v = 47 :: r
  | _ => printed (val_string O v)
  end.
Proof. destruct v; cbn [value_text one_slash]; intros T Sl; auto; [unfold val_string, quote; cbn; eauto|]. destruct Sl as (body & -> & _). cbn. eauto. Qed.
Lemma printed_head s k c r : printed s -> s ++ k = c :: r -> okc c /\ c <> 47.
Proof. intros [F H] E. destruct s as [|x s]; [contradiction|]. inversion F; subst. cbn in E. injection E as <- _. auto. Qed.
Lemma val_cut v w k k' : value_text v -> value_text w -> one_slash v -> one_slash w -> stops k -> stops k' ->
  val_string O v ++ k = val_string O w ++ k' -> val_string O v = val_string O w /\ k = k'.
Proof.
  intros Tv Tw Sv Sw K K' E. pose proof (value_head v Tv Sv) as Hv. pose proof (value_head w Tw Sw) as Hw.
  assert (Str : forall r x q q', printed x -> 34 :: r ++ q = x ++ q' -> False).
  { intros r x q q' P Ex. symmetry in Ex. apply printed_head in Ex as [[_ [H _]] _]; auto. }
  assert (Reg : forall r x q q', printed x -> 47 :: r ++ q = x ++ q' -> False).
  { intros r x q q' P Ex. symmetry in Ex. apply printed_head in Ex as [_ H]; auto. }
  assert (Cases : (exists s p, v = AStr s p) \/ (exists a s p, v = ARegex a s p) \/ printed (val_string O v)) by (destruct v; eauto 10).
  assert (Cases' : (exists s p, w = AStr s p) \/ (exists a s p, w = ARegex a s p) \/ printed (val_string O w)) by (destruct w; eauto 10).
  destruct Cases as [(s & p & ->)|[(a & s & p & ->)|P]]; destruct Cases' as [(s' & p' & ->)|[(a' & s' & p' & ->)|P']].
  - destruct Tv as (u & Su & ->). destruct Tw as (u' & Su' & ->). cbn [val_string] in *. apply quote_cut in E as (-> & ->); auto.
  - exfalso. destruct Hv as (r & Hv). destruct Hw as (r' & Hw). rewrite Hv, Hw in E. discriminate E.
  - exfalso. destruct Hv as (r & Hv). rewrite Hv in E. eapply Str; eauto.
  - exfalso. destruct Hv as (r & Hv). destruct Hw as (r' & Hw). rewrite Hv, Hw in E. discriminate E.
  - destruct Sv as (body & -> & B). destruct Sw as (body' & -> & B'). cbn [val_string] in *. cbn [app] in E. injection E as E.
    rewrite <- !app_assoc in E. cbn [app] in E. apply (span_cut (fun c => c <> 47)) in E.
    + destruct E as (-> & E). injection E as ->. auto.
    + apply Forall_forall. intros c Hc ->. auto.
    + apply Forall_forall. intros c Hc ->. auto.
    + lia.
    + lia.
  - exfalso. destruct Hv as (r & Hv). rewrite Hv in E. eapply Reg; eauto.
  - exfalso. destruct Hw as (r & Hw). rewrite Hw in E. symmetry in E. eapply Str; eauto.
  - exfalso. destruct Hw as (r & Hw). rewrite Hw in E. symmetry in E. eapply Reg; eauto.
  - apply printed_cut; auto.
Qed.

(** Several values. *)
Definition vok (v : aval) : Prop := value_text v /\ one_slash v /\ shape O v.
Lemma val_same v w : formats O -> vok v -> vok w -> val_string O v = val_string O w -> value_alike v w.
Proof. intros Fm (_ & _ & A) (_ & _ & B) E. exact (shapes_same O v w Fm A B E). Qed.
Lemma join_cons sep x l k : l <> [] -> join sep (x :: l) ++ k = x ++ sep ++ join sep l ++ k.
Proof. destruct l; [congruence|]. intros _. cbn [join]. now rewrite <- !app_assoc. Qed.
Lemma list_cut vs : formats O -> forall ws k k', Forall vok vs -> Forall vok ws -> vs <> [] -> ws <> [] ->
  join (b ", ") (map (val_string O) vs) ++ 93 :: k = join (b ", ") (map (val_string O) ws) ++ 93 :: k' -> Forall2 value_alike vs ws /\ k = k'.
Proof.
  intros Fm. induction vs as [|v vs IH]; intros ws k k' Hv Hw Nv Nw E; [congruence|]. destruct ws as [|w ws]; [congruence|].
  inversion Hv as [|? ? V Vs]; subst. inversion Hw as [|? ? W Ws]; subst. cbn [map] in E.
  assert (J : forall x l q, exists m, join (b ", ") (x :: map (val_string O) l) ++ 93 :: q = x ++ m /\ stops m /\
    (l = [] -> m = 93 :: q) /\ (l <> [] -> m = 44 :: 32 :: join (b ", ") (map (val_string O) l) ++ 93 :: q)).
  { intros x l q. destruct l as [|y l].
    - exists (93 :: q). repeat split; try congruence. cbn. unfold stop. auto.
    - eexists. split; [cbn [map]; apply join_cons; discriminate|]. split; [cbn; unfold stop; auto|]. split; [discriminate|]. intros _. reflexivity. }
  destruct (J (val_string O v) vs k) as (m & Em & Sm & M1 & M2). destruct (J (val_string O w) ws k') as (m' & Em' & Sm' & M1' & M2').
  rewrite Em, Em' in E. destruct V as (V1 & V2 & V3). destruct W as (W1 & W2 & W3). apply val_cut in E as (E & Ek); auto.
  pose proof (shapes_same O v w Fm V3 W3 E) as A.
  destruct vs as [|v2 vs]; destruct ws as [|w2 ws].
  - rewrite M1, M1' in Ek by auto. injection Ek as ->. split; [constructor; [exact A|constructor]|auto].
  - rewrite M1, M2' in Ek by (auto; discriminate). discriminate Ek.
  - rewrite M2, M1' in Ek by (auto; discriminate). discriminate Ek.
  - rewrite M2, M2' in Ek by discriminate. injection Ek as Ek. destruct (IH (w2 :: ws) k k' Vs Ws ltac:(discriminate) ltac:(discriminate) Ek) as (F & ->). split; [constructor; [exact A|exact F]|auto].
Qed.
Definition vals_string (vs : list aval) : bytes :=
  match vs with [] => [] | [v] => val_string O v | _ => 91 :: join (b ", ") (map (val_string O) vs) ++ [93] end.
Lemma vals_head v k r : vok v -> val_string O v ++ k = 91 :: r -> False.
Proof.
  intros (T & Sl & _) E. pose proof (value_head v T Sl) as H. destruct v; try (apply (printed_head _ _ _ _ H) in E as [[_ [_ A]] _]; congruence); destruct H as (x & H); rewrite H in E; discriminate E.
Qed.
Lemma vals_cut vs ws k k' : formats O -> Forall vok vs -> Forall vok ws -> vs <> [] -> ws <> [] ->
  vals_string vs ++ 41 :: k = vals_string ws ++ 41 :: k' -> Forall2 value_alike vs ws /\ k = k'.
Proof.
  intros Fm Hv Hw Nv Nw E. destruct vs as [|v [|v2 vs]]; [congruence| |]; (destruct ws as [|w [|w2 ws]]; [congruence| |]).
  - cbn [vals_string] in E. inversion Hv as [|? ? V _]; subst. inversion Hw as [|? ? W _]; subst. pose proof V as (V1 & V2 & V3). pose proof W as (W1 & W2 & W3).
    apply val_cut in E as (E & Ek); auto; try (cbn; unfold stop; auto; fail). injection Ek as ->. split; [constructor; [now apply val_same|constructor]|auto].
  - exfalso. inversion Hv; subst. cbn [vals_string] in E. cbn [app] in E. eapply vals_head; eauto.
  - exfalso. inversion Hw; subst. cbn [vals_string] in E. symmetry in E. cbn [app] in E. eapply vals_head; eauto.
  - cbn [vals_string app] in E. apply (f_equal (@tl N)) in E. cbn [tl] in E. rewrite <- !app_assoc in E. cbn [app] in E.
    destruct (list_cut (v :: v2 :: vs) Fm (w :: w2 :: ws) (41 :: k) (41 :: k') Hv Hw Nv Nw E) as (F & Ek).
    injection Ek as ->. auto.
Qed.

(** ** Trees *)
Definition noarg (o : op) : bool := match o with EXS | NUL => true | _ => false end.
Definition tok (t : node) : Prop := forall o f vs p, subnode (NExpr o f vs p) t ->
  Forall is_utf8 f /\ f <> [[]] /\ Forall vok vs /\ (if noarg o then vs = [] else vs <> []).
Definition tag (t : node) : bytes :=
  match t with NAnd _ _ => b "&&" | NOr _ _ => b "||" | NNot _ => b "!" | NExpr o _ _ _ => op_text o end.
Definition body (t : node) : bytes :=
  match t with
  | NAnd l r | NOr l r => node_string O l ++ 32 :: node_string O r
  | NNot e => node_string O e
  | NExpr _ f vs _ => field_string O f ++ match vs with [] => [] | _ => 32 :: vals_string vs end
  end.
Lemma node_parts t k : node_string O t ++ k = 40 :: tag t ++ 32 :: body t ++ 41 :: k.
Proof.
  destruct t as [l r|l r|e|o f vs p].
  - cbn [node_string tag body]. cbn [b app]. rewrite <- !app_assoc. reflexivity.
  - cbn [node_string tag body]. cbn [b app]. rewrite <- !app_assoc. reflexivity.
  - cbn [node_string tag body]. cbn [b app]. rewrite <- !app_assoc. reflexivity.
  - cbn [node_string tag body]. rewrite <- !app_assoc.
    destruct vs as [|v [|v2 vs]]; cbn [vals_string]; cbn; rewrite <- ?app_assoc; cbn; rewrite <- ?app_assoc; reflexivity.
Qed.
Lemma tag_inj t t' k k' : tag t ++ 32 :: k = tag t' ++ 32 :: k' -> tag t = tag t' /\ k = k'.
Proof.
  intros E. apply (span_cut (fun c => c <> 32)) in E; try lia.
  - destruct E as (-> & E). injection E as ->. auto.
  - destruct t as [| | |[]]; cbn; repeat (apply Forall_cons; [lia|]); apply Forall_nil.
  - destruct t' as [| | |[]]; cbn; repeat (apply Forall_cons; [lia|]); apply Forall_nil.
Qed.
Lemma node_cut t t' k k' : node_string O t ++ k = node_string O t' ++ k' -> tag t = tag t' /\ body t ++ 41 :: k = body t' ++ 41 :: k'.
Proof. intros E. rewrite !node_parts in E. apply tag_inj. now injection E. Qed.
Lemma tree_cut t : formats O -> forall t' n r r', tok t -> tok t' -> end_of r -> end_of r' ->
  node_string O t ++ repeat 41 n ++ r = node_string O t' ++ repeat 41 n ++ r' -> alike t t' /\ r = r'.
Proof.
  intros Fm. induction t as [l IHl r0 IHr|l IHl r0 IHr|e IH|o f vs p]; intros t' n r r' T T' Hr Hr' E; apply node_cut in E as (Tg & E).
  - destruct t' as [l' r0'|l' r0'|e'|o' f' vs' p']; try discriminate Tg; [|destruct o'; discriminate Tg]. cbn [body] in E. rewrite <- !app_assoc in E. cbn [app] in E.
    destruct (IHl l' 0%nat (32 :: node_string O r0 ++ 41 :: repeat 41 n ++ r) (32 :: node_string O r0' ++ 41 :: repeat 41 n ++ r')) as (A & Er); auto; try reflexivity.
    { intros o f vs p Sb. apply (T o f vs p). now constructor. } { intros o f vs p Sb. apply (T' o f vs p). now constructor. }
    injection Er as Er. destruct (IHr r0' (S n) r r') as (B & ->); auto.
    { intros o f vs p Sb. apply (T o f vs p). now apply sub_and_r. } { intros o f vs p Sb. apply (T' o f vs p). now apply sub_and_r. }
    split; [now constructor|auto].
  - destruct t' as [l' r0'|l' r0'|e'|o' f' vs' p']; try discriminate Tg; [|destruct o'; discriminate Tg]. cbn [body] in E. rewrite <- !app_assoc in E. cbn [app] in E.
    destruct (IHl l' 0%nat (32 :: node_string O r0 ++ 41 :: repeat 41 n ++ r) (32 :: node_string O r0' ++ 41 :: repeat 41 n ++ r')) as (A & Er); auto; try reflexivity.
    { intros o f vs p Sb. apply (T o f vs p). now constructor. } { intros o f vs p Sb. apply (T' o f vs p). now constructor. }
    injection Er as Er. destruct (IHr r0' (S n) r r') as (B & ->); auto.
    { intros o f vs p Sb. apply (T o f vs p). now apply sub_or_r. } { intros o f vs p Sb. apply (T' o f vs p). now apply sub_or_r. }
    split; [now constructor|auto].
  - destruct t' as [l' r0'|l' r0'|e'|o' f' vs' p']; try discriminate Tg; [|destruct o'; discriminate Tg]. cbn [body] in E.
    destruct (IH e' (S n) r r') as (B & ->); auto.
    { intros o f vs p Sb. apply (T o f vs p). now constructor. } { intros o f vs p Sb. apply (T' o f vs p). now constructor. }
    split; [now constructor|auto].
  - destruct t' as [l' r0'|l' r0'|e'|o' f' vs' p']; try (destruct o; discriminate Tg).
    assert (o = o') as <- by (destruct o, o'; first [reflexivity|discriminate Tg]).
    destruct (T o f vs p (sub_refl _)) as (F1 & F2 & F3 & F4). destruct (T' o f' vs' p' (sub_refl _)) as (F1' & F2' & F3' & F4').
    cbn [body] in E. destruct (noarg o).
    + subst vs vs'. rewrite !app_nil_r in E. change (41 :: repeat 41 n ++ ?x) with (repeat 41 (S n) ++ x) in E.
      apply field_cut in E as (-> & ->); auto. split; [constructor; constructor|auto].
    + assert (V : forall l : list aval, l <> [] -> match l with [] => [] | _ => 32 :: vals_string l end = 32 :: vals_string l) by (intros []; congruence).
      rewrite !V in E by auto. rewrite <- !app_assoc in E. apply (field_cut 0) in E as (-> & Ev); auto; try reflexivity.
      cbn [app] in Ev. injection Ev as Ev. apply vals_cut in Ev as (Fv & Er); auto. apply app_inv_head in Er as ->. split; [now constructor|auto].
Qed.

Lemma accepted_tok q t : formats O -> parse_plain O q = QOk t -> plain_tree t -> tok t.
Proof.
  intros Fm P Pl o f vs p Sb. destruct (Pl _ _ _ _ Sb) as [Nf Os]. pose proof P as Pq.
  apply Prop_Grammar.C03_language in P as (rs & Hs & -> & (w1 & a & w2 & -> & W1 & W2 & D) & C).
  assert (Sa : scalars (w1 ++ a)) by (rewrite app_assoc in Hs; now apply Forall_app in Hs as [Hs _]).
  destruct (derives_expr O _ _ _ _ _ _ _ _ D Sb) as (a' & k & z & E & -> & K).
  split; [apply Forall_app in Sa as [_ Sa]; eapply derives_fields; eauto|]. split; [auto|]. split.
  - apply Forall_forall. intros v J. rewrite Forall_forall in Os. split; [|split; [auto|eapply accepted_shape; eauto]].
    destruct (comparison_value_in O _ _ _ _ _ _ K J) as (a2 & k' & z' & E' & L).
    rewrite E, app_assoc in Sa. apply Forall_app in Sa as [Sk _]. rewrite E' in Sk. apply Forall_app in Sk as [_ Sk]. apply Forall_app in Sk as [Sk _].
    eapply literal_text; eauto.
  - destruct K as [? ? ? ? ? ? ? ? ? Op|? ? ? ? ? ? ? ? ? ? ? ? Op ? V]; [now destruct Op|].
    assert (vs <> []) by (destruct V; discriminate). destruct Op; auto.
Qed.
End T.

(** ** C108 *)
Theorem C108_printed_tree O q1 q2 t1 t2 : formats O ->
  parse_plain O q1 = QOk t1 -> parse_plain O q2 = QOk t2 -> plain_tree t1 -> plain_tree t2 ->
  node_string O t1 = node_string O t2 -> alike t1 t2.
Proof.
  intros Fm P1 P2 L1 L2 E. destruct (tree_cut O t1 Fm t2 0%nat [] []) as [A _]; cbn; eauto using accepted_tok. now rewrite !app_nil_r.
Qed.

(** The two restrictions are needed.  A slash written with a backslash in a regular expression
    is printed without it: three expressions print as two do. *)
Theorem C108_regex_refuted : exists q1 q2 t1 t2,
  parse_plain Prop_Printed.printing_oracle q1 = QOk t1 /\ parse_plain Prop_Printed.printing_oracle q2 = QOk t2 /\
  node_string Prop_Printed.printing_oracle t1 = node_string Prop_Printed.printing_oracle t2 /\ ~ alike t1 t2.
Proof.
  exists (b "a:(/x/,/y/,/z/)"), (b "a:(/x\/, \/y/,/z/)"). do 2 eexists. split; [vm_compute; reflexivity|]. split; [vm_compute; reflexivity|].
  split; [vm_compute; reflexivity|]. intros A. inversion A as [| | |? ? ? ? ? ? F]; subst. inversion F as [|? ? ? ? _ F2]; subst. inversion F2 as [|? ? ? ? _ F3]; subst. inversion F3.
Qed.
(** The empty name prints as the whole document does. *)
Theorem C108_field_refuted : exists q1 q2 t1 t2,
  parse_plain Prop_Printed.printing_oracle q1 = QOk t1 /\ parse_plain Prop_Printed.printing_oracle q2 = QOk t2 /\
  node_string Prop_Printed.printing_oracle t1 = node_string Prop_Printed.printing_oracle t2 /\ ~ alike t1 t2.
Proof.
  exists (b "*:exists"), (b """"":exists"). do 2 eexists. split; [vm_compute; reflexivity|]. split; [vm_compute; reflexivity|].
  split; [vm_compute; reflexivity|]. intros A. inversion A.
Qed.

(** Two queries that meet the conditions and print alike. *)
Example C108_example : exists q1 q2 t1 t2, q1 <> q2 /\ formats Prop_Printed.printing_oracle /\
  parse_plain Prop_Printed.printing_oracle q1 = QOk t1 /\ parse_plain Prop_Printed.printing_oracle q2 = QOk t2 /\ plain_tree t1 /\ plain_tree t2 /\
  node_string Prop_Printed.printing_oracle t1 = node_string Prop_Printed.printing_oracle t2 /\
  node_string Prop_Printed.printing_oracle t1 = b "(&& (! (== a /x/)) (|| (exists b) (== c.d [1.5, true])))".
Proof.
  exists (b "NOT a:/x/ AND (b:exists OR c.d:(1.5,true))"), (b "!a:/x/ AND (b: exists OR c.d: (1.50, true))"). do 2 eexists.
  split; [discriminate|]. split; [now apply Prop_Printed.C90_formatter|]. split; [vm_compute; reflexivity|]. split; [vm_compute; reflexivity|].
  split; [|split; [|split; vm_compute; reflexivity]].
  all: intros o f vs p Sb; repeat match goal with H : subnode (NExpr _ _ _ _) _ |- _ => inversion H; clear H; subst end;
    (split; [discriminate|]); repeat constructor; exists [120]; (split; [reflexivity|]); intros [|[]]; discriminate.
Qed.
