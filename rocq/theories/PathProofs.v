(** Proofs about field paths: star segments and printed paths. *)
From Verif Require Import Bytes Utf8 Utf8Proofs GoStrconv Oracles Ast AstSpec GrammarSpec GrammarFacts Layout LayoutProofs LiteralSpec StringProofs.
From Coq Require Import ZifyBool ZifyN ZifyNat.

(** Segments joined by dots. *)
Fixpoint path_text (ss : list text) : text :=
  match ss with
  | [] => []
  | [s] => s
  | s :: r => s ++ tx "." ++ path_text r
  end.
Definition segment (s : text) : Prop := exists v, piece s v.
Definition not_star (s : text) : bool := negb (beqb s (tx "*")).
(** The same path up to unquoted star segments. *)
Definition same_path (f g : text) : Prop :=
  exists ss tt, ss <> [] /\ tt <> [] /\ Forall segment ss /\ Forall segment tt /\
    f = path_text ss /\ g = path_text tt /\ filter not_star ss = filter not_star tt.

(** Tokens that differ in star segments only. *)
Inductive same_tokens : tokens -> tokens -> Prop :=
| st_or l r l' r' : same_tokens l l' -> same_tokens r r' -> same_tokens (TOr l r) (TOr l' r')
| st_and l r l' r' : same_tokens l l' -> same_tokens r r' -> same_tokens (TAnd l r) (TAnd l' r')
| st_not w e e' : same_tokens e e' -> same_tokens (TNot w e) (TNot w e')
| st_paren e e' : same_tokens e e' -> same_tokens (TParen e) (TParen e')
| st_noarg f f' k : f = f' \/ same_path f f' -> same_tokens (TNoArg f k) (TNoArg f' k)
| st_one f f' k v : f = f' \/ same_path f f' -> same_tokens (TOne f k v) (TOne f' k v)
| st_many f f' k v vs : f = f' \/ same_path f f' -> same_tokens (TMany f k v vs) (TMany f' k v vs).

Lemma same_path_sym f g : same_path f g -> same_path g f.
Proof. intros (s & t & H). exists t, s. intuition. Qed.
Lemma same_tokens_sym k k' : same_tokens k k' -> same_tokens k' k.
Proof. induction 1; constructor; auto; intuition (subst; auto using same_path_sym). Qed.

(** No segment text is the concatenation of others: dots split uniquely.  It is enough that any
    reading of the path has some reading segment by segment. *)
Lemma pieces_path ss l : ss <> [] -> Forall2 piece ss l -> pieces (path_text ss) l.
Proof.
  intros N F. induction F as [|s v r l P F IH]; [congruence|].
  destruct r as [|s' r]; [inversion F; subst; now apply pcs_one|].
  change (path_text (s :: s' :: r)) with (s ++ tx "." ++ path_text (s' :: r)). apply pcs_more; auto. apply IH. discriminate.
Qed.
Lemma piece_fun s v w : piece s v -> piece s w -> v = w.
Proof.
  assert (X : forall t, quoted t -> Forall name_char t -> False).
  { intros t (bd & -> & _) F. inversion F as [|? ? H]. unfold name_char, digit in H. lia. }
  assert (Y : quoted (tx "*") -> False) by (intros (bd & E & _); discriminate).
  assert (Z : Forall name_char (tx "*") -> False) by (intros F; inversion F as [|? ? H]; unfold name_char, digit in H; lia).
  intros P Q. inversion P; inversion Q; subst; try congruence; try (now exfalso; eauto).
Qed.
Lemma star_piece v : piece (tx "*") v -> v = b "*".
Proof. intros P. apply (piece_fun _ _ _ P). apply pc_star. Qed.
Lemma segments_values ss : Forall segment ss -> exists l, Forall2 piece ss l.
Proof. induction 1 as [|s r [v P] _ [l F]]; [exists []; constructor|]. exists (v :: l). now constructor. Qed.
Lemma filter_values ss l : Forall2 piece ss l ->
  exists l', Forall2 piece (filter not_star ss) l' /\
    filter (fun s => negb (beqb s (b "*"))) l = filter (fun s => negb (beqb s (b "*"))) l'.
Proof.
  induction 1 as [|s v ss l P F (l' & F' & E)]; [exists []; split; constructor|]. cbn [filter].
  destruct (not_star s) eqn:N.
  - exists (v :: l'). split; [now constructor|]. cbn [filter]. now rewrite E.
  - unfold not_star in N. apply negb_false_iff, beqb_eq in N as ->. apply star_piece in P as ->.
    exists l'. auto.
Qed.
Lemma Forall2_piece_fun ss l m : Forall2 piece ss l -> Forall2 piece ss m -> l = m.
Proof.
  intros F. revert m. induction F as [|s v ss l P F IH]; intros m G; inversion G; subst; auto. f_equal; auto. eapply piece_fun; eauto.
Qed.

(** *** Splitting a path text into segments is unique *)
Lemma piece_dot_quoted t : quoted t -> forall t2 x y, quoted t2 -> t ++ x = t2 ++ y -> t = t2.
Proof.
  intros (bd & -> & Q) t2 x y (bd2 & -> & Q2) E. cbn [app] in *. injection E as E. rewrite <- !app_assoc in E. f_equal. f_equal.
  revert bd2 Q2 E. induction Q as [|c t H1 H2 H3 Q IH|e t He Q IH|h1 h2 h3 h4 t G1 G2 G3 G4 Q IH]; intros bd2 Q2 E; destruct Q2; cbn in E; try congruence; try lia.
  all: try (injection E; intros; subst; f_equal; eauto; fail).
  all: try (injection E; intros; subst; cbn in He; intuition congruence).
  - injection E as -> E. do 2 f_equal. eauto.
  - injection E as <- E. cbn in H. intuition congruence.
  - injection E as -> -> -> -> E. do 6 f_equal. eauto.
Qed.
Lemma name_prefix t : Forall name_char t -> forall t2 x y, Forall name_char t2 ->
  (x = [] \/ exists u, x = 46 :: u) -> (y = [] \/ exists u, y = 46 :: u) -> t ++ x = t2 ++ y -> t = t2.
Proof.
  assert (D : ~ name_char 46) by (unfold name_char, digit; lia).
  induction 1 as [|c t H F IH]; intros [|c2 t2] x y F2 X Y E; auto; cbn in E; try (pose proof (Forall_inv F2) as N2; pose proof (Forall_inv_tail F2) as F2').
  - destruct X as [X|[u X]]; rewrite X in E; [discriminate|]. injection E as <- E. contradiction.
  - destruct Y as [Y|[u Y]]; rewrite Y in E; [discriminate|]. injection E as -> E. contradiction.
  - injection E as -> E. f_equal. eauto.
Qed.
Lemma piece_split t v t2 v2 x y : piece t v -> piece t2 v2 ->
  (x = [] \/ exists u, x = 46 :: u) -> (y = [] \/ exists u, y = 46 :: u) -> t ++ x = t2 ++ y -> t = t2.
Proof.
  assert (Q : forall t, quoted t -> exists r, t = 34 :: r) by (intros ? (bd & -> & _); eexists; reflexivity).
  assert (N : forall t, Forall name_char t -> t <> [] -> exists c r, t = c :: r /\ c <> 34 /\ c <> 42).
  { intros [|c r] F Ne; [congruence|]. inversion F as [|? ? H]; subst. exists c, r. split; auto. unfold name_char, digit in H. lia. }
  intros P P2 X Y E. inversion P as [t' s' Q1 U|t' F Ne|]; inversion P2 as [t'' s'' Q2 U2|t'' F2 Ne2|]; subst; auto.
  - eapply piece_dot_quoted; eauto.
  - destruct (Q _ Q1) as (r & ->), (N _ F2 Ne2) as (c & r' & -> & ? & ?). cbn in E. injection E as E0 E. congruence.
  - destruct (Q _ Q1) as (r & ->). discriminate.
  - destruct (Q _ Q2) as (r & ->), (N _ F Ne) as (c & r' & -> & ? & ?). cbn in E. injection E as E0 E. congruence.
  - exact (name_prefix t F t2 x y F2 X Y E).
  - destruct (N _ F Ne) as (c & r' & -> & ? & ?). cbn in E. injection E as E0 E. congruence.
  - destruct (Q _ Q2) as (r & ->). discriminate.
  - destruct (N _ F2 Ne2) as (c & r' & -> & ? & ?). cbn in E. injection E as E0 E. congruence.
Qed.
Lemma pieces_path_inv l t : pieces t l -> exists ss, ss <> [] /\ t = path_text ss /\ Forall2 piece ss l.
Proof.
  induction 1 as [t s P|t s u l P H (ss & N & -> & F)].
  - exists [t]. repeat split; [discriminate|]. constructor; [exact P|constructor].
  - exists (t :: ss). split; [discriminate|]. split; [|now constructor]. destruct ss; [congruence|reflexivity].
Qed.
Lemma path_text_cons s r : r <> [] -> path_text (s :: r) = s ++ tx "." ++ path_text r.
Proof. destruct r; [congruence|reflexivity]. Qed.
Lemma path_text_tail s r : exists x, path_text (s :: r) = s ++ x /\ (x = [] \/ exists u, x = 46 :: u) /\
  (x = [] -> r = []) /\ (forall u, x = 46 :: u -> r <> [] /\ u = path_text r).
Proof.
  destruct r as [|t r].
  - exists []. rewrite app_nil_r. repeat split; auto; discriminate.
  - exists (tx "." ++ path_text (t :: r)). split; [reflexivity|]. split; [right; eexists; reflexivity|].
    split; [discriminate|]. intros u E. cbn [tx app] in E. vm_compute (tx ".") in E. injection E as <-. split; [discriminate|reflexivity].
Qed.
Lemma path_text_inj ss : forall tt, ss <> [] -> tt <> [] -> Forall segment ss -> Forall segment tt -> path_text ss = path_text tt -> ss = tt.
Proof.
  induction ss as [|s r IH]; [congruence|]. intros [|s2 r2] _ N2 F F2 E; [congruence|]. clear N2.
  inversion F as [|? ? [v P] Fr]; inversion F2 as [|? ? [v2 P2] Fr2]; subst.
  destruct (path_text_tail s r) as (x & E1 & X & X0 & X1), (path_text_tail s2 r2) as (y & E2 & Y & Y0 & Y1). rewrite E1, E2 in E.
  assert (s = s2) as <- by exact (piece_split _ _ _ _ _ _ P P2 X Y E). apply app_inv_head in E as <-. f_equal.
  destruct X as [->|[u ->]].
  - now rewrite X0, Y0.
  - destruct (X1 u eq_refl) as [Nr Er], (Y1 u eq_refl) as [Nr2 Er2]. apply IH; auto. congruence.
Qed.
Lemma Forall2_segments ss l : Forall2 piece ss l -> Forall segment ss.
Proof. induction 1; constructor; auto. eexists; eauto. Qed.
Lemma same_path_field f g l : same_path f g -> field f l -> field g l.
Proof.
  intros (ss & tt & N1 & N2 & S1 & S2 & -> & -> & E) (l0 & P & ->).
  apply pieces_path_inv in P as (ss' & N' & E' & F'). apply path_text_inj in E'; eauto using Forall2_segments. subst ss'.
  destruct (filter_values _ _ F') as (l1 & F1 & ->). rewrite E in F1.
  destruct (segments_values _ S2) as (l2 & F2). exists l2. split; [now apply pieces_path|].
  destruct (filter_values _ _ F2) as (l3 & F3 & ->). now rewrite (Forall2_piece_fun _ _ _ F1 F3).
Qed.
Lemma same_tokens_tree O l k n : tokens_tree O l k n -> forall k', same_tokens k k' -> tokens_tree O l k' n.
Proof.
  assert (S : forall f f' l, f = f' \/ same_path f f' -> field f l -> field f' l) by (intros ? ? ? [->|?]; eauto using same_path_field).
  induction 1; intros k' K.
  - inversion K; subst. apply tt_or; auto.
  - apply tt_or1; auto.
  - inversion K; subst. apply tt_and; auto.
  - apply tt_and1; auto.
  - inversion K; subst. apply tt_not; auto.
  - apply tt_not1; auto.
  - inversion K; subst. apply tt_paren; auto.
  - inversion K; subst. apply tt_noarg; eauto.
  - inversion K; subst. eapply tt_one; eauto.
  - inversion K; subst. eapply tt_many; eauto.
Qed.

(** ** strconv.Quote *)
(** Characters that Quote writes with an escape the grammar reads. *)
Definition quotable (isprint : N -> bool) (c : N) : Prop :=
  32 <= c <= 126 \/ In c [8; 9; 10; 12; 13] \/ 128 <= c < 65536 \/ (65536 <= c /\ isprint c = true).
Definition surrogate_free (c : N) := is_scalar c = true.
Lemma hex_digit_char v : hex_digit v = hex_char v.
Proof. reflexivity. Qed.
Lemma quote_rune_denotes isprint c : is_scalar c = true -> quotable isprint c ->
  exists t, quote_rune isprint c = encode t /\ scalars t /\ forall r u, denotes_string r u -> denotes_string (t ++ r) (c :: u).
Proof.
  intros Sc Q. pose proof Sc as Sc'. rewrite scalar_spec in Sc'. unfold quote_rune.
  destruct (N.eqb_spec c 34) as [->|N34]; cbn [orb].
  { exists (tx "\"""). split; [reflexivity|]. split; [repeat constructor|]. apply ds_quote. }
  destruct (N.eqb_spec c 92) as [->|N92]; cbn [orb].
  { exists (tx "\\"). split; [reflexivity|]. split; [repeat constructor|]. apply ds_backslash. }
  destruct (if c <? 128 then (32 <=? c) && (c <? 127) else isprint c) eqn:P.
  { exists [c]. split; [cbn; now rewrite app_nil_r|]. split; [repeat constructor; auto|]. intros r u D. apply ds_char; auto.
    destruct (N.ltb_spec c 128); lia. }
  destruct (N.ltb_spec c 128) as [L|L].
  - assert (I : In c [8; 9; 10; 12; 13]) by (unfold quotable in Q; destruct Q as [?|[?|[?|[? ?]]]]; auto; lia).
    cbn in I. destruct I as [<-|[<-|[<-|[<-|[<-|[]]]]]]; cbn [N.eqb Pos.eqb].
    + exists (tx "\b"). split; [reflexivity|]. split; [repeat constructor|]. apply ds_b.
    + exists (tx "\t"). split; [reflexivity|]. split; [repeat constructor|]. apply ds_t.
    + exists (tx "\n"). split; [reflexivity|]. split; [repeat constructor|]. apply ds_n.
    + exists (tx "\f"). split; [reflexivity|]. split; [repeat constructor|]. apply ds_f.
    + exists (tx "\r"). split; [reflexivity|]. split; [repeat constructor|]. apply ds_r.
  - replace (c =? 7) with false by lia. replace (c =? 8) with false by lia. replace (c =? 12) with false by lia.
    replace (c =? 10) with false by lia. replace (c =? 13) with false by lia. replace (c =? 9) with false by lia.
    replace (c =? 11) with false by lia. replace ((c <? 32) || (c =? 127)) with false by lia.
    assert (B : c < 65536).
    { destruct Q as [?|[I|[?|[? Q]]]]; try (cbn in I); lia. }
    destruct (N.ltb_spec c 65536) as [_|]; [|lia].
    rewrite !hex_digit_char.
    assert (D : c = c / 4096 * 4096 + (c / 256) mod 16 * 256 + (c / 16) mod 16 * 16 + c mod 16).
    { pose proof (N.div_mod c 16 ltac:(lia)). pose proof (N.div_mod (c / 16) 16 ltac:(lia)). pose proof (N.div_mod (c / 256) 16 ltac:(lia)).
      rewrite N.div_div in * by lia. change (16 * 16) with 256 in *. change (256 * 16) with 4096 in *. lia. }
    assert (B1 : c / 4096 < 16) by (apply N.div_lt_upper_bound; lia).
    assert (B2 : (c / 256) mod 16 < 16) by (apply N.mod_lt; lia).
    assert (B3 : (c / 16) mod 16 < 16) by (apply N.mod_lt; lia).
    assert (B4 : c mod 16 < 16) by (apply N.mod_lt; lia).
    generalize dependent (c / 4096). generalize dependent ((c / 256) mod 16). generalize dependent ((c / 16) mod 16). generalize dependent (c mod 16).
    intros d Bd e Be f Bf g D Bg.
    destruct (hex_char_hex d Bd) as [Hd Ed], (hex_char_hex e Be) as [He Ee], (hex_char_hex f Bf) as [Hf Ef], (hex_char_hex g Bg) as [Hg Eg].
    exists (tx "\u" ++ [hex_char g; hex_char f; hex_char e; hex_char d]).
    assert (A : Forall (fun c => c < 128) (tx "\u" ++ [hex_char g; hex_char f; hex_char e; hex_char d])).
    { apply Forall_app. split; [repeat constructor|]. repeat constructor; now apply hex_ascii. }
    split; [rewrite encode_ascii; auto|]. split; [now apply ascii_scalars|].
    intros r u Du. pose proof (ds_uni (hex_char g) (hex_char f) (hex_char e) (hex_char d) r u Hg Hf He Hd) as X. cbv zeta in X.
    rewrite Ed, Ee, Ef, Eg, <- D in X. rewrite <- app_assoc. cbn [app] in *. apply X; auto. unfold surrogate. lia.
Qed.
Lemma quote_loop_denotes isprint u : scalars u -> Forall (quotable isprint) u -> forall n, (length (encode u) <= n)%nat ->
  exists t, quote_loop isprint n (encode u) = encode t /\ scalars t /\ denotes_string t u.
Proof.
  induction u as [|c u IH]; intros Su Q n Hn.
  - exists []. split; [destruct n; reflexivity|]. split; constructor.
  - inversion Su as [|? ? Sc Su']; inversion Q as [|? ? Qc Q']; subst. rewrite encode_cons in *. rewrite app_length in Hn.
    pose proof (encode_rune_len c). destruct n as [|n]; [lia|]. destruct (IH Su' Q' n ltac:(lia)) as (t & E & St & D).
    destruct (quote_rune_denotes isprint c Sc Qc) as (tc & Ec & Sct & Dc).
    exists (tc ++ t). split; [|split; [now apply Forall_app|auto]].
    destruct (encode_rune c ++ encode u) as [|x y] eqn:E1; [destruct (encode_rune c); [cbn in H; lia|discriminate]|].
    cbn [quote_loop]. rewrite <- E1. rewrite decode_encode_rune by auto. rewrite skipn_app_exact.
    assert (G : (c =? rune_error) && Nat.eqb (length (encode_rune c)) 1 = false).
    { destruct (N.eqb_spec c rune_error) as [->|]; reflexivity. }
    rewrite G, E, Ec, encode_app. reflexivity.
Qed.
Lemma quote_text_of isprint u : scalars u -> Forall (quotable isprint) u ->
  exists t, quote isprint (encode u) = encode t /\ scalars t /\ quoted t /\ unquote (encode t) = Some (encode u).
Proof.
  intros Su Q. destruct (quote_loop_denotes isprint u Su Q (length (encode u)) (Nat.le_refl _)) as (t & E & St & D).
  exists ([34] ++ t ++ [34]).
  assert (S' : scalars ([34] ++ t ++ [34])) by (apply Forall_app; split; [repeat constructor|apply Forall_app; split; [auto|repeat constructor]]).
  assert (Qt : quoted ([34] ++ t ++ [34])) by (exists t; split; auto; eapply denotes_body; eauto).
  split; [|split; [auto|split; [auto|]]].
  - unfold quote. rewrite E, !encode_app. reflexivity.
  - apply unquote_spec; auto. eauto.
Qed.
