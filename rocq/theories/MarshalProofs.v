(** Lemmas about encoding/json's output. *)
From Verif Require Import Bytes Utf8 Utf8Proofs GoItoa ItoaProofs Ast Json JsonSpec JsonProofs DecodeSpec Marshal MarshalSpec.
From Verif Require Prop_Decode JsonParser.
From Coq Require Import ZifyBool ZifyN ZifyNat.

Lemma jtree_ind' (P : jtree -> Prop) : P TNull -> (forall z, P (TInt z)) -> (forall s, P (TStr s)) ->
  (forall l, Forall P l -> P (TList l)) -> (forall l, Forall (fun m => P (snd m)) l -> P (TObj l)) -> forall t, P t.
Proof.
  intros H1 H2 H3 H4 H5. fix IH 1. intros [|z|s|l|l]; [exact H1|apply H2|apply H3| |].
  - apply H4. induction l as [|x l IHl]; constructor; [apply IH|exact IHl].
  - apply H5. induction l as [|x l IHl]; constructor; [apply IH|exact IHl].
Qed.

(** ** Strings *)
Lemma hex_lower_hex v : v < 16 -> hexdigit (hex_lower v) /\ hex_digit (hex_lower v) v.
Proof. intros H. unfold hex_lower, hexdigit, hex_digit. destruct (v <? 10) eqn:E; lia. Qed.
Lemma hex48 : hexdigit 48. Proof. unfold hexdigit. lia. Qed.

Lemma escape_byte_text c s : c < 128 -> string_text s -> string_text (escape_byte c ++ s).
Proof.
  intros H S. unfold escape_byte. destruct ((c =? 92) || (c =? 34)) eqn:E1.
  { cbn [app]. apply st_esc; [|exact S]. cbn. lia. }
  destruct (c =? 10); [apply (st_esc 110); [cbn; tauto|exact S]|].
  destruct (c =? 13); [apply (st_esc 114); [cbn; tauto|exact S]|].
  destruct (c =? 9); [apply (st_esc 116); [cbn; tauto|exact S]|].
  apply st_uni; try exact hex48; try exact S; apply hex_lower_hex.
  - apply N.div_lt_upper_bound; lia.
  - apply N.mod_lt. lia.
Qed.
Lemma raw_text r s : 128 <= r -> is_scalar r = true -> string_text s -> string_text (encode_rune r ++ s).
Proof.
  intros H Sc S. rewrite encode_rune_scalar by exact Sc. apply scalar_spec in Sc. unfold encode_raw.
  replace (r <? 128) with false by lia. destruct (r <? 2048); [|destruct (r <? 65536)]; cbn [app];
    repeat (apply st_char; [lia|lia|lia|]); exact S.
Qed.
Lemma escape_string n : forall s, string_text (escape_fuel n s).
Proof.
  induction n as [|n IH]; intros s; [constructor|]. destruct s as [|c s]; [constructor|]. cbn [escape_fuel].
  destruct (c <? 128) eqn:E.
  { destruct (html_safe c) eqn:Hs; [|apply escape_byte_text; [lia|apply IH]].
    unfold html_safe in Hs. cbn [app]. apply st_char; [lia|lia|lia|apply IH]. }
  destruct (decode_rune (c :: s)) as [r w] eqn:D. destruct ((r =? rune_error) && Nat.eqb w 1) eqn:E2.
  { match goal with |- string_text (_ ++ _ ++ ?x) => change (string_text (92 :: 117 :: 102 :: 102 :: 102 :: 100 :: x)) end. apply st_uni; [| | | |apply IH]; unfold hexdigit; lia. }
  assert (Nr : (r, w) <> (rune_error, 1%nat)) by (intros [= -> ->]; now rewrite N.eqb_refl in E2).
  destruct (decode_rune_ok _ _ _ D Nr ltac:(discriminate)) as (Sc & Es & Ew).
  destruct ((r =? 8232) || (r =? 8233)) eqn:E3.
  { match goal with |- string_text (_ ++ [?h] ++ ?x) => change (string_text (92 :: 117 :: 50 :: 48 :: 50 :: h :: x)) end.
    apply st_uni; [unfold hexdigit; lia|unfold hexdigit; lia|unfold hexdigit; lia| |apply IH]. apply hex_lower_hex, N.mod_lt. lia. }
  replace (firstn w (c :: s)) with (encode_rune r).
  - apply raw_text; [|exact Sc|apply IH].
    assert (c = hd 0 (encode_rune r ++ skipn w (c :: s))) as Hc by (rewrite <- Es; reflexivity).
    destruct (r <? 128) eqn:R; [|lia]. rewrite encode_rune_ascii in Hc by lia. cbn in Hc. lia.
  - rewrite Es. generalize (skipn w (c :: s)). intros z. rewrite Ew. rewrite firstn_app, firstn_all, Nat.sub_diag. cbn. now rewrite app_nil_r.
Qed.

Lemma four_u00 c : c < 128 -> four 48 48 (hex_lower (c / 16)) (hex_lower (c mod 16)) c.
Proof.
  intros H. exists 0, 0, (c / 16), (c mod 16). unfold hex_digit at 1 2.
  split; [lia|]. split; [lia|]. split; [apply hex_lower_hex; apply N.div_lt_upper_bound; lia|].
  split; [apply hex_lower_hex, N.mod_lt; lia|]. pose proof (N.div_mod c 16). lia.
Qed.
Lemma escape_byte_decodes c r t : c < 128 -> decodes r t -> decodes (escape_byte c ++ r) (c :: t).
Proof.
  intros H D. unfold escape_byte. destruct ((c =? 92) || (c =? 34)) eqn:E1.
  { cbn [app]. apply dc_esc; [|exact D]. assert (c = 92 \/ c = 34) as [-> | ->] by lia; cbn; tauto. }
  destruct (c =? 10) eqn:E2; [assert (c = 10) as -> by lia; apply (dc_esc 110); [cbn; tauto|exact D]|].
  destruct (c =? 13) eqn:E3; [assert (c = 13) as -> by lia; apply (dc_esc 114); [cbn; tauto|exact D]|].
  destruct (c =? 9) eqn:E4; [assert (c = 9) as -> by lia; apply (dc_esc 116); [cbn; tauto|exact D]|].
  change (c :: t) with ([c] ++ t). apply dc_uni with (c := c); [now apply four_u00|lia|constructor; lia|exact D].
Qed.
Lemma encode_rune_utf8_of r : is_scalar r = true -> utf8_of r (encode_rune r).
Proof.
  intros Sc. rewrite encode_rune_scalar by exact Sc. apply scalar_spec in Sc. unfold encode_raw.
  destruct (r <? 128) eqn:E1; [constructor; lia|]. destruct (r <? 2048) eqn:E2; [constructor; lia|].
  destruct (r <? 65536) eqn:E3; constructor; lia.
Qed.
Lemma raw_decodes r s t : 128 <= r -> is_scalar r = true -> decodes s t -> decodes (encode_rune r ++ s) (encode_rune r ++ t).
Proof.
  intros H Sc D. rewrite encode_rune_scalar by exact Sc. apply scalar_spec in Sc. unfold encode_raw.
  replace (r <? 128) with false by lia. destruct (r <? 2048); [|destruct (r <? 65536)]; cbn [app];
    repeat (apply dc_char; [lia|lia|lia|]); exact D.
Qed.
Lemma escape_decodes u : scalars u -> forall n, (length (encode u) <= n)%nat -> decodes (escape_fuel n (encode u)) (encode u).
Proof.
  induction u as [|r u IH]; intros Sc n L; [destruct n; constructor|]. inversion Sc as [|? ? Sr Su]; subst.
  rewrite encode_cons in *. rewrite app_length in L. pose proof (encode_rune_len r) as Lr.
  destruct n as [|n]; [lia|]. assert (IHn : decodes (escape_fuel n (encode u)) (encode u)) by (apply IH; [exact Su|lia]).
  pose proof (decode_encode_rune r (encode u) Sr) as D.
  destruct (r <? 128) eqn:E.
  { rewrite encode_rune_ascii in * by lia. cbn [app escape_fuel]. rewrite E. destruct (html_safe r) eqn:Hs; [|apply escape_byte_decodes; [lia|exact IHn]].
    unfold html_safe in Hs. cbn [app]. apply dc_char; [lia|lia|lia|exact IHn]. }
  assert (Hd : exists c x, encode_rune r ++ encode u = c :: x /\ c <? 128 = false).
  { rewrite encode_rune_scalar by exact Sr. apply scalar_spec in Sr. unfold encode_raw. rewrite E. destruct (r <? 2048); [|destruct (r <? 65536)]; cbn [app]; do 2 eexists; (split; [reflexivity|lia]). }
  destruct Hd as (c & x & Ex & Ec).
  assert (Es : skipn (length (encode_rune r)) (c :: x) = encode u) by (rewrite <- Ex; apply skipn_app_exact).
  assert (Ef : firstn (length (encode_rune r)) (c :: x) = encode_rune r) by (rewrite <- Ex, firstn_app, firstn_all, Nat.sub_diag; cbn; apply app_nil_r).
  rewrite Ex in D |- * at 1. cbn [escape_fuel]. rewrite Ec, D.
  replace ((r =? rune_error) && Nat.eqb (length (encode_rune r)) 1) with false.
  2: { symmetry. apply andb_false_intro2. apply Nat.eqb_neq. rewrite encode_rune_scalar by exact Sr. unfold encode_raw. rewrite E. destruct (r <? 2048); [|destruct (r <? 65536)]; cbn; lia. }
  rewrite Es, Ef. destruct ((r =? 8232) || (r =? 8233)) eqn:E3.
  - match goal with |- decodes (_ ++ [?h] ++ ?x) _ => change (decodes (92 :: 117 :: 50 :: 48 :: 50 :: h :: x) (encode_rune r ++ encode u)) end. apply dc_uni with (c := r); [|lia|now apply encode_rune_utf8_of|exact IHn].
    exists 2, 0, 2, (r mod 16). unfold hex_digit at 1 2 3. cbn. split; [lia|]. split; [lia|]. split; [lia|]. split; [apply hex_lower_hex, N.mod_lt; lia|].
    assert (r = 8232 \/ r = 8233) as [-> | ->] by lia; reflexivity.
  - apply raw_decodes; [lia|exact Sr|exact IHn].
Qed.

(** ** Integers *)
Lemma digits_of_head fuel : forall n acc, 0 < n -> (N.size_nat n < fuel)%nat -> exists c ds, digits_of fuel n acc = c :: ds /\ 49 <= c <= 57.
Proof.
  induction fuel as [|f IH]; intros n acc P L; [lia|]. cbn [digits_of]. destruct (n <? 10) eqn:E.
  - do 2 eexists. split; [reflexivity|]. rewrite N.mod_small by lia. lia.
  - apply IH; [|pose proof (size_div n); lia]. apply N.div_str_pos. lia.
Qed.
Lemma itoa_int n : int_text (itoa n).
Proof.
  destruct (N.eq_dec n 0) as [->|P]; [constructor|]. destruct (digits_of_head (S (N.size_nat n)) n []) as (c & ds & E & H); [lia|lia|].
  destruct (itoa_value n) as (_ & _ & F). unfold itoa in *. rewrite E in *. inversion F; subst. constructor; assumption.
Qed.
Lemma json_int_number z : number_text (json_int z).
Proof.
  unfold json_int. destruct (z <? 0)%Z.
  - replace (45 :: itoa (Z.to_N (- z))) with ([45] ++ itoa (Z.to_N (- z)) ++ [] ++ []) by (now rewrite !app_nil_r).
    apply nt; [now right|apply itoa_int|constructor|constructor].
  - replace (itoa (Z.to_N z)) with ([] ++ itoa (Z.to_N z) ++ [] ++ []) by (now rewrite !app_nil_r).
    apply nt; [now left|apply itoa_int|constructor|constructor].
Qed.
Lemma decimal_value ds : Forall digit ds -> forall a, fold_left (fun z c => (10 * z + (Z.of_N c - 48))%Z) ds (Z.of_N a) = Z.of_N (value_of ds a).
Proof.
  induction 1 as [|c ds D _ IH]; intros a; [reflexivity|]. unfold value_of. cbn [fold_left]. fold (value_of ds (10 * a + (c - 48))). rewrite <- IH. f_equal.
  unfold digit in D. lia.
Qed.
Lemma json_int_writes z : writes_int (json_int z) z.
Proof.
  unfold json_int. destruct (z <? 0)%Z eqn:E.
  - destruct (itoa_value (Z.to_N (- z))) as (V & _ & F). replace z with (- decimal (itoa (Z.to_N (- z))))%Z at 2; [now constructor|].
    unfold decimal. change 0%Z with (Z.of_N 0). rewrite (decimal_value _ F 0), V. lia.
  - destruct (itoa_value (Z.to_N z)) as (V & _ & F). replace z with (decimal (itoa (Z.to_N z)))%Z at 2; [now constructor|].
    unfold decimal. change 0%Z with (Z.of_N 0). rewrite (decimal_value _ F 0), V. lia.
Qed.

(** ** The laid out text *)
Fixpoint pretty (d : nat) (t : jtree) : bytes :=
  match t with
  | TNull => b "null"
  | TInt z => json_int z
  | TStr s => json_string s
  | TList [] => b "[]"
  | TList l => b "[" ++ newline (S d) ++ join (44 :: newline (S d)) (map (pretty (S d)) l) ++ newline d ++ b "]"
  | TObj [] => b "{}"
  | TObj l => b "{" ++ newline (S d) ++ join (44 :: newline (S d)) (map (fun m => json_string (b (fst m)) ++ [58; 32] ++ pretty (S d) (snd m)) l) ++ newline d ++ b "}"
  end.

Lemma put_put x y r : put x (put y r) = put (x ++ y) r.
Proof. destruct r; cbn; [now rewrite app_assoc|reflexivity]. Qed.

Lemma indent_in_string nd d o e : string_text e -> forall rest,
  indent true false nd d o (e ++ 34 :: rest) = put (e ++ [34]) (indent false false nd d o rest).
Proof.
  assert (X : forall c s, c <> 34 -> c <> 92 -> indent true false nd d o (c :: s) = put [c] (indent true false nd d o s)).
  { intros c s Q B. cbn [indent]. replace (c =? 92) with false by lia. replace (c =? 34) with false by lia. reflexivity. }
  assert (Y : forall c s, indent true false nd d o (92 :: c :: s) = put [92; c] (indent true false nd d o s)).
  { intros c s. cbn [indent]. change (92 =? 92) with true. cbv iota. now rewrite put_put. }
  assert (Hx : forall h, hexdigit h -> h <> 34 /\ h <> 92) by (unfold hexdigit; lia).
  induction 1 as [|c s L Q B _ IH|e s I _ IH|h1 h2 h3 h4 s H1 H2 H3 H4 _ IH]; intros rest; cbn [app].
  - reflexivity.
  - rewrite X, IH, put_put by assumption. reflexivity.
  - rewrite Y, IH, put_put. reflexivity.
  - apply Hx in H1, H2, H3, H4. rewrite Y, !X, IH, !put_put by tauto. reflexivity.
Qed.

Definition pre (nd : bool) (d : nat) : bytes := if nd then newline (S d) else [].
Definition deeper (nd : bool) (d : nat) : nat := if nd then S d else d.
Lemma indent_plain nd d o c rest : c <> 125 -> c <> 93 -> c <> 123 -> c <> 91 -> c <> 44 -> c <> 58 -> c <> 34 ->
  indent false false nd d o (c :: rest) = put (pre nd d ++ [c]) (indent false false false (deeper nd d) o rest).
Proof.
  intros. cbn [indent]. replace ((c =? 125) || (c =? 93)) with false by lia. replace ((c =? 123) || (c =? 91)) with false by lia.
  replace (c =? 44) with false by lia. replace (c =? 58) with false by lia. replace (c =? 34) with false by lia. now destruct nd.
Qed.
Lemma indent_string nd d o s rest :
  indent false false nd d o (json_string s ++ rest) = put (pre nd d ++ json_string s) (indent false false false (deeper nd d) o rest).
Proof.
  unfold json_string. rewrite <- !app_assoc. cbn [app]. cbn [indent]. change ((34 =? 125) || (34 =? 93)) with false. change ((34 =? 123) || (34 =? 91)) with false.
  change (34 =? 44) with false. change (34 =? 58) with false. change (34 =? 34) with true. cbv iota zeta. rewrite indent_in_string by apply escape_string.
  rewrite put_put. destruct nd; cbn [pre deeper app]; rewrite <- ?app_assoc; reflexivity.
Qed.
Lemma indent_copied nd d o x : (forall c, In c x -> c = 45 \/ 48 <= c <= 57 \/ 97 <= c <= 122) -> x <> [] -> forall rest,
  indent false false nd d o (x ++ rest) = put (pre nd d ++ x) (indent false false false (deeper nd d) o rest).
Proof.
  intros H Nx. destruct x as [|c x]; [congruence|]. clear Nx. intros rest.
  assert (Hc : c = 45 \/ 48 <= c <= 57 \/ 97 <= c <= 122) by (apply H; now left). assert (Hr : forall c, In c x -> c = 45 \/ 48 <= c <= 57 \/ 97 <= c <= 122) by (intros; apply H; now right). clear H.
  cbn [app]. rewrite indent_plain by lia. clear Hc. generalize (pre nd d) as y, (deeper nd d) as d'. clear nd d. revert c rest.
  induction x as [|c' x IH]; intros c rest y d'; [reflexivity|]. assert (Hc : c' = 45 \/ 48 <= c' <= 57 \/ 97 <= c' <= 122) by (apply Hr; now left).
  cbn [app]. rewrite indent_plain by lia. cbn [pre deeper app]. pose proof (IH (fun z Hz => Hr z (or_intror Hz)) c' rest [] d') as X. cbn [app] in X. rewrite X, put_put. f_equal.
  rewrite <- app_assoc. reflexivity.
Qed.
Lemma indent_open nd d o c rest : c = 123 \/ c = 91 ->
  indent false false nd d o (c :: rest) = if N.of_nat (S o) <=? 10000 then put (pre nd d ++ [c]) (indent false false true (deeper nd d) (S o) rest) else None.
Proof. intros [-> | ->]; now destruct nd. Qed.
Lemma indent_close d o c rest : c = 125 \/ c = 93 -> indent false false false d o (c :: rest) = put (newline (d - 1) ++ [c]) (indent false false false (d - 1) (o - 1) rest).
Proof. intros [-> | ->]; reflexivity. Qed.
Lemma indent_close_empty d o c rest : c = 125 \/ c = 93 -> indent false false true d o (c :: rest) = put [c] (indent false false false d (o - 1) rest).
Proof. intros [-> | ->]; reflexivity. Qed.
Lemma indent_comma d o rest : indent false false false d o (44 :: rest) = put (44 :: newline d) (indent false false false d o rest).
Proof. reflexivity. Qed.
Lemma indent_colon d o rest : indent false false false d o (58 :: rest) = put [58; 32] (indent false false false d o rest).
Proof. reflexivity. Qed.

Definition fits (n o : nat) : bool := N.of_nat (n + o) <=? 10000.
(** A part [x] of the text that is laid out as [y] and contains [n] levels. *)
Definition lays (x : bytes) (y : nat -> bytes) (n : nat) : Prop := forall nd d o rest, fits 0 o = true ->
  indent false false nd d o (x ++ rest) = if fits n o then put (pre nd d ++ y (deeper nd d)) (indent false false false (deeper nd d) o rest) else None.

Lemma lays_join (xs : list (bytes * ((nat -> bytes) * nat))) : Forall (fun x => lays (fst x) (fst (snd x)) (snd (snd x))) xs -> xs <> [] ->
  lays (join (b ",") (map fst xs)) (fun d => join (44 :: newline d) (map (fun x => fst (snd x) d) xs)) (fold_right (fun x n => Nat.max (snd (snd x)) n) 0%nat xs).
Proof.
  induction 1 as [|x xs Hx Hs IH]; intros Ne; [congruence|]. destruct xs as [|y xs].
  - intros nd d o rest F. cbn [map join fold_right]. rewrite Nat.max_0_r. now apply Hx.
  - specialize (IH ltac:(discriminate)). intros nd d o rest F. change (map fst (x :: y :: xs)) with (fst x :: map fst (y :: xs)).
    change (join (b ",") (fst x :: map fst (y :: xs))) with (fst x ++ b "," ++ join (b ",") (map fst (y :: xs))).
    set (l := y :: xs) in *. rewrite <- !app_assoc. rewrite Hx by exact F. cbn [fold_right].
    change (b "," ++ join (b ",") (map fst l) ++ rest) with (44 :: (join (b ",") (map fst l) ++ rest)). rewrite indent_comma. rewrite IH by exact F.
    set (m := fold_right _ _ l). set (n := snd (snd x)). cbn [pre deeper app].
    destruct (fits n o) eqn:E1.
    + destruct (fits m o) eqn:E2.
      * replace (fits (Nat.max n m) o) with true by (unfold fits in *; lia). rewrite !put_put. f_equal.
        subst l. cbn [map join]. set (tl := match map _ xs with [] => _ | _ => _ end). rewrite <- !app_assoc. reflexivity.
      * replace (fits (Nat.max n m) o) with false by (unfold fits in *; lia). reflexivity.
    + replace (fits (Nat.max n m) o) with false by (unfold fits in *; lia). reflexivity.
Qed.

Lemma json_int_chars z c : In c (json_int z) -> c = 45 \/ 48 <= c <= 57 \/ 97 <= c <= 122.
Proof.
  unfold json_int. destruct (z <? 0)%Z; intros H.
  - destruct H as [<-|H]; [now left|]. destruct (itoa_value (Z.to_N (- z))) as (_ & _ & F). rewrite Forall_forall in F. apply F in H. lia.
  - destruct (itoa_value (Z.to_N z)) as (_ & _ & F). rewrite Forall_forall in F. apply F in H. lia.
Qed.
Lemma json_int_ne z : json_int z <> [].
Proof. unfold json_int. destruct (z <? 0)%Z; [discriminate|]. apply itoa_value. Qed.

Lemma fold_right_map {A B C} (f : B -> C -> C) (g : A -> B) a l : fold_right f a (map g l) = fold_right (fun x n => f (g x) n) a l.
Proof. induction l as [|x l IH]; [reflexivity|]. cbn. now rewrite IH. Qed.

Lemma lays_marshal t : lays (marshal t) (fun d => pretty d t) (levels t).
Proof.
  induction t as [|z|s|l IH|l IH] using jtree_ind'.
  - intros nd d o rest F. cbn [levels]. rewrite F. apply indent_copied; [|discriminate]. cbn. intuition lia.
  - intros nd d o rest F. cbn [levels]. rewrite F. apply indent_copied; [apply json_int_chars|apply json_int_ne].
  - intros nd d o rest F. cbn [levels]. rewrite F. apply indent_string.
  - intros nd d o rest F. destruct l as [|x l].
    + cbn [marshal map join levels fold_right b list_ascii_of_string app]. change (b "[" ++ [] ++ b "]") with [91; 93]. cbn [app]. rewrite indent_open by tauto.
      rewrite indent_close_empty by tauto. cbn [Nat.add]. replace (fits 1 o) with (N.of_nat (S o) <=? 10000) by reflexivity. destruct (N.of_nat (S o) <=? 10000); [|reflexivity].
      rewrite put_put. cbn [pretty]. rewrite <- app_assoc. replace (S o - 1)%nat with o by lia. reflexivity.
    + assert (J : lays (join (b ",") (map marshal (x :: l))) (fun d => join (44 :: newline d) (map (pretty d) (x :: l))) (fold_right (fun v n => Nat.max (levels v) n) 0%nat (x :: l))).
      { pose proof (lays_join (map (fun t => (marshal t, ((fun d => pretty d t), levels t))) (x :: l))) as J. rewrite Forall_map in J.
        specialize (J IH ltac:(discriminate)). intros nd' d' o' rest' F'. specialize (J nd' d' o' rest' F'). cbn beta in J. rewrite !map_map in J. cbn [fst snd] in J.
        rewrite fold_right_map in J. exact J. }
      remember (x :: l) as xs eqn:Exs.
      assert (Em : marshal (TList xs) = [91] ++ join (b ",") (map marshal xs) ++ [93]) by reflexivity.
      assert (Ep : forall d, pretty d (TList xs) = [91] ++ newline (S d) ++ join (44 :: newline (S d)) (map (pretty (S d)) xs) ++ newline d ++ [93]) by (intros; subst xs; reflexivity).
      assert (El : levels (TList xs) = S (fold_right (fun v n => Nat.max (levels v) n) 0%nat xs)) by reflexivity. rewrite Em, Ep, El. clear Em Ep El Exs. set (m := fold_right _ _ _) in *. clearbody m.
      rewrite <- !app_assoc. cbn [app]. rewrite indent_open by tauto. destruct (N.of_nat (S o) <=? 10000) eqn:Eo.
      2: { replace (fits (S m) o) with false by (unfold fits in *; lia). reflexivity. }
      rewrite J by (unfold fits; lia). replace (fits m (S o)) with (fits (S m) o) by (unfold fits; f_equal; lia). destruct (fits (S m) o); [|reflexivity].
      cbn [pre]. change (deeper true (deeper nd d)) with (S (deeper nd d)). rewrite indent_close by tauto.
      rewrite !put_put. replace (S (deeper nd d) - 1)%nat with (deeper nd d) by lia. replace (S o - 1)%nat with o by lia. f_equal.
      rewrite <- !app_assoc. reflexivity.
  - intros nd d o rest F. destruct l as [|x l].
    + change (marshal (TObj [])) with [123; 125]. change (levels (TObj [])) with 1%nat. cbn [app]. rewrite indent_open by tauto.
      rewrite indent_close_empty by tauto. replace (fits 1 o) with (N.of_nat (S o) <=? 10000) by reflexivity. destruct (N.of_nat (S o) <=? 10000); [|reflexivity].
      rewrite put_put. cbn [pretty]. rewrite <- app_assoc. replace (S o - 1)%nat with o by lia. reflexivity.
    + set (mm := fun m : string * jtree => json_string (b (fst m)) ++ b ":" ++ marshal (snd m)).
      set (pp := fun d (m : string * jtree) => json_string (b (fst m)) ++ [58; 32] ++ pretty d (snd m)).
      assert (Hm : Forall (fun m => lays (mm m) (fun d => pp d m) (levels (snd m))) (x :: l)).
      { eapply Forall_impl; [|exact IH]. intros m Lm nd' d' o' rest' F'. unfold mm, pp. rewrite <- !app_assoc. rewrite indent_string.
        change (b ":" ++ marshal (snd m) ++ rest') with (58 :: (marshal (snd m) ++ rest')). rewrite indent_colon.
        rewrite Lm by exact F'. cbn [pre app deeper]. destruct (fits (levels (snd m)) o'); [|reflexivity]. rewrite !put_put. f_equal. now rewrite <- !app_assoc. }
      assert (J : lays (join (b ",") (map mm (x :: l))) (fun d => join (44 :: newline d) (map (pp d) (x :: l))) (fold_right (fun v n => Nat.max (levels (snd v)) n) 0%nat (x :: l))).
      { pose proof (lays_join (map (fun t => (mm t, ((fun d => pp d t), levels (snd t)))) (x :: l))) as J. rewrite Forall_map in J.
        specialize (J Hm ltac:(discriminate)). intros nd' d' o' rest' F'. specialize (J nd' d' o' rest' F'). cbn beta in J. rewrite !map_map in J. cbn [fst snd] in J.
        rewrite fold_right_map in J. exact J. }
      remember (x :: l) as xs eqn:Exs.
      assert (Em : marshal (TObj xs) = [123] ++ join (b ",") (map mm xs) ++ [125]) by reflexivity.
      assert (Ep : forall d, pretty d (TObj xs) = [123] ++ newline (S d) ++ join (44 :: newline (S d)) (map (pp (S d)) xs) ++ newline d ++ [125]) by (intros; subst xs; reflexivity).
      assert (El : levels (TObj xs) = S (fold_right (fun v n => Nat.max (levels (snd v)) n) 0%nat xs)) by reflexivity. rewrite Em, Ep, El. clear Em Ep El Exs. set (m := fold_right _ _ _) in *. clearbody m.
      rewrite <- !app_assoc. cbn [app]. rewrite indent_open by tauto. destruct (N.of_nat (S o) <=? 10000) eqn:Eo.
      2: { replace (fits (S m) o) with false by (unfold fits in *; lia). reflexivity. }
      rewrite J by (unfold fits; lia). replace (fits m (S o)) with (fits (S m) o) by (unfold fits; f_equal; lia). destruct (fits (S m) o); [|reflexivity].
      cbn [pre]. change (deeper true (deeper nd d)) with (S (deeper nd d)). rewrite indent_close by tauto.
      rewrite !put_put. replace (S (deeper nd d) - 1)%nat with (deeper nd d) by lia. replace (S o - 1)%nat with o by lia. f_equal.
      rewrite <- !app_assoc. reflexivity.
Qed.

Theorem marshal_indent_pretty t : marshal_indent t = if fits (levels t) 0 then Some (pretty 0 t) else None.
Proof.
  unfold marshal_indent. rewrite <- (app_nil_r (marshal t)). rewrite (lays_marshal t) by reflexivity. cbn [pre deeper app].
  destruct (fits (levels t) 0); [|reflexivity]. cbn. now rewrite app_nil_r.
Qed.

(** ** The tree it denotes *)
Fixpoint json_of (t : jtree) : json :=
  match t with
  | TNull => JNull
  | TInt z => JNum (json_int z)
  | TStr s => JStr (escape_fuel (length s) s)
  | TList l => JArr (map json_of l)
  | TObj l => JObj (map (fun m => (escape_fuel (length (b (fst m))) (b (fst m)), json_of (snd m))) l)
  end.

Lemma newline_ws d : ws (newline d).
Proof.
  unfold newline, ws. constructor; [unfold ws_char; tauto|]. induction d as [|d IH]; cbn [repeat concat]; [constructor|].
  apply Forall_app. split; [repeat constructor|exact IH].
Qed.

Lemma elements_join w1 w2 (xs : list (bytes * json)) : ws w1 -> ws w2 -> Forall (fun x => value_text (fst x) (snd x)) xs -> xs <> [] ->
  forall w0, ws w0 -> elements_text (w0 ++ join (44 :: w1) (map fst xs) ++ w2) (map snd xs).
Proof.
  intros W1 W2. induction 1 as [|x xs Hx Hs IH]; intros Ne w0 W0; [congruence|]. destruct xs as [|y xs].
  - cbn [map join]. now apply el_one.
  - specialize (IH ltac:(discriminate) w1 W1). change (join (44 :: w1) (map fst (x :: y :: xs))) with (fst x ++ (44 :: w1) ++ join (44 :: w1) (map fst (y :: xs))).
    change (map snd (x :: y :: xs)) with (snd x :: map snd (y :: xs)). rewrite <- !app_assoc. cbn [app].
    replace (w0 ++ fst x ++ 44 :: w1 ++ join (44 :: w1) (map fst (y :: xs)) ++ w2) with (w0 ++ fst x ++ [] ++ 44 :: (w1 ++ join (44 :: w1) (map fst (y :: xs)) ++ w2)) by reflexivity.
    apply el_more; [exact W0|exact Hx|constructor|exact IH].
Qed.
Definition member_bytes (x : bytes * (bytes * json)) : bytes := 34 :: fst x ++ 34 :: [58; 32] ++ fst (snd x).
Lemma members_join w1 w2 (xs : list (bytes * (bytes * json))) : ws w1 -> ws w2 -> Forall (fun x => string_text (fst x) /\ value_text (fst (snd x)) (snd (snd x))) xs -> xs <> [] ->
  forall w0, ws w0 -> members_text (w0 ++ join (44 :: w1) (map member_bytes xs) ++ w2) (map (fun x => (fst x, snd (snd x))) xs).
Proof.
  intros W1 W2. assert (W32 : ws [32]) by (repeat constructor). induction 1 as [|x xs [Hk Hx] Hs IH]; intros Ne w0 W0; [congruence|]. destruct xs as [|y xs].
  - cbn [map join]. unfold member_bytes.
    replace (w0 ++ (34 :: fst x ++ 34 :: [58; 32] ++ fst (snd x)) ++ w2) with (w0 ++ 34 :: fst x ++ 34 :: [] ++ 58 :: [32] ++ fst (snd x) ++ w2) by (cbn [app]; rewrite <- !app_assoc; cbn [app]; now rewrite <- ?app_assoc).
    apply mb_one; try assumption. constructor.
  - specialize (IH ltac:(discriminate) w1 W1). change (join (44 :: w1) (map member_bytes (x :: y :: xs))) with (member_bytes x ++ (44 :: w1) ++ join (44 :: w1) (map member_bytes (y :: xs))).
    set (l := y :: xs) in *. change (map (fun x => (fst x, snd (snd x))) (x :: l)) with ((fst x, snd (snd x)) :: map (fun x => (fst x, snd (snd x))) l).
    set (jj := join (44 :: w1) (map member_bytes l)) in *. unfold member_bytes.
    replace (w0 ++ ((34 :: fst x ++ 34 :: [58; 32] ++ fst (snd x)) ++ (44 :: w1) ++ jj) ++ w2) with (w0 ++ 34 :: fst x ++ 34 :: [] ++ 58 :: [32] ++ fst (snd x) ++ [] ++ 44 :: (w1 ++ jj ++ w2)).
    2: { rewrite <- !app_assoc. cbn [app]. rewrite <- ?app_assoc. cbn [app]. now rewrite <- ?app_assoc. }
    apply mb_more; try assumption; constructor.
Qed.

Lemma pretty_text t : forall d, value_text (pretty d t) (json_of t).
Proof.
  induction t as [|z|s|l IH|l IH] using jtree_ind'; intros d.
  - constructor.
  - constructor. apply json_int_number.
  - constructor. apply escape_string.
  - destruct l as [|x l]; [apply (vt_arr0 []); constructor|].
    change (pretty d (TList (x :: l))) with (91 :: newline (S d) ++ join (44 :: newline (S d)) (map (pretty (S d)) (x :: l)) ++ newline d ++ [93]).
    rewrite (app_assoc (join _ _)), (app_assoc (newline (S d))). apply vt_arr.
    pose proof (elements_join (newline (S d)) (newline d) (map (fun t => (pretty (S d) t, json_of t)) (x :: l)) (newline_ws _) (newline_ws _)) as J.
    rewrite Forall_map in J. specialize (J ltac:(eapply Forall_impl; [|exact IH]; intros a Ha; apply Ha) ltac:(discriminate) (newline (S d)) (newline_ws _)).
    rewrite !map_map in J. exact J.
  - destruct l as [|x l]; [apply (vt_obj0 []); constructor|].
    change (pretty d (TObj (x :: l))) with (123 :: newline (S d) ++ join (44 :: newline (S d)) (map (fun m => json_string (b (fst m)) ++ [58; 32] ++ pretty (S d) (snd m)) (x :: l)) ++ newline d ++ [125]).
    rewrite (app_assoc (join _ _)), (app_assoc (newline (S d))). apply vt_obj.
    pose proof (members_join (newline (S d)) (newline d) (map (fun m => (escape_fuel (length (b (fst m))) (b (fst m)), (pretty (S d) (snd m), json_of (snd m)))) (x :: l)) (newline_ws _) (newline_ws _)) as J.
    rewrite Forall_map in J. specialize (J ltac:(eapply Forall_impl; [|exact IH]; intros a Ha; split; [apply escape_string|apply Ha]) ltac:(discriminate) (newline (S d)) (newline_ws _)).
    rewrite !map_map in J. cbn [fst snd] in J.
    replace (map (fun m => json_string (b (fst m)) ++ [58; 32] ++ pretty (S d) (snd m)) (x :: l)) with
      (map (fun x0 : string * jtree => member_bytes (escape_fuel (length (b (fst x0))) (b (fst x0)), (pretty (S d) (snd x0), json_of (snd x0)))) (x :: l)); [exact J|].
    apply map_ext. intros m. unfold member_bytes, json_string. cbn [fst snd]. rewrite <- !app_assoc. reflexivity.
Qed.

Lemma json_of_nesting t : nesting (json_of t) = levels t.
Proof.
  induction t as [|z|s|l IH|l IH] using jtree_ind'; try reflexivity; cbn [json_of nesting levels]; f_equal.
  - induction IH as [|x l Hx _ IHl]; [reflexivity|]. cbn [map fold_right]. now rewrite Hx, IHl.
  - induction IH as [|x l Hx _ IHl]; [reflexivity|]. cbn [map fold_right snd]. now rewrite Hx, IHl.
Qed.

Lemma marshal_document t text : marshal_indent t = Some text -> document text (json_of t).
Proof.
  rewrite marshal_indent_pretty. destruct (fits (levels t) 0) eqn:E; [|discriminate]. intros [= <-]. exists [], (pretty 0 t), [].
  rewrite app_nil_r. split; [reflexivity|]. split; [constructor|]. split; [apply pretty_text|]. split; [constructor|].
  rewrite json_of_nesting. unfold fits in E. lia.
Qed.

Lemma json_of_shows t : utf8_tree t -> shows t (json_of t).
Proof.
  assert (D : forall s, is_utf8 s -> decodes (escape_fuel (length s) s) s) by (intros s (u & Su & ->); now apply escape_decodes).
  induction t as [|z|s|l IH|l IH] using jtree_ind'; intros U; inversion U; subst.
  - constructor.
  - constructor. apply json_int_writes.
  - constructor. now apply D.
  - constructor. match goal with H : Forall _ _ |- _ => rename H into F end. clear U. induction IH as [|x l Hx _ IHl]; [constructor|]. inversion F; subst. constructor; [now apply Hx|now apply IHl].
  - constructor. match goal with H : Forall _ _ |- _ => rename H into F end. clear U. induction IH as [|x l Hx _ IHl]; [constructor|]. inversion F as [|? ? [F1 F2]]; subst. constructor; [split; [now apply D|now apply Hx]|now apply IHl].
Qed.

(** A document shows one tree only. *)
Lemma writes_int_fun raw z : writes_int raw z -> forall z', writes_int raw z' -> z = z'.
Proof.
  intros H z' H'. inversion H as [ds F E1 E2|ds F E1 E2]; inversion H' as [ds' F' E1' E2'|ds' F' E1' E2']; subst; try reflexivity.
  - inversion F as [|? ? D]; unfold digit in D; lia.
  - inversion F' as [|? ? D]; unfold digit in D; lia.
  - congruence.
Qed.
Lemma b_inj s s' : b s = b s' -> s = s'.
Proof.
  unfold b. revert s'. induction s as [|c s IH]; intros [|c' s'] E; try discriminate; [reflexivity|]. cbn in E. injection E as E1 E2. f_equal; [|now apply IH].
  rewrite <- (Ascii.ascii_N_embedding c), <- (Ascii.ascii_N_embedding c'). now rewrite E1.
Qed.
Lemma decodes_fun raw t t' : decodes raw t -> decodes raw t' -> t = t'.
Proof. intros H H'. apply Prop_Decode.C77_decoding in H, H'. congruence. Qed.
Lemma shows_fun t : forall j t', shows t j -> shows t' j -> t = t'.
Proof.
  induction t as [|z|s|l IH|l IH] using jtree_ind'; intros j t' H H'; inversion H; subst; inversion H'; subst.
  - reflexivity.
  - f_equal. eapply writes_int_fun; eassumption.
  - f_equal. eapply decodes_fun; eassumption.
  - f_equal. match goal with A : Forall2 shows l ?vs, B : Forall2 shows ?l0 ?vs |- _ => rename A into F, B into F', l0 into l1 end. clear H H'. revert l1 F'. induction F as [|x v l vs Hx F IHF]; intros l1 F'; inversion F'; subst; [reflexivity|].
    inversion IH; subst. f_equal; [eauto|]. apply IHF; assumption.
  - f_equal. match goal with A : Forall2 _ l ?vs, B : Forall2 _ ?l0 ?vs |- _ => rename A into F, B into F', l0 into l1 end. clear H H'. revert l1 F'. induction F as [|x v l vs [Hx1 Hx2] F IHF]; intros l1 F'; inversion F' as [|y ? l2 ? [Hy1 Hy2]]; subst; [reflexivity|].
    inversion IH; subst. f_equal; [|apply IHF; assumption]. destruct x as [x1 x2], y as [y1 y2]. cbn [fst snd] in *. f_equal; [|eauto].
    apply b_inj. eapply decodes_fun; eassumption.
Qed.
