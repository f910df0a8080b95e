(** C97: the JSON the programs write. C98: the tree on the web page. *)
From Verif Require Import Bytes Utf8 Utf8Proofs Oracles Ast ParseQuery Json JsonSpec JsonProofs DecodeSpec Marshal MarshalSpec MarshalProofs Wasm WasmProofs Prop_Wasm TestOracle.
From Coq Require Import ZifyBool ZifyN ZifyNat.

(** The text is a JSON document; if all texts in the tree are UTF-8 it shows exactly them. *)
Theorem C97_document t text : marshal_indent t = Some text ->
  exists j, document text j /\ (utf8_tree t -> shows t j).
Proof. intros E. exists (json_of t). split; [now apply marshal_document|apply json_of_shows]. Qed.
Print Assumptions C97_document.

(** No text for trees nested more than 10000 deep, and only for them. *)
Theorem C97_depth t : marshal_indent t = None <-> (N.to_nat 10000 < levels t)%nat.
Proof.
  rewrite marshal_indent_pretty. destruct (fits (levels t) 0) eqn:E; unfold fits in E.
  - split; [discriminate|lia].
  - split; [lia|reflexivity].
Qed.
Print Assumptions C97_depth.

(** Different trees have different texts. *)
Theorem C97_injective t u text : utf8_tree t -> utf8_tree u ->
  marshal_indent t = Some text -> marshal_indent u = Some text -> t = u.
Proof. apply marshal_inj. Qed.
Print Assumptions C97_injective.

(** The text can be put into a web page: no character with a meaning in HTML, no control
    character but the end of line. *)
Definition harmless (c : N) : Prop := c <> 38 /\ c <> 60 /\ c <> 62 /\ (32 <= c \/ c = 10).
Lemma harmless_rune r : is_scalar r = true -> 128 <= r -> Forall harmless (encode_rune r).
Proof.
  intros Sc H. rewrite encode_rune_scalar by exact Sc. apply scalar_spec in Sc. unfold encode_raw, harmless.
  replace (r <? 128) with false by lia. destruct (r <? 2048); [|destruct (r <? 65536)]; repeat (constructor; [lia|]); constructor.
Qed.
Lemma harmless_hex v : v < 16 -> harmless (hex_lower v).
Proof. unfold hex_lower, harmless. destruct (v <? 10) eqn:E; lia. Qed.
Lemma harmless_escape n : forall s, Forall harmless (escape_fuel n s).
Proof.
  assert (H1 : forall x, 39 <= x -> x <> 60 -> x <> 62 -> harmless x) by (unfold harmless; lia).
  induction n as [|n IH]; intros s; [constructor|]. destruct s as [|c s]; [constructor|]. cbn [escape_fuel].
  destruct (c <? 128) eqn:E.
  { apply Forall_app. split; [|apply IH]. destruct (html_safe c) eqn:Hs.
    - unfold html_safe in Hs. constructor; [unfold harmless; lia|constructor].
    - unfold escape_byte. destruct ((c =? 92) || (c =? 34)) eqn:E1; [constructor; [unfold harmless; lia|constructor; [unfold harmless; lia|constructor]]|].
      destruct (c =? 10); [constructor; [apply H1; cbn; lia|constructor; [apply H1; cbn; lia|constructor]]|].
      destruct (c =? 13); [constructor; [apply H1; cbn; lia|constructor; [apply H1; cbn; lia|constructor]]|].
      destruct (c =? 9); [constructor; [apply H1; cbn; lia|constructor; [apply H1; cbn; lia|constructor]]|].
      change (b "\u00") with [92; 117; 48; 48]. apply Forall_app. split; [repeat (constructor; [apply H1; lia|]); constructor|].
      constructor; [apply harmless_hex, N.div_lt_upper_bound; lia|constructor; [apply harmless_hex, N.mod_lt; lia|constructor]]. }
  destruct (decode_rune (c :: s)) as [r w] eqn:D. destruct ((r =? rune_error) && Nat.eqb w 1) eqn:E2.
  { change (b "\uff") with [92; 117; 102; 102]. change (b "fd") with [102; 100]. apply Forall_app. split; [repeat (constructor; [apply H1; lia|]); constructor|].
    apply Forall_app. split; [repeat (constructor; [apply H1; lia|]); constructor|apply IH]. }
  assert (Nr : (r, w) <> (rune_error, 1%nat)) by (intros [= -> ->]; now rewrite N.eqb_refl in E2).
  destruct (decode_rune_ok _ _ _ D Nr ltac:(discriminate)) as (Sc & Es & Ew).
  destruct ((r =? 8232) || (r =? 8233)) eqn:E3.
  { change (b "\u202") with [92; 117; 50; 48; 50]. apply Forall_app. split; [repeat (constructor; [apply H1; lia|]); constructor|].
    apply Forall_app. split; [constructor; [apply harmless_hex, N.mod_lt; lia|constructor]|apply IH]. }
  apply Forall_app. split; [|apply IH]. replace (firstn w (c :: s)) with (encode_rune r).
  - apply harmless_rune; [exact Sc|].
    assert (c = hd 0 (encode_rune r ++ skipn w (c :: s))) as Hc by (rewrite <- Es; reflexivity).
    destruct (r <? 128) eqn:R; [|lia]. rewrite encode_rune_ascii in Hc by lia. cbn in Hc. lia.
  - rewrite Es. generalize (skipn w (c :: s)). intros z. rewrite Ew. rewrite firstn_app, firstn_all, Nat.sub_diag. cbn. now rewrite app_nil_r.
Qed.
Lemma harmless_newline d : Forall harmless (newline d).
Proof.
  unfold newline. constructor; [unfold harmless; lia|]. induction d as [|d IH]; cbn [repeat concat]; [constructor|]. apply Forall_app. split; [|exact IH].
  change (b "  ") with [32; 32]. repeat (constructor; [unfold harmless; lia|]). constructor.
Qed.
Lemma harmless_string s : Forall harmless (json_string s).
Proof. unfold json_string. apply Forall_app. split; [|apply Forall_app; split; [apply harmless_escape|]]; (constructor; [unfold harmless; lia|constructor]). Qed.
Lemma harmless_join sep l : Forall harmless sep -> Forall (Forall harmless) l -> Forall harmless (join sep l).
Proof.
  intros Hs. induction 1 as [|x l Hx Hl IH]; [constructor|]. destruct l as [|y l]; [exact Hx|].
  change (join sep (x :: y :: l)) with (x ++ sep ++ join sep (y :: l)). apply Forall_app. split; [exact Hx|]. apply Forall_app. now split.
Qed.
Lemma harmless_pretty t : forall d, Forall harmless (pretty d t).
Proof.
  assert (H1 : forall x, 39 <= x -> x <> 60 -> x <> 62 -> Forall harmless [x]) by (unfold harmless; intros; constructor; [lia|constructor]).
  induction t as [|z|s|l IH|l IH] using jtree_ind'; intros d.
  - change (pretty d TNull) with [110; 117; 108; 108]. unfold harmless. repeat (constructor; [lia|]). constructor.
  - cbn [pretty]. apply Forall_forall. intros c I. apply json_int_chars in I. unfold harmless. lia.
  - apply harmless_string.
  - destruct l as [|x l]; [change (pretty d (TList [])) with [91; 93]; unfold harmless; repeat (constructor; [lia|]); constructor|].
    change (pretty d (TList (x :: l))) with ([91] ++ newline (S d) ++ join (44 :: newline (S d)) (map (pretty (S d)) (x :: l)) ++ newline d ++ [93]).
    apply Forall_app. split; [apply H1; lia|]. apply Forall_app. split; [apply harmless_newline|]. apply Forall_app. split.
    + apply harmless_join; [constructor; [unfold harmless; lia|apply harmless_newline]|]. rewrite Forall_map. eapply Forall_impl; [|exact IH]. intros y Hy. apply Hy.
    + apply Forall_app. split; [apply harmless_newline|apply H1; lia].
  - destruct l as [|x l]; [change (pretty d (TObj [])) with [123; 125]; unfold harmless; repeat (constructor; [lia|]); constructor|].
    change (pretty d (TObj (x :: l))) with ([123] ++ newline (S d) ++ join (44 :: newline (S d)) (map (fun m => json_string (b (fst m)) ++ [58; 32] ++ pretty (S d) (snd m)) (x :: l)) ++ newline d ++ [125]).
    apply Forall_app. split; [apply H1; lia|]. apply Forall_app. split; [apply harmless_newline|]. apply Forall_app. split.
    + apply harmless_join; [constructor; [unfold harmless; lia|apply harmless_newline]|]. rewrite Forall_map. eapply Forall_impl; [|exact IH]. intros y Hy.
      apply Forall_app. split; [apply harmless_string|]. apply Forall_app. split; [unfold harmless; repeat (constructor; [lia|]); constructor|apply Hy].
    + apply Forall_app. split; [apply harmless_newline|apply H1; lia].
Qed.
Theorem C97_html t text : marshal_indent t = Some text -> Forall harmless text.
Proof. rewrite marshal_indent_pretty. destruct (fits _ _); [|discriminate]. intros [= <-]. apply harmless_pretty. Qed.
Print Assumptions C97_html.

(** How deep the document for a query is nested: a comparison with values has three levels (itself, the list of the
    values, the values), one without values two (itself and the path), a connective one more than its parts. *)
Fixpoint nested_levels (n : node) : nat :=
  match n with
  | NAnd l r | NOr l r => S (Nat.max (nested_levels l) (nested_levels r))
  | NNot e => S (nested_levels e)
  | NExpr _ _ [] _ => 2
  | NExpr _ _ (_ :: _) _ => 3
  end.
Lemma levels_node t : levels (tree_of_node t) = nested_levels t.
Proof.
  assert (F : forall f : list bytes, fold_right (fun v n => Nat.max (levels v) n) 0%nat (map TStr f) = 0%nat) by (intros f; induction f as [|x f IH]; [reflexivity|cbn in *; exact IH]).
  assert (V : forall vs, (fold_right (fun v n => Nat.max (levels v) n) 0%nat (map tree_of_val vs) <= 1)%nat) by (intros vs; induction vs as [|x vs IH]; cbn [map fold_right tree_of_val levels] in *; lia).
  induction t as [l IHl r IHr|l IHl r IHr|e IH|o f vs p]; cbn [tree_of_node levels fold_right snd nested_levels].
  - rewrite IHl, IHr. lia.
  - rewrite IHl, IHr. lia.
  - rewrite IH. lia.
  - rewrite F. cbn [tree_of_pos levels fold_right snd]. destruct vs as [|v vs]; [reflexivity|]. cbn [levels map fold_right tree_of_val]. specialize (V vs). lia.
Qed.
(** The page shows the tree of an accepted query as a JSON document, exactly if it has at most 10000 levels. *)
Theorem C98_page O q t : parse_plain O q = QOk t ->
  ((nested_levels t <= N.to_nat 10000)%nat -> exists text ms j, p_wrap O q = WebRes text ms /\ document text j /\ shows (tree_of_node t) j) /\
  ((N.to_nat 10000 < nested_levels t)%nat -> forall text ms, p_wrap O q <> WebRes text ms).
Proof.
  intros P. rewrite <- levels_node. split; intros L.
  - destruct (shallow_text _ L) as (tree & E & _). destruct (C97_document _ _ E) as (j & D & Sh). exists tree. do 2 eexists.
    rewrite (accepted_web O q t P), E. split; [reflexivity|]. split; [exact D|]. apply Sh. eapply accepted_utf8. exact P.
  - intros text ms. rewrite (accepted_web O q t P), (proj2 (C97_depth (tree_of_node t)) L). discriminate.
Qed.
Print Assumptions C98_page.
Example C98_levels_example : exists t, parse_plain test_oracle (b "a:(1,2) AND !(b:null OR !c:exists)") = QOk t /\ nested_levels t = 6%nat /\
  forall n, exists u, parse_plain test_oracle (encode (chain n)) = QOk u /\ nested_levels u = (n + 2)%nat.
Proof.
  eexists. split; [vm_compute; reflexivity|]. split; [reflexivity|]. intros n. destruct (chain_accepted test_oracle n) as (u & P & L). exists u. split; [exact P|]. now rewrite <- levels_node.
Qed.
(** But not for all accepted queries. *)
Theorem C98_page_refuted O : exists q t, parse_plain O q = QOk t /\ forall text ms, p_wrap O q <> WebRes text ms.
Proof.
  destruct (chain_accepted O (N.to_nat 9999)) as (t & P & L). exists (encode (chain (N.to_nat 9999))), t. split; [exact P|]. intros text ms.
  rewrite (accepted_web O _ t P). rewrite (proj2 (C97_depth (tree_of_node t))) by lia. discriminate.
Qed.
Print Assumptions C98_page_refuted.

Example C97_example : exists t text j, parse_plain test_oracle (b """<é"":exists AND b:1") = QOk t /\
  marshal_indent (tree_of_node t) = Some text /\ parse_json text = Some j /\ utf8_tree (tree_of_node t) /\
  firstn 91 text = b "{
  ""Left"": {
    ""Op"": ""exists"",
    ""Field"": [
      ""\u00" ++ b "3cé""
    ],
    ""RVals"": null,".
Proof.
  do 3 eexists. split; [vm_compute; reflexivity|]. split; [vm_compute; reflexivity|]. split; [vm_compute; reflexivity|].
  split; [|vm_compute; reflexivity]. apply (accepted_utf8 test_oracle (b """<é"":exists AND b:1")). vm_compute. reflexivity.
Qed.
Example C98_example : exists t, parse_plain test_oracle (b "a:(1, true) AND NOT b:exists") = QOk t /\ (levels (tree_of_node t) <= N.to_nat 10000)%nat.
Proof. eexists. split; [vm_compute; reflexivity|]. apply small. vm_compute. reflexivity. Qed.
