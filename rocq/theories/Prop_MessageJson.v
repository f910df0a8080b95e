(** C120: the JSON of messages. *)
From Verif Require Import Bytes Utf8 Utf8Proofs Oracles Ast AstSpec Visitors QueryMessages MessageSpec MessageProofs Prop_Messages ParseQuery ParserTop Json JsonSpec JsonProofs DecodeSpec
  Marshal MarshalSpec MarshalProofs Texts MessageJson MatchApi Prop_Match WasmProofs CmdProofs TestOracle.
From Verif Require GrammarFacts Prop_Grammar.
From Coq Require Import ZifyBool ZifyN ZifyNat.

(** json.Marshal writes a document too. *)
Definition member_short (x : bytes * (bytes * json)) : bytes := 34 :: fst x ++ 34 :: [58] ++ fst (snd x).
Lemma short_members (xs : list (bytes * (bytes * json))) : Forall (fun x => string_text (fst x) /\ value_text (fst (snd x)) (snd (snd x))) xs -> xs <> [] ->
  members_text (join [44] (map member_short xs)) (map (fun x => (fst x, snd (snd x))) xs).
Proof.
  assert (W : ws []) by constructor.
  induction 1 as [|x xs [Hk Hx] Hs IH]; intros Ne; [congruence|]. destruct xs as [|y xs].
  - cbn [map join]. unfold member_short.
    replace (34 :: fst x ++ 34 :: [58] ++ fst (snd x)) with ([] ++ 34 :: fst x ++ 34 :: [] ++ 58 :: [] ++ fst (snd x) ++ []) by (cbn [app]; now rewrite app_nil_r).
    now apply mb_one.
  - specialize (IH ltac:(discriminate)). change (join [44] (map member_short (x :: y :: xs))) with (member_short x ++ [44] ++ join [44] (map member_short (y :: xs))).
    set (l := y :: xs) in *. change (map (fun x => (fst x, snd (snd x))) (x :: l)) with ((fst x, snd (snd x)) :: map (fun x => (fst x, snd (snd x))) l).
    set (jj := join [44] (map member_short l)) in *. unfold member_short.
    replace ((34 :: fst x ++ 34 :: [58] ++ fst (snd x)) ++ [44] ++ jj) with ([] ++ 34 :: fst x ++ 34 :: [] ++ 58 :: [] ++ fst (snd x) ++ [] ++ 44 :: jj).
    2: { cbn [app]. rewrite <- !app_assoc. cbn [app]. reflexivity. }
    now apply mb_more.
Qed.
Lemma marshal_text t : value_text (marshal t) (json_of t).
Proof.
  induction t as [|z|s|l IH|l IH] using jtree_ind'.
  - constructor.
  - constructor. apply json_int_number.
  - constructor. apply escape_string.
  - destruct l as [|x l]; [apply (vt_arr0 []); constructor|].
    change (marshal (TList (x :: l))) with (91 :: join [44] (map marshal (x :: l)) ++ [93]). apply vt_arr.
    pose proof (elements_join [] [] (map (fun t => (marshal t, json_of t)) (x :: l)) ltac:(constructor) ltac:(constructor)) as J.
    rewrite Forall_map in J. specialize (J ltac:(exact IH) ltac:(discriminate) [] ltac:(constructor)).
    rewrite !map_map, app_nil_r in J. exact J.
  - destruct l as [|x l]; [apply (vt_obj0 []); constructor|].
    change (marshal (TObj (x :: l))) with (123 :: join [44] (map (fun m => json_string (b (fst m)) ++ [58] ++ marshal (snd m)) (x :: l)) ++ [125]). apply vt_obj.
    pose proof (short_members (map (fun m => (escape_fuel (length (b (fst m))) (b (fst m)), (marshal (snd m), json_of (snd m)))) (x :: l))) as J.
    rewrite Forall_map in J. specialize (J ltac:(eapply Forall_impl; [|exact IH]; intros a Ha; split; [apply escape_string|apply Ha]) ltac:(discriminate)).
    rewrite !map_map in J. cbn [fst snd] in J.
    replace (map (fun m => json_string (b (fst m)) ++ [58] ++ marshal (snd m)) (x :: l)) with
      (map (fun x0 : string * jtree => member_short (escape_fuel (length (b (fst x0))) (b (fst x0)), (marshal (snd x0), json_of (snd x0)))) (x :: l)); [exact J|].
    apply map_ext. intros m. unfold member_short, json_string. cbn [fst snd app]. rewrite <- !app_assoc. reflexivity.
Qed.
Lemma marshal_doc t : (levels t <= N.to_nat 10000)%nat -> document (marshal t) (json_of t).
Proof.
  intros L. exists [], (marshal t), []. rewrite app_nil_r. split; [reflexivity|]. split; [constructor|]. split; [apply marshal_text|]. split; [constructor|].
  rewrite json_of_nesting. lia.
Qed.
Lemma marshal_one t u : (levels t <= N.to_nat 10000)%nat -> (levels u <= N.to_nat 10000)%nat -> utf8_tree t -> utf8_tree u -> marshal t = marshal u -> t = u.
Proof.
  intros Lt Lu Ut Uu E. pose proof (marshal_doc t Lt) as Dt. pose proof (marshal_doc u Lu) as Du. rewrite E in Dt.
  apply parse_json_spec in Dt, Du. assert (Ej : json_of t = json_of u) by congruence.
  apply (shows_fun t (json_of t)); [now apply json_of_shows|]. rewrite Ej. now apply json_of_shows.
Qed.

(** What a message is: type, place with its length, text. *)
Definition facts : Type := msg_type * pos * bytes.
Definition utf8_facts (l : list facts) : Prop := Forall (fun x => is_utf8 (snd x)) l.

Lemma name_utf8 s : Forall (fun c => c < 128) (b s) -> is_utf8 (b s).
Proof. apply ascii_utf8. Qed.
Lemma messages_tree_utf8 a l : utf8_facts l -> utf8_tree (messages_tree a l).
Proof.
  intros U. destruct l as [|x l]; [constructor|]. unfold messages_tree. constructor. rewrite Forall_map. eapply Forall_impl; [|exact U].
  intros [[t p] m] Um. cbn [fst snd] in *.
  assert (K : forall s v, forallb (fun c => c <? 128) (b s) = true -> utf8_tree v -> is_utf8 (b (fst (s, v))) /\ utf8_tree (snd (s, v))).
  { intros s v H V. split; [|exact V]. apply name_utf8, Forall_forall. intros c I. rewrite forallb_forall in H. specialize (H c I). lia. }
  constructor. constructor; [|constructor; [|constructor; [|constructor]]]; apply K; try reflexivity.
  - constructor. constructor; [|constructor; [|constructor; [|constructor; [|constructor]]]]; apply K; try reflexivity; constructor.
  - now constructor.
  - destruct a; [|constructor]. constructor. destruct t; apply name_utf8; repeat constructor.
Qed.
Lemma messages_levels a l : (levels (messages_tree a l) <= 3)%nat.
Proof.
  destruct l as [|x l]; [cbn; lia|]. unfold messages_tree. generalize (x :: l) as k. clear x l. intros k. cbn [levels].
  assert (H : (fold_right (fun v n => Nat.max (levels v) n) 0 (map (fun x => message_tree a (fst (fst x)) (snd (fst x)) (snd x)) k) <= 2)%nat); [|lia].
  induction k as [|[[t p] m] k IH]; [cbn; lia|]. cbn [map fold_right fst snd]. destruct a; cbn -[Nat.max]; lia.
Qed.

(** The JSON is a document that shows the messages in order, *)
Theorem C120_document a l : exists j, document (marshal (messages_tree a l)) j /\ (utf8_facts l -> shows (messages_tree a l) j).
Proof.
  exists (json_of (messages_tree a l)). split; [apply marshal_doc; pose proof (messages_levels a l); lia|]. intros U. now apply json_of_shows, messages_tree_utf8.
Qed.
Print Assumptions C120_document.
(** and tells everything about them. *)
Theorem C120_injective a (l k : list facts) : utf8_facts l -> utf8_facts k -> marshal (messages_tree a l) = marshal (messages_tree a k) -> l = k.
Proof.
  intros Ul Uk E. apply marshal_one in E; try (now apply messages_tree_utf8); try (pose proof (messages_levels a l); pose proof (messages_levels a k); lia).
  assert (One : forall x y : facts, message_tree a (fst (fst x)) (snd (fst x)) (snd x) = message_tree a (fst (fst y)) (snd (fst y)) (snd y) -> x = y).
  { intros [[t p] m] [[t' p'] m'] H. destruct p as [p1 p2 p3 p4], p' as [q1 q2 q3 q4]. cbn in H. injection H as -> -> -> -> -> Ht. do 2 f_equal.
    destruct a, t, t'; try reflexivity; discriminate Ht. }
  destruct l as [|x l], k as [|y k]; try discriminate E; [reflexivity|]. apply (f_equal (fun t => match t with TList l => l | _ => [] end)) in E.
  revert E. unfold messages_tree. generalize (x :: l) as l', (y :: k) as k'. intros l'. clear -One. induction l' as [|z l' IH]; intros [|z' k'] E; try discriminate E; [reflexivity|].
  f_equal; [apply One; exact (f_equal (hd TNull) E)|apply IH; exact (f_equal (@tl _) E)].
Qed.
Print Assumptions C120_injective.

(** The messages of a matcher. *)
Definition message_facts (T : texts) (ms : list (message hint)) : list facts := map (fun m => (m_type m, m_pos m, hint_text T (m_text m))) ms.
Theorem C120_matcher O T q m : (forall r, is_utf8 (t_re_show T r)) -> new_matcher O q = NewOk m -> utf8_facts (message_facts T (mt_messages m)).
Proof.
  intros Sh Nm. destruct (proj1 (C21_accepts O q) (ex_intro _ m Nm)) as (t & P).
  destruct (C21_messages O q t m P Nm) as (bs & E & F). unfold utf8_facts, message_facts. rewrite Forall_map. apply Forall_forall. intros x Ix. cbn [snd].
  rewrite E in Ix. apply in_concat in Ix as (ms & Ib & Ix). destruct (Forall2_in_r _ _ _ F _ Ib) as ([[o f] v] & Iv & (M1 & M2 & _)).
  assert (G : gives O o f v (m_type x) (m_text x)) by (apply M2; eauto). apply tree_values_in in Iv as (vs & p & Sb & Iv).
  assert (A : forall s, forallb (fun c => c <? 128) (b s) = true -> is_utf8 (b s)).
  { intros s H. apply name_utf8, Forall_forall. intros c I. rewrite forallb_forall in H. specialize (H c I). lia. }
  assert (Re : forall r s u, v = ARegex r s u -> is_utf8 s).
  { intros r s u ->. apply Prop_Grammar.C03_language in P as (rs & Hs & -> & (w1 & a & w2 & -> & W1 & W2 & D) & C).
    destruct (GrammarFacts.derives_expr O _ _ _ _ _ _ _ _ D Sb) as (a' & k & z & Ea & _ & K). destruct (GrammarFacts.comparison_value_in O _ _ _ _ _ _ K Iv) as (a'' & k' & z' & E' & L).
    assert (Sk : scalars (w1 ++ a)) by (rewrite app_assoc in Hs; now apply Forall_app in Hs as [Hs _]).
    rewrite Ea, app_assoc in Sk. apply Forall_app in Sk as [Sk _]. rewrite E' in Sk. apply Forall_app in Sk as [_ Sk]. apply Forall_app in Sk as [Sk _].
    remember (ARegex r s u) as v0 eqn:Ev. destruct L as [t0 s0 p0 Q U|t0 v0 p0 R En|t0 v0 p0 R En|t0 v0 p0 R En|t0 v0 p0 R En|t0 v0 p0 R En|p0|p0]; try discriminate Ev; subst v0.
    - unfold new_regexp_val in En. destruct (o_re_parse O _); [|discriminate]. injection En as _ <- _. now apply (utf8_unescape (length t0)).
    - unfold new_time_val in En. destruct (Nat.eqb _ 10); [destruct (GoTime.parse_date _)|destruct (GoTime.parse_rfc3339 _)]; discriminate.
    - unfold new_net_val in En. cbv zeta in En. destruct (GoNet.parse_prefix _ _); discriminate.
    - unfold new_float_val in En. destruct (GoFloat.parse_float _ _) as [fl|]; [destruct fl|]; discriminate.
    - unfold new_int_val in En. destruct (GoStrconv.parse_int _); discriminate. }
  assert (Ff : Forall is_utf8 f).
  { apply Prop_Grammar.C03_language in P as (rs & Hs & -> & (w1 & a & w2 & -> & W1 & W2 & D) & C). eapply derives_fields; [exact D| |exact Sb].
    apply Forall_app in Hs as [_ Hs]. now apply Forall_app in Hs. }
  destruct G; cbn [hint_text]; try (apply A; reflexivity); repeat apply utf8_app; try (apply A; reflexivity); try (eapply Re; reflexivity); [apply Sh|].
  apply utf8_join; [apply A; reflexivity|exact Ff].
Qed.
Print Assumptions C120_matcher.

(** Type names are lost if the message is not reached through a pointer. *)
Theorem C120_value_refuted : exists t p msg, marshal (message_tree true t p msg) <> marshal (message_tree false t p msg) /\
  marshal (message_tree false t p msg) = b "{""position"":{""line"":1,""column"":5,""offset"":4,""length"":2},""message"":""\u003cx\u003e"",""type"":1}".
Proof.
  exists MHint, {| p_line := 1; p_col := 5; p_off := 4; p_len := 2 |}, (b "<x>"). split; [vm_compute; discriminate|vm_compute; reflexivity].
Qed.
Print Assumptions C120_value_refuted.
Definition ascii_texts : texts := {| t_re_error := fun _ => []; t_re_show := fun _ => b "x"; t_panic := []; t_type := []; t_other := [] |}.
Example C120_example : (forall r, is_utf8 (t_re_show ascii_texts r)) /\ exists m, new_matcher test_oracle (b "a:~""x""") = NewOk m /\
  marshal (messages_tree true (message_facts ascii_texts (mt_messages m))) =
    b "[{""position"":{""line"":1,""column"":4,""offset"":3,""length"":3},""message"":""Similarity comparison is deprecated for string values. Please use the normal comparison operator - field:\""\u003cstring\u003e\"""",""type"":""WARNING""}]".
Proof. split; [intros r; apply ascii_utf8; repeat constructor|]. eexists. split; vm_compute; reflexivity. Qed.
