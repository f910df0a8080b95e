(** C105: what a rejected query is said to be continued with. *)
From Verif Require Import Bytes Utf8 Utf8Proofs Oracles Ast PegSyntax Grammar Engine GrammarSpec ShapeSpec Visitors ParseQuery
  Viable ViableForm Expected ExpectedSpec Prop_Viable TestOracle.
From Coq Require Import ZifyBool ZifyN ZifyNat Sorting.Sorted.

(** ** The list *)
Lemma leb_antisym_false x y : String.leb x y = false -> String.leb y x = true.
Proof. intros H. destruct (String.leb_total x y); congruence. Qed.
Lemma insert_In x l y : In y (insert_str x l) <-> y = x \/ In y l.
Proof.
  induction l as [|z l IH]; cbn; [intuition|]. destruct (String.leb x z); cbn; [intuition|]. rewrite IH. intuition.
Qed.
Lemma sort_In l y : In y (sort_strings l) <-> In y l.
Proof. induction l as [|x l IH]; cbn; [tauto|]. rewrite insert_In, IH. intuition. Qed.
Lemma expected_In l w : In w (expected l) <-> (In w l /\ w <> "!."%string) \/ (w = "EOF"%string /\ In "!."%string l).
Proof.
  unfold expected. rewrite in_app_iff, sort_In, filter_In, nodup_In, negb_true_iff, String.eqb_neq.
  destruct (existsb _ _) eqn:E.
  - apply existsb_exists in E as (x & Hx & E). apply String.eqb_eq in E. subst x. apply nodup_In in Hx. cbn. intuition.
  - split; [intros [H|[]]; auto|]. intros [H|(_ & H)]; [auto|]. exfalso. assert (existsb (String.eqb "!.") (nodup string_dec l) = true); [|congruence].
    apply existsb_exists. exists "!."%string. split; [now apply nodup_In|reflexivity].
Qed.

(** ** The entries *)
Ltac item_inv H :=
  match type of H with
  | stands_for _ _ => inversion H as [? ? Hin|? Hc|? Hc|? Hc|? Hc|? Hc|? Hc|? Hc|? Hc]; subst; clear H;
      try (cbn [In written] in Hin; repeat (destruct Hin as [Hin|Hin]; [first [discriminate Hin|injection Hin as <-]|]); try contradiction)
  end.
Lemma lit_means s ic want t : In (ELit s ic want) atoms -> stands_for want t -> L (ELit s ic want) t /\ scalars t.
Proof.
  intros Hin. cbn [In atoms] in Hin. repeat (destruct Hin as [Hin|Hin]; [first [discriminate Hin|injection Hin as <- <- <-]|]); try contradiction;
    intros H; item_inv H;
    try (split; [apply L_lit; reflexivity|repeat constructor]).
  all: split; [apply L_lit; destruct Hc; subst; reflexivity|]; destruct Hc; subst; repeat constructor.
Qed.
Lemma class_means want chars ranges ic invd t : In (EClass want chars ranges ic invd) atoms -> stands_for want t ->
  L (EClass want chars ranges ic invd) t /\ scalars t.
Proof.
  intros Hin. cbn [In atoms] in Hin. repeat (destruct Hin as [Hin|Hin]; [first [discriminate Hin|injection Hin as <- <- <- <- <-]|]); try contradiction;
    intros H; item_inv H.
  all: try (unfold name_char, hex, digit, ws_char in Hc).
  all: split; [apply L_class; unfold lower_if, in_class, to_lower; cbn -[N.leb N.eqb N.add xorb]; rewrite xorb_false_l|constructor; [|constructor]; apply scalar_spec].
  all: try lia.
  all: try (repeat match goal with |- context[if ?b then _ else _] => destruct b eqn:? end; lia).
  all: cbn in Hc; repeat (destruct Hc as [<-|Hc]; [first [reflexivity|lia]|]); contradiction.
Qed.
Lemma item_meaning e want : In e atoms -> want <> anything ->
  (exists s ic, e = ELit s ic want) \/ (exists chars ranges ic invd, e = EClass want chars ranges ic invd) -> exists t, stands_for want t.
Proof.
  intros Hin Na [(s & ic & ->)|(chars & ranges & ic & invd & ->)]; cbn [In atoms] in Hin.
  - repeat (destruct Hin as [Hin|Hin]; [first [discriminate Hin|injection Hin as <- <- <-]|]); try contradiction; eexists;
      first [apply sf_t; now left|apply sf_z; now left|eapply sf_written; cbn [In written]; repeat (first [left; reflexivity|right])].
  - repeat (destruct Hin as [Hin|Hin]; [first [discriminate Hin|injection Hin as <- <- <- <- <-]|]); try contradiction;
      first [exfalso; apply Na; reflexivity|idtac].
    + exists [97]. apply sf_name. unfold name_char. lia.
    + exists [98]. apply sf_escape. vm_compute. auto.
    + exists [97]. apply sf_hex. unfold hex. lia.
    + exists [48]. apply sf_digit. unfold digit. lia.
    + exists [60]. apply sf_order. auto.
    + exists [32]. apply sf_space. now left.
Qed.

Theorem C105_suggestions O q e l : parse_plain O q = QErr (QSyntax e) -> pe_kind e = KNoMatch l ->
  exists before after, q = encode before ++ after /\ scalars before /\
    p_off (qerr_pos (QSyntax (E := unit) (T := unit) e)) = Z.of_nat (length (encode before)) /\
    forall item, In item (error_expected (pe_kind e)) -> item <> anything ->
      (item = "EOF"%string /\ query_form before) \/
      (item <> "EOF"%string /\ (exists t, stands_for item t) /\
       forall t, stands_for item t -> exists more, scalars more /\ query_form (before ++ t ++ more)).
Proof.
  intros P K. unfold parse_plain, parse_query in P.
  destruct (parse O q) as [v|e0 es|] eqn:E; [|cbn in P; injection P as ->|discriminate P].
  - destruct v; try discriminate P. destruct (walk_validator O n); discriminate P.
  - assert (Nk : pe_kind e <> KInvalidEncoding) by (rewrite K; discriminate).
    destruct (first_error_full O q e es E Nk) as (bf & af & H1 & H2 & H3 & _ & _ & H5). exists bf, af. do 3 (split; [assumption|]).
    rewrite K. cbn [error_expected]. destruct (H5 l K) as (Hs & Ha & _). clear H5. intros item Hi Na. apply expected_In in Hi as [(Hi & Ne)|(-> & Hi)].
    + rewrite Forall_forall in Hs. specialize (Hs item Hi). rewrite forallb_forall in Ha. specialize (Ha item Hi). apply negb_true_iff in Ha.
      assert (At : (exists e, In e atoms /\ ((exists s ic, e = ELit s ic item) \/ (exists chars ranges ic invd, e = EClass item chars ranges ic invd)) /\
        forall w, scalars w -> L e w -> V0 (bf ++ w))).
      { inversion Hs as [s ic want Hin HL|want chars ranges ic invd Hin HL|c _ _| | |w Hn]; subst; eauto 10.
        - discriminate Ha.
        - congruence.
        - destruct Na. reflexivity.
        - unfold aside in Ha. rewrite Hn in Ha. now rewrite orb_true_r in Ha. }
      destruct At as (e0 & Hin & Hw & HL). right. split; [|split; [now apply (item_meaning e0)|]].
      * intros ->. destruct (item_meaning e0 "EOF" Hin Na Hw) as (t & Ht). clear Hin Hw HL. item_inv Ht.
      * intros t Ht. assert (Lt : L e0 t /\ scalars t).
        { destruct Hw as [(s & ic & ->)|(chars & ranges & ic & invd & ->)]; [now apply lit_means|now apply class_means]. }
        destruct Lt as (Lt & St). destruct (HL t St Lt) as (z & Sz & Lz). exists z. split; [exact Sz|]. rewrite app_assoc. now apply form_query.
    + left. split; [reflexivity|]. rewrite Forall_forall in Hs. specialize (Hs _ Hi).
      inversion Hs as [s ic want Hin HL|want chars ranges ic invd Hin HL|c _ _|Hc|Hf|w Hn].
      * exfalso. cbn [In atoms] in Hin. repeat (destruct Hin as [Hin|Hin]; [discriminate Hin|]). contradiction.
      * exfalso. cbn [In atoms] in Hin. repeat (destruct Hin as [Hin|Hin]; [discriminate Hin|]). contradiction.
      * now apply form_query.
      * discriminate Hn.
Qed.


(** ** The order of the list *)
Lemma insert_sorted x l : Sorted (fun a c => String.leb a c = true) l -> Sorted (fun a c => String.leb a c = true) (insert_str x l).
Proof.
  induction 1 as [|y l Hs IH Hd]; cbn; [repeat constructor|]. destruct (String.leb x y) eqn:E; [repeat (constructor; auto)|].
  constructor; [exact IH|]. apply leb_antisym_false in E. destruct Hd as [|z l Hz]; cbn in *; [constructor; exact E|]. destruct (String.leb x z); constructor; auto.
Qed.
Lemma sort_sorted l : Sorted (fun a c => String.leb a c = true) (sort_strings l).
Proof. induction l as [|x l IH]; cbn; [constructor|]. now apply insert_sorted. Qed.
Lemma insert_nodup x l : ~ In x l -> NoDup l -> NoDup (insert_str x l).
Proof.
  intros Nx H. induction H as [|y l Ny Hl IH]; cbn; [repeat constructor; auto|]. destruct (String.leb x y).
  - repeat (constructor; auto).
  - cbn in Nx. constructor; [rewrite insert_In; intuition|]. apply IH. tauto.
Qed.
Lemma sort_nodup l : NoDup l -> NoDup (sort_strings l).
Proof. induction 1 as [|x l Nx Hl IH]; cbn; [constructor|]. apply insert_nodup; [now rewrite sort_In|exact IH]. Qed.

(** No entry is repeated; the entries are in the order of their bytes, EOF comes last. *)
Theorem C105_order O q e l : parse_plain O q = QErr (QSyntax e) -> pe_kind e = KNoMatch l ->
  NoDup (error_expected (pe_kind e)) /\
  exists items tail, error_expected (pe_kind e) = items ++ tail /\ Sorted (fun a c => String.leb a c = true) items /\
    ~ In "EOF"%string items /\ (tail = [] \/ tail = ["EOF"%string]).
Proof.
  intros P K. destruct (C105_suggestions O q e l P K) as (bf & af & _ & _ & _ & H). rewrite K in *. cbn [error_expected] in *. 
  assert (Ne : ~ In "EOF"%string (sort_strings (filter (fun w => negb (String.eqb w "!.")) (nodup string_dec l)))).
  { rewrite sort_In, filter_In, nodup_In. intros (Hin & _).
    assert (Nk : pe_kind e <> KInvalidEncoding) by (rewrite K; discriminate).
    unfold parse_plain, parse_query in P. destruct (parse O q) as [v|e0 es|] eqn:E; [|cbn in P; injection P as ->|discriminate P].
    { destruct v; try discriminate P. destruct (walk_validator O n); discriminate P. }
    destruct (first_error_full O q e es E Nk) as (bf' & _ & _ & _ & _ & _ & _ & H5). destruct (H5 l K) as (Hs & _).
    rewrite Forall_forall in Hs. specialize (Hs _ Hin). inversion Hs as [s ic want Ha HL|want chars ranges ic invd Ha HL| | | |w Hn].
    - cbn [In atoms] in Ha. repeat (destruct Ha as [Ha|Ha]; [discriminate Ha|]). contradiction.
    - cbn [In atoms] in Ha. repeat (destruct Ha as [Ha|Ha]; [discriminate Ha|]). contradiction.
    - discriminate Hn. }
  unfold expected. split.
  - destruct (existsb _ _).
    + apply NoDup_Add with (a := "EOF"%string) (l := sort_strings (filter (fun w => negb (String.eqb w "!.")) (nodup string_dec l))).
      * rewrite <- (app_nil_r (sort_strings _)) at 1. apply Add_app.
      * split; [|exact Ne]. apply sort_nodup, NoDup_filter, NoDup_nodup.
    + rewrite app_nil_r. apply sort_nodup, NoDup_filter, NoDup_nodup.
  - eexists _, _. split; [reflexivity|]. split; [apply sort_sorted|]. split; [exact Ne|]. destruct (existsb _ _); auto.
Qed.

(** ** What is suggested in place of a value *)
Lemma name_only f r x : field_form f -> f ++ r = 97 :: 58 :: x -> r = 58 :: x.
Proof.
  assert (PF : forall p r, piece_form p -> p ++ r = 97 :: 58 :: x -> r = 58 :: x).
  { intros p r0 [(bd & -> & _)|[(Nc & Ne)| ->]] E; [discriminate E| |discriminate E].
    destruct p as [|c p]; [congruence|]. cbn in E. injection E as -> E. destruct p as [|c p]; [exact E|]. cbn in E. injection E as -> _.
    exfalso. inversion Nc as [|? ? _ Nc']; subst. inversion Nc' as [|? ? Hc _]; subst. unfold name_char, digit in Hc. lia. }
  destruct 1 as [p Hp|p u Hp _]; [now apply PF|]. rewrite <- app_assoc. intros E. apply PF in E; [|exact Hp]. discriminate E.
Qed.
Lemma ws_only w r c x : ws w -> ~ ws_char c -> w ++ r = c :: x -> r = c :: x.
Proof. intros H Nc E. destruct H as [|y w Hy _]; [exact E|]. cbn in E. injection E as -> _. contradiction. Qed.
Lemma digits1_head d r x : digits1 d -> d ++ r = 41 :: x -> False.
Proof. intros (Hd & Ne) E. destruct Hd as [|c d Hc _]; [congruence|]. injection E as -> _. unfold digit in Hc. lia. Qed.
Lemma ndigits_head n d r x : ndigits (S n) d -> d ++ r = 41 :: x -> False.
Proof. intros (Hd & Hl) E. apply (digits1_head d r x); auto. split; [exact Hd|]. intros ->. discriminate Hl. Qed.
Lemma sign_head s d r x : sign s -> s ++ d ++ r = 41 :: x -> digits1 d -> False.
Proof. intros [-> | ->] E Hd; [exact (digits1_head _ _ _ Hd E)|discriminate E]. Qed.
Lemma value_head v r x : value_form v -> v ++ r = 41 :: x -> False.
Proof.
  assert (Dt : forall d r x, date_lit d -> d ++ r = 41 :: x -> False).
  { intros d r0 x0 (y & m & dd & -> & Hy & _) E. rewrite <- app_assoc in E. exact (ndigits_head _ _ _ _ Hy E). }
  intros H E. destruct H as [(bd & -> & _)|[(bd & -> & _)|[[(d & s & u & -> & Hd & _)|Hd]|[(o1 & o2 & o3 & o4 & m & -> & (Hd & _) & _)|[(s & d & e & -> & Hs & Hd & _)|[(s & d & -> & Hs & Hd)|[-> | ->]]]]]]];
    try discriminate E.
  - rewrite <- app_assoc in E. exact (Dt _ _ _ Hd E).
  - exact (Dt _ _ _ Hd E).
  - rewrite <- app_assoc in E. exact (digits1_head _ _ _ Hd E).
  - rewrite <- !app_assoc in E. exact (sign_head _ _ _ _ Hs E Hd).
  - rewrite <- app_assoc in E. exact (sign_head _ _ _ _ Hs E Hd).
Qed.
Lemma no_clause l t : clause_form l t -> forall r x, t ++ r = 97 :: 58 :: 41 :: x -> False.
Proof.
  induction 1 as [a w1 w2 c W1 W2 _ IHa _ _|a _ IHa|a w1 w2 c W1 W2 _ IHa _ _|a _ IHa|n a Hn _ _|a _ IHa|w1 w2 a W1 W2 _ _
    |f w1 w2 k F W1 W2 K|f w1 w2 k w3 v F W1 W2 K W3 Vs]; intros r x E; eauto.
  - rewrite <- app_assoc in E. eauto.
  - rewrite <- app_assoc in E. eauto.
  - destruct Hn; discriminate E.
  - discriminate E.
  - rewrite <- app_assoc in E. apply name_only in E; [|exact F]. rewrite <- app_assoc in E. apply ws_only in E; [|exact W1|unfold ws_char; lia].
    cbn in E. injection E as E. rewrite <- app_assoc in E. apply ws_only in E; [|exact W2|unfold ws_char; lia]. destruct K as [-> | ->]; discriminate E.
  - rewrite <- app_assoc in E. apply name_only in E; [|exact F]. rewrite <- app_assoc in E. apply ws_only in E; [|exact W1|unfold ws_char; lia].
    cbn in E. injection E as E. rewrite <- !app_assoc in E. apply ws_only in E; [|exact W2|unfold ws_char; lia].
    assert (Ek : w3 ++ v ++ r = 41 :: x) by (destruct K as [-> |[-> |[-> |[-> |[-> |[-> | ->]]]]]]; try discriminate E; exact E).
    apply ws_only in Ek; [|exact W3|unfold ws_char; lia]. destruct Vs; [eapply value_head; eauto|discriminate Ek].
Qed.

(** Behind the colon of [a:] anything but white space is said to be expected, a closing
    parenthesis for example; no query begins like this. *)
Theorem C105_anything_refuted : exists q before e l, q = encode before /\ (forall O, parse_plain O q = QErr (QSyntax e)) /\ pe_kind e = KNoMatch l /\
  p_off (qerr_pos (QSyntax (E := unit) (T := unit) e)) = Z.of_nat (length (encode before)) /\
  In anything (error_expected (pe_kind e)) /\ forall more, ~ query_form (before ++ [41] ++ more).
Proof.
  exists (b "a:"), (tx "a:"). do 2 eexists. split; [reflexivity|]. split; [intros O; vm_compute; reflexivity|]. split; [reflexivity|]. split; [reflexivity|].
  split; [apply expected_In; left; split; [|discriminate]; unfold anything; repeat (first [left; reflexivity|right])|].
  intros more (w1 & a & w2 & E & W1 & _ & F). symmetry in E. change (w1 ++ a ++ w2 = 97 :: 58 :: 41 :: more) in E. apply ws_only in E; [|exact W1|unfold ws_char; lia].
  exact (no_clause _ _ F _ _ E).
Qed.

(** ** The text of the error *)
(** Commas between the entries, the word or before the last. *)
Inductive listed : list string -> string -> Prop :=
| li_one x : listed [x] x
| li_two x y : listed [x; y] (x ++ " or " ++ y)%string
| li_more x y z l text : listed (y :: z :: l) text -> listed (x :: y :: z :: l) (x ++ ", " ++ text)%string.
Lemma string_app_assoc (x y z : string) : ((x ++ y) ++ z = x ++ (y ++ z))%string.
Proof. induction x as [|c x IH]; cbn; [reflexivity|]. now rewrite IH. Qed.
Lemma listed_concat l : forall x y, listed (l ++ [x; y]) (String.concat ", " (l ++ [x]) ++ " or " ++ y)%string.
Proof.
  induction l as [|z l IH]; intros x y; [apply li_two|]. cbn [app]. specialize (IH x y).
  assert (E : String.concat ", " (z :: l ++ [x]) = (z ++ ", " ++ String.concat ", " (l ++ [x]))%string) by (destruct l; reflexivity).
  rewrite E, !string_app_assoc. destruct l as [|w l]; [apply li_more; exact IH|]. cbn [app] in IH |- *. destruct l as [|v l]; apply li_more; exact IH.
Qed.
(** It lists the entries in this order. *)
Theorem C105_text l : expected l <> [] -> exists text, no_match_text l = ("no match found, expected: " ++ text)%string /\ listed (expected l) text.
Proof.
  unfold no_match_text. generalize (expected l) as k. clear l. intros k Ne. eexists. split; [reflexivity|]. unfold list_join.
  destruct (rev k) as [|y r] eqn:E; apply (f_equal (@rev string)) in E; rewrite rev_involutive in E; subst k; [contradiction Ne; reflexivity|].
  cbn [rev]. destruct r as [|x r]; [apply li_one|]. cbn [rev]. rewrite <- app_assoc. exact (listed_concat (rev r) x y).
Qed.
Print Assumptions C105_text.

(** A query that is cut off after a blank. *)
Example C105_example : forall O, exists e l, parse_plain O (b "(a:exists ") = QErr (QSyntax e) /\ pe_kind e = KNoMatch l /\
  error_expected (pe_kind e) = [""")"""; """AND"""; """OR"""; "[ \n\t\r]"]%string /\
  no_match_text l = "no match found, expected: "")"", ""AND"", ""OR"" or [ \n\t\r]"%string.
Proof. intros O. do 2 eexists. split; [vm_compute; reflexivity|]. split; [reflexivity|]. split; vm_compute; reflexivity. Qed.
Example C105_example_end : forall O, exists e l, parse_plain O (b "a:1 b") = QErr (QSyntax e) /\ pe_kind e = KNoMatch l /\
  error_expected (pe_kind e) = ["""AND"""; """OR"""; "[ \n\t\r]"; "EOF"]%string.
Proof. intros O. do 2 eexists. split; [vm_compute; reflexivity|]. split; [reflexivity|]. vm_compute; reflexivity. Qed.
