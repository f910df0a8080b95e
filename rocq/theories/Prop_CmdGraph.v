(** C100: the program aqlgraph. *)
From Verif Require Import Bytes Utf8 Utf8Proofs GoFloat Oracles Ast ParseQuery StrMatch Graph CmdGraph TestOracle.
From Verif Require GrammarFacts.
From Coq Require Import ZifyBool ZifyN ZifyNat.

(** The name ends in the given letters, in upper or lower case. *)
Definition named (e name : bytes) : Prop := exists stem e', name = stem ++ e' /\ map lower_ascii e' = e.
(** No character outside ASCII has one of the letters of the two formats as its lower case. *)
Definition lower_apart (O : oracles) : Prop := forall c, 128 <= c -> ~ In (o_to_lower O c) (b ".svgdot").

Lemma decode_ascii n : forall s, (length s <= n)%nat -> Forall (fun c => c < 128) (decode_fuel n s) -> Forall (fun c => c < 128) s.
Proof.
  induction n as [|n IH]; intros s L F; [destruct s; [constructor|cbn in L; lia]|]. destruct s as [|c s]; [constructor|]. cbn [decode_fuel] in F. destruct (decode_rune (c :: s)) as [r w] eqn:D.
  inversion F as [|? ? Hr F']; subst. destruct (decode_rune_ok _ _ _ D) as (_ & E & Ew); [unfold rune_error; intros [= E _]; lia|discriminate|].
  rewrite encode_rune_ascii in E, Ew by exact Hr. cbn in Ew. subst w. cbn [skipn] in *. injection E as <-. constructor; [exact Hr|]. apply IH; [cbn in L; lia|exact F'].
Qed.
Lemma letters_small c : In c (b ".svgdot") -> 46 <= c <= 118.
Proof. intros I. cbn in I. repeat (destruct I as [<-|I]; [lia|]). destruct I. Qed.
Lemma lower_eq O s t : lower_apart O -> (forall c, In c t -> In c (b ".svgdot")) -> to_lower O s = t <-> map lower_ascii s = t.
Proof.
  intros La T. unfold to_lower. destruct (is_ascii s) eqn:A; [reflexivity|].
  assert (Na : ~ Forall (fun c => c < 128) s).
  { intros F. assert (X : is_ascii s = true); [|congruence]. apply forallb_forall. intros c I. rewrite Forall_forall in F. specialize (F c I). lia. }
  split.
  - intros E. exfalso. apply Na, (decode_ascii (length s)); [lia|]. fold (decode s). apply Forall_forall. intros c I. destruct (N.lt_ge_cases c 128) as [|G]; [assumption|exfalso].
    assert (Sub : forall x, In x (encode_rune (o_to_lower O c)) -> In x (b ".svgdot")).
    { intros x Ix. apply T. rewrite <- E. unfold encode. apply in_concat. exists (encode_rune (o_to_lower O c)). split; [|exact Ix]. apply in_map, in_map_iff. exists c. split; [|exact I]. unfold to_lower_rune. now replace (c <? 128) with false by lia. }
    destruct (N.lt_ge_cases (o_to_lower O c) 128) as [L|L].
    + apply (La c G), Sub. rewrite encode_rune_ascii by exact L. now left.
    + pose proof (GrammarFacts.encode_rune_high _ L) as H. pose proof (encode_rune_len (o_to_lower O c)) as Le. destruct (encode_rune (o_to_lower O c)) as [|x y]; [cbn in Le; lia|]. inversion H; subst.
      pose proof (letters_small x (Sub x (or_introl eq_refl))). lia.
  - intros E. exfalso. apply Na. subst t. apply Forall_forall. intros c I. pose proof (letters_small _ (T _ (in_map _ _ _ I))) as B. unfold lower_ascii in B. destruct ((65 <=? c) && (c <=? 90)) eqn:R; lia.
Qed.

(** The extension of a name that has dot and letters at its end. *)
Lemma ext_rev_app l : forall s acc, ~ In 46 l -> ~ In 47 l -> ext_rev (l ++ s) acc = ext_rev s (rev l ++ acc).
Proof.
  induction l as [|c l IH]; intros s acc N1 N2; [reflexivity|]. cbn [app ext_rev rev]. assert (c <> 47 /\ c <> 46) as (H1 & H2) by (split; intros ->; [apply N2|apply N1]; now left).
  replace (c =? 47) with false by lia. replace (c =? 46) with false by lia. rewrite IH; [now rewrite <- app_assoc|firstorder|firstorder].
Qed.
Lemma ext_rev_split s : forall acc e, ext_rev s acc = e -> e <> [] -> exists l s', s = l ++ 46 :: s' /\ e = 46 :: rev l ++ acc.
Proof.
  induction s as [|c s IH]; intros acc e E Ne; cbn in E; [congruence|]. destruct (c =? 47); [congruence|]. destruct (c =? 46) eqn:C.
  - exists [], s. split; [cbn; f_equal; lia|]. cbn. rewrite <- E. f_equal. lia.
  - destruct (IH _ _ E Ne) as (l & s' & -> & ->). exists (c :: l), s'. split; [reflexivity|]. cbn [rev]. now rewrite <- app_assoc.
Qed.
Lemma ext_named O n e : lower_apart O -> (forall c, In c (46 :: e) -> In c (b ".svgdot")) -> ~ In 46 e -> to_lower O (ext n) = 46 :: e <-> named (46 :: e) n.
Proof.
  intros La T Nd. rewrite (lower_eq O _ _ La T). unfold ext, named. split.
  - intros E. destruct (ext_rev (rev n) []) as [|c l] eqn:X; [discriminate|]. destruct (ext_rev_split _ _ _ X ltac:(discriminate)) as (l' & s' & Er & El).
    rewrite app_nil_r in El. exists (rev s'), (c :: l). split; [|exact E]. rewrite El. apply (f_equal (@rev N)) in Er. rewrite rev_involutive in Er. rewrite Er, rev_app_distr. cbn [rev]. now rewrite <- app_assoc.
  - intros (stem & e' & -> & E). destruct e' as [|c l]; [discriminate|]. cbn [map] in E. injection E as E1 E2.
    assert (c = 46) as -> by (unfold lower_ascii in E1; destruct ((65 <=? c) && (c <=? 90)) eqn:R; lia).
    assert (L : forall k, In k l -> k <> 46 /\ k <> 47).
    { intros k I. assert (J : In (lower_ascii k) e) by (rewrite <- E2; now apply in_map). split; intros ->; [now apply Nd|]. specialize (T _ (or_intror J)). cbn in T. repeat (destruct T as [T|T]; [discriminate T|]). destruct T. }
    rewrite rev_app_distr. cbn [rev]. rewrite <- app_assoc. rewrite ext_rev_app.
    + cbn. now rewrite rev_involutive, app_nil_r, E2.
    + intros I. apply in_rev in I. now apply L in I.
    + intros I. apply in_rev in I. now apply L in I.
Qed.
Lemma svg_named O n : lower_apart O -> beqb (to_lower O (ext n)) (b ".svg") = true <-> named (b ".svg") n.
Proof.
  intros La. rewrite beqb_eq. apply (ext_named O n (b "svg") La).
  - intros c I. cbn in I |- *. tauto.
  - cbn. intros I. repeat (destruct I as [I|I]; [discriminate I|]). destruct I.
Qed.
Lemma dot_named O n : lower_apart O -> beqb (to_lower O (ext n)) (b ".dot") = true <-> named (b ".dot") n.
Proof.
  intros La. rewrite beqb_eq. apply (ext_named O n (b "dot") La).
  - intros c I. cbn in I |- *. tauto.
  - cbn. intros I. repeat (destruct I as [I|I]; [discriminate I|]). destruct I.
Qed.
Lemma named_apart n : named (b ".svg") n -> named (b ".dot") n -> False.
Proof.
  intros (s1 & e1 & -> & E1) (s2 & e2 & E & E2).
  do 4 (destruct e1 as [|? e1]; [discriminate E1|]). destruct e1; [|discriminate E1].
  do 4 (destruct e2 as [|? e2]; [discriminate E2|]). destruct e2; [|discriminate E2].
  change [n; n0; n1; n2] with ([n; n0; n1] ++ [n2]) in E. change [n3; n4; n5; n6] with ([n3; n4; n5] ++ [n6]) in E. rewrite !app_assoc in E. apply app_inj_tail in E as (_ & ->).
  cbn in E1, E2. injection E1 as _ _ _ E1. injection E2 as _ _ _ E2. rewrite E1 in E2. discriminate E2.
Qed.

(** What happens to a query and the words after it. *)
Theorem C100_written O args svg name g : lower_apart O ->
  aqlgraph O args = GWrite svg name g <->
  exists program q rest, args = program :: q :: rest /\ query_graph O q = Some g /\
    match rest with
    | [] => name = b "query_graph.svg" /\ svg = true
    | n :: _ => name = n /\ named (if svg then b ".svg" else b ".dot") n
    end.
Proof.
  intros La. unfold aqlgraph. split.
  - destruct args as [|p [|q rest]]; try discriminate. intros E. exists p, q, rest. split; [reflexivity|].
    destruct rest as [|n rest].
    + destruct (query_graph O q); [|discriminate]. cbn in E. injection E as <- <- <-. auto.
    + destruct (query_graph O q); [|discriminate]. destruct (beqb (to_lower O (ext n)) (b ".svg")) eqn:X.
      * apply (svg_named O n La) in X. injection E as <- <- <-. auto.
      * destruct (beqb (to_lower O (ext n)) (b ".dot")) eqn:Y; [|discriminate]. apply (dot_named O n La) in Y. injection E as <- <- <-. auto.
  - intros (p & q & rest & -> & Q & R). destruct rest as [|n rest]; rewrite Q.
    + destruct R as (-> & ->). reflexivity.
    + destruct R as (-> & R). destruct svg.
      * apply (svg_named O n La) in R. now rewrite R.
      * pose proof (proj2 (dot_named O n La) R) as Y. destruct (beqb (to_lower O (ext n)) (b ".svg")) eqn:X; [|now rewrite Y].
        apply (svg_named O n La) in X. now destruct (named_apart n X R).
Qed.

(** A query and a name suffice for a file exactly when the query is accepted and the name says
    which kind of file; a rejected query is reported whatever the name. *)
Theorem C100_refused O program q rest : lower_apart O ->
  (aqlgraph O (program :: q :: rest) = GRejected <-> ~ exists t, parse_plain O q = QOk t) /\
  ((exists e, aqlgraph O (program :: q :: rest) = GUnknown e) <->
   (exists t, parse_plain O q = QOk t) /\ exists n more, rest = n :: more /\ ~ named (b ".svg") n /\ ~ named (b ".dot") n) /\
  aqlgraph O (program :: q :: rest) <> GUsage.
Proof.
  intros La. unfold aqlgraph, query_graph. destruct (parse_plain O q) as [t| | |] eqn:P.
  - destruct rest as [|n more].
    + cbn. split; [|split; [|discriminate]].
      * split; [discriminate|]. intros H. destruct H. eauto.
      * split; [intros (e & E); discriminate|]. intros (_ & n & more & E & _). discriminate.
    + pose proof (svg_named O n La) as Sv. pose proof (dot_named O n La) as Do.
      destruct (beqb (to_lower O (ext n)) (b ".svg")); [|destruct (beqb (to_lower O (ext n)) (b ".dot"))].
      * split; [split; [discriminate|intros H; destruct H; eauto]|]. split; [|discriminate]. split; [intros (e & E); discriminate|]. intros (_ & n' & more' & E & H & _). injection E as <- <-. now destruct H; apply Sv.
      * split; [split; [discriminate|intros H; destruct H; eauto]|]. split; [|discriminate]. split; [intros (e & E); discriminate|]. intros (_ & n' & more' & E & _ & H). injection E as <- <-. now destruct H; apply Do.
      * split; [split; [discriminate|intros H; destruct H; eauto]|]. split; [|discriminate]. split; [|intros _; eauto]. intros _. split; [eauto|]. exists n, more. split; [reflexivity|]. split; intros H; [apply Sv in H|apply Do in H]; discriminate.
  - split; [|split];
    [ split; [intros _ (t & E); discriminate|destruct rest; reflexivity]
    | split; [intros (x & E); destruct rest; discriminate|intros ((t & E) & _); discriminate]
    | destruct rest; discriminate ].
  - split; [|split];
    [ split; [intros _ (t & E); discriminate|destruct rest; reflexivity]
    | split; [intros (x & E); destruct rest; discriminate|intros ((t & E) & _); discriminate]
    | destruct rest; discriminate ].
  - split; [|split];
    [ split; [intros _ (t & E); discriminate|destruct rest; reflexivity]
    | split; [intros (x & E); destruct rest; discriminate|intros ((t & E) & _); discriminate]
    | destruct rest; discriminate ].
Qed.

(** Without a query only the usage line is printed. *)
Theorem C100_usage O args : lower_apart O -> aqlgraph O args = GUsage <-> (length args < 2)%nat.
Proof.
  intros La. destruct args as [|p [|q rest]]; cbn [length]; [split; [lia|reflexivity]..|]. split; [|lia].
  intros E. now destruct (proj2 (proj2 (C100_refused O p q rest La))).
Qed.

(** The example's oracle meets the condition on lower case. *)
Lemma test_apart : lower_apart test_oracle.
Proof. intros c L I. cbn in I. repeat (destruct I as [I|I]; [lia|]). destruct I. Qed.
(** Not vacuous: a query with a name in capitals, without a name, with a name of neither kind, and a
    dot in a directory. *)
Example C100_example :
  (exists g, aqlgraph test_oracle [b "aqlgraph"; b "a:1"; b "out/Q.DOT"] = GWrite false (b "out/Q.DOT") g) /\
  (exists g, aqlgraph test_oracle [b "aqlgraph"; b "a:1"] = GWrite true (b "query_graph.svg") g) /\
  aqlgraph test_oracle [b "aqlgraph"; b "a:1"; b "q.png"] = GUnknown (b ".png") /\
  aqlgraph test_oracle [b "aqlgraph"; b "a:1"; b "x.svg/q"] = GUnknown [] /\
  aqlgraph test_oracle [b "aqlgraph"; b "a:"; b "q.svg"] = GRejected.
Proof. split; [eexists; vm_compute; reflexivity|]. split; [eexists; vm_compute; reflexivity|]. repeat split; vm_compute; reflexivity. Qed.
