(** C39, C40: networks. *)
From Verif Require Import Bytes Utf8 Utf8Proofs GoStrconv GoFloat GoTime GoNet Oracles Ast AstSpec Json JsonSpec JsonProofs Values StrMatch Matcher
  QueryMessages MatchApi MatchSpec MatchProofs MatcherTop Visitors ParseQuery TestOracle NetProofs NetSpec NetLitProofs SimpleQuery Prop_Match.
From Verif Require GrammarSpec Prop_Grammar.
From Coq Require Import ZifyBool ZifyN ZifyNat.

(** ** C39 *)
(** A network in an accepted query is the one its text denotes, read like the candidates. *)
Theorem C39_literal O q t o f vs p net s u : parse_plain O q = QOk t -> subnode (NExpr o f vs p) t -> In (ANet net s u) vs ->
  exists before own after, q = encode (before ++ own ++ after) /\ u = GrammarSpec.pos_of before own /\ denotes_net O own net.
Proof.
  intros P Sub I. destruct (Prop_Grammar.C06_literal_positions O q t o f vs p _ P Sub I) as (bf & own & af & E & L & Ep).
  exists bf, own, af. split; [exact E|]. split; [exact Ep|]. eapply net_literal_inv. exact L.
Qed.
Print Assumptions C39_literal.

(** Every text that denotes a network can be used as a literal. *)
Theorem C39_accepted O own net : denotes_net O own net ->
  exists s p p', parse_plain O (b "a:" ++ own) = QOk (NExpr EQ [b "a"] [ANet net s p] p').
Proof.
  intros D. pose proof (dotted_ascii _ (denotes_dotted _ _ _ D)) as A.
  destruct (net_literal O own (GrammarSpec.pos_of (GrammarSpec.tx "a" ++ GrammarSpec.tx ":") own) net D) as (s & L).
  pose proof (accept_one O (GrammarSpec.tx "a") [b "a"] own _ field_a ltac:(repeat constructor) (ascii_scalars _ A) L) as P.
  rewrite encode_ascii in P; [|apply Forall_app; split; [repeat constructor; vm_compute; reflexivity|apply Forall_app; split; [repeat constructor; vm_compute; reflexivity|exact A]]].
  exists s. do 2 eexists. exact P.
Qed.
Print Assumptions C39_accepted.

(** The comparison is set intersection with the candidates of the text. *)
Theorem C39_intersection O q f net s u p data j : parse_plain O q = QOk (NExpr EQ f [ANet net s u] p) ->
  document data j -> path_safe j f -> no_index j f ->
  answers O q data (Some true) <->
  exists x t cs c other, tested f j x /\ text_of O x t /\ candidates t cs /\ In c cs /\ denotes_net O c other /\
    exists a, in_net net a /\ in_net other a.
Proof.
  intros P D Sf Ni. rewrite (C29_scalars O q EQ f _ p data j P) by (auto; discriminate). split.
  - intros (x & S1 & S2 & v & [<-|[]] & E). cbn [equals] in E. destruct E as (t & Tx & cs & c & other & C & I & Dn & a & A).
    exists x, t, cs, c, other. split; [now split|]. eauto 10.
  - intros (x & t & cs & c & other & (S1 & S2) & Tx & C & I & Dn & A). exists x. split; [exact S1|]. split; [exact S2|].
    eexists. split; [now left|]. cbn [equals]. exists t. split; [exact Tx|]. exists cs, c, other. auto.
Qed.
Print Assumptions C39_intersection.
Example C39_hypotheses : exists t f net s u p j, parse_plain test_oracle (b "a.b:10.0.0.0/8") = QOk t /\ t = NExpr EQ f [ANet net s u] p /\
  subnode (NExpr EQ f [ANet net s u] p) t /\ document (b "{""a"":[{""b"":""from 10.1.2.3 to 11.0.0.1""}]}") j /\ path_safe j f /\ no_index j f /\
  candidates (b "from 10.1.2.3 to 11.0.0.1") [b "10.1.2.3"; b "11.0.0.1"] /\
  answers test_oracle (b "a.b:10.0.0.0/8") (b "{""a"":[{""b"":""from 10.1.2.3 to 11.0.0.1""}]}") (Some true).
Proof.
  do 7 eexists. split; [vm_compute; reflexivity|]. split; [reflexivity|]. split; [constructor|].
  split; [apply parse_json_spec; vm_compute; reflexivity|]. split; [exact I|]. split; [exact I|].
  split; [apply candidates_spec; vm_compute; reflexivity|].
  do 3 eexists. split; [vm_compute; reflexivity|]. split; [apply af_none|]. vm_compute. reflexivity.
Qed.

(** A document with one string member. *)
Definition doc_a (t : bytes) : bytes := b "{""a"":""" ++ t ++ b """}".
Lemma doc_a_document t : Forall (fun c => 46 <= c <= 57) t -> document (doc_a t) (JObj [(b "a", JStr t)]).
Proof.
  intros F. assert (St : string_text t) by (induction F as [|c t Hc _ IH]; constructor; auto; lia).
  exists [], (doc_a t), []. rewrite app_nil_r. split; [reflexivity|]. split; [constructor|]. split; [|split; [constructor|cbn; lia]].
  change (doc_a t) with (123 :: ([] ++ 34 :: b "a" ++ 34 :: [] ++ 58 :: [] ++ (34 :: t ++ [34; 125]))).
  replace (t ++ [34; 125]) with ((t ++ [34]) ++ [125]) by (now rewrite <- app_assoc).
  change (123 :: ([] ++ 34 :: b "a" ++ 34 :: [] ++ 58 :: [] ++ (34 :: (t ++ [34]) ++ [125])))
    with (123 :: ([] ++ 34 :: b "a" ++ 34 :: [] ++ 58 :: [] ++ (34 :: t ++ [34])) ++ [125]).
  apply vt_obj. rewrite <- (app_nil_r (34 :: t ++ [34])).
  apply (mb_one [] (b "a") [] [] (34 :: t ++ [34]) []); try constructor; try exact St; try lia; try constructor; vm_compute; discriminate.
Qed.
Lemma plain_unescape t : Forall (fun c => 46 <= c <= 57) t -> unescape t = Some t.
Proof.
  induction 1 as [|c t Hc _ IH]; [reflexivity|]. cbn [unescape]. replace (c =? 92) with false by (symmetry; apply N.eqb_neq; lia). now rewrite IH.
Qed.

Lemma single_tested raw s : tested [b "a"] (JObj [(b "a", JStr raw)]) s <-> s = JStr raw.
Proof.
  assert (M : forall c, member (b "a") (JObj [(b "a", JStr raw)]) c <-> c = JStr raw).
  { intros c. rewrite <- lookup_member. cbn. split; congruence. }
  split.
  - intros (Sc & [R|(els & R & I)]); inversion R as [? ? ? Hm|? ? ? ? ? Hm R'|? ? ? ? ? ? Hm Hi R']; subst; apply M in Hm; try congruence; inversion R'.
  - intros ->. split; [split; discriminate|]. left. apply rs_last. now apply M.
Qed.

(** A literal against a text that is an address or block: they share an address. *)
Theorem C39_pair O x y nx ny : denotes_net O x nx -> denotes_net O y ny ->
  answers O (b "a:" ++ x) (doc_a y) (Some true) <-> exists a, in_net nx a /\ in_net ny a.
Proof.
  intros Dx Dy. destruct (C39_accepted O x nx Dx) as (s & p & p' & P). pose proof (dotted_chars _ (denotes_dotted _ _ _ Dy)) as F.
  rewrite (C29_scalars O _ EQ _ _ _ _ _ P ltac:(discriminate) ltac:(discriminate) (doc_a_document y F) I I).
  pose proof (net_in_self O nx y ny Dy) as H. unfold meets in H. rewrite <- H. split.
  - intros (s' & S1 & S2 & v & [<-|[]] & E). cbn [equals] in E. destruct E as (t & Tx & E).
    assert (s' = JStr y) as -> by (apply single_tested; now split). inversion Tx as [raw t' U|]; subst. rewrite (plain_unescape y F) in U. now injection U as ->.
  - intros E. destruct (proj2 (single_tested y (JStr y)) eq_refl) as (S1 & S2). exists (JStr y). split; [exact S1|]. split; [exact S2|].
    eexists. split; [now left|]. exists y. split; [|exact E]. apply tof_string, plain_unescape, F.
Qed.
Print Assumptions C39_pair.

(** The test is symmetric. *)
Theorem C39_symmetric O x y nx ny : denotes_net O x nx -> denotes_net O y ny ->
  answers O (b "a:" ++ x) (doc_a y) (Some true) <-> answers O (b "a:" ++ y) (doc_a x) (Some true).
Proof.
  intros Dx Dy. rewrite (C39_pair O x y nx ny Dx Dy), (C39_pair O y x ny nx Dy Dx). split; intros (a & H1 & H2); exists a; auto.
Qed.
Print Assumptions C39_symmetric.

(** A plain address is a network with one element. *)
Theorem C39_plain_address O x net : denotes_net O x net -> ~ In 47 x -> forall a, in_net net a <-> a = p_addr net.
Proof.
  intros D Ns a. pose proof (denotes_ok O x net D) as (B & _). destruct D as [d1 d2 d3 d4 v1 v2 v3 v4 ? ? ? ? ? ? ? ?|d1 d2 d3 d4 n v1 v2 v3 v4 ? ? ? ? ? ? ? ? ? ? ?].
  - unfold in_net. cbn [p_bits p_addr] in *. change (2 ^ (32 - 32)) with 1. rewrite !N.div_1_r. split; [tauto|]. intros ->. auto.
  - exfalso. apply Ns. apply in_or_app. right. now left.
Qed.
Print Assumptions C39_plain_address.

Example C39_example :
  answers test_oracle (b "a:10.0.0.0/8") (doc_a (b "10.1.2.3")) (Some true) /\
  answers test_oracle (b "a:10.1.2.3") (doc_a (b "10.0.0.0/8")) (Some true) /\
  answers test_oracle (b "a:10.1.2.3") (doc_a (b "10.1.2.4")) (Some false) /\
  answers test_oracle (b "a:10.128.0.0/9") (doc_a (b "10.0.0.0/9")) (Some false) /\
  (exists n, denotes_net test_oracle (b "10.128.0.0/9") n).
Proof.
  repeat match goal with |- _ /\ _ => split end; try (do 3 eexists; (split; [vm_compute; reflexivity|]); (split; [apply af_none|]); vm_compute; reflexivity).
  eexists. apply (read_net_spec test_oracle); [|vm_compute; reflexivity].
  assert (Dg : forall n c d e, match c ++ d ++ e with l => (Nat.leb 1 (length l) && Nat.leb (length l) n && forallb (fun x => (48 <=? x) && (x <=? 57)) l) = true end -> digit_text n (c ++ d ++ e)).
  { intros n c d e H. apply andb_true_iff in H as (H & F). apply andb_true_iff in H as (H1 & H2). apply Nat.leb_le in H1, H2. rewrite forallb_forall in F.
    split; [intros E; rewrite E in H1; cbn in H1; lia|]. split; [exact H2|]. apply Forall_forall. intros x I. specialize (F x I). lia. }
  apply (dt_block (b "10") (b "128") (b "0") (b "0") (b "9")).
  - apply (Dg 3%nat [] [] (b "10")). reflexivity.
  - apply (Dg 3%nat [] [] (b "128")). reflexivity.
  - apply (Dg 3%nat [] [] (b "0")). reflexivity.
  - apply (Dg 3%nat [] [] (b "0")). reflexivity.
  - apply (Dg 2%nat [] [] (b "9")). reflexivity.
Qed.

(** ** C40 *)
(** The candidates that denote nothing: an octet above 255 or with a leading zero, a prefix
    length above 32 (or, in newer Go versions, with a leading zero). *)
Theorem C40_malformed O c : dotted c -> (~ exists net, denotes_net O c net) <-> malformed O c.
Proof. apply malformed_spec. Qed.
Print Assumptions C40_malformed.

(** If all candidates in all values are malformed, the comparison is false, without error. *)
Theorem C40_never_match O q f net s u p data j : parse_plain O q = QOk (NExpr EQ f [ANet net s u] p) ->
  document data j -> path_safe j f -> no_index j f ->
  (forall x t cs c, tested f j x -> text_of O x t -> candidates t cs -> In c cs -> malformed O c) ->
  answers O q data (Some false).
Proof.
  intros P D Sf Ni All. destruct (C24_meaning O q _ data j P D) as [_ H].
  { intros o' f' vs' p' Sub. inversion Sub; subst. now split. }
  apply H. cbn [holds]. intros (v & x & [<-|[]] & T & E). cbn [equals] in E. destruct E as (t & Tx & cs & c & other & C & I & Dn & _).
  pose proof (All x t cs c T Tx C I) as M. apply (malformed_spec O c) in M; [|eapply denotes_dotted; exact Dn]. apply M. eauto.
Qed.
Print Assumptions C40_never_match.

(** Parts of a text that are separated by another character do not affect each other. *)
Theorem C40_other_candidates O q f net s u p data j raw x sep y : parse_plain O q = QOk (NExpr EQ f [ANet net s u] p) ->
  document data j -> path_safe j f -> no_index j f -> (forall z, tested f j z <-> z = JStr raw) -> unescape raw = Some (x ++ sep :: y) -> separator sep ->
  answers O q data (Some true) <-> net_in_text O net x \/ net_in_text O net y.
Proof.
  intros P D Sf Ni Un U Sp. rewrite (C29_scalars O q EQ f _ p data j P) by (auto; discriminate).
  rewrite <- (net_in_parts O net x sep y Sp). split.
  - intros (z & S1 & S2 & v & [<-|[]] & t & Tx & E). assert (z = JStr raw) as -> by (apply Un; now split).
    inversion Tx as [raw' t' U'|]; subst. rewrite U in U'. now injection U' as ->.
  - intros E. destruct (proj2 (Un (JStr raw)) eq_refl) as (S1 & S2). exists (JStr raw). split; [exact S1|]. split; [exact S2|].
    eexists. split; [now left|]. exists (x ++ sep :: y). split; [now apply tof_string|exact E].
Qed.
Print Assumptions C40_other_candidates.
Example C40_hypotheses : exists f net s u p j, parse_plain test_oracle (b "a:0.0.0.0/0") = QOk (NExpr EQ f [ANet net s u] p) /\
  document (b "{""a"":""256.1.1.1 1.1.1.1/33""}") j /\ path_safe j f /\ no_index j f /\
  (forall z, tested f j z <-> z = JStr (b "256.1.1.1 1.1.1.1/33")) /\
  unescape (b "256.1.1.1 1.1.1.1/33") = Some (b "256.1.1.1" ++ 32 :: b "1.1.1.1/33") /\ separator 32 /\
  (forall x t cs c, tested f j x -> text_of test_oracle x t -> candidates t cs -> In c cs -> malformed test_oracle c).
Proof.
  exists [b "a"]. do 4 eexists. exists (JObj [(b "a", JStr (b "256.1.1.1 1.1.1.1/33"))]). split; [vm_compute; reflexivity|].
  split; [apply parse_json_spec; vm_compute; reflexivity|]. split; [exact I|]. split; [exact I|]. split; [apply single_tested|].
  split; [vm_compute; reflexivity|]. split; [left; reflexivity|].
  intros x t cs c T Tx C Hin. apply single_tested in T. subst x. inversion Tx as [raw t' U|]; subst. vm_compute in U. injection U as <-.
  pose proof (candidates_dotted _ _ C) as F. rewrite Forall_forall in F. apply (malformed_spec test_oracle c); [now apply F|].
  apply candidates_spec in C. vm_compute in C. subst cs. destruct Hin as [<-|[<-|[]]]; intros (net & D); apply read_net_spec in D;
    try (now eapply denotes_dotted; exact D); try (vm_compute in D; discriminate).
Qed.

Example C40_example :
  answers test_oracle (b "a:0.0.0.0/0") (b "{""a"":""256.1.1.1 01.1.1.1 1.1.1.1/33""}") (Some false) /\
  answers test_oracle (b "a:0.0.0.0/0") (b "{""a"":""256.1.1.1 1.1.1.1 1.1.1.1/33""}") (Some true) /\ separator 32.
Proof.
  split; [|split]; [do 3 eexists; (split; [vm_compute; reflexivity|]); (split; [apply af_none|]); vm_compute; reflexivity..|]. left. reflexivity.
Qed.
