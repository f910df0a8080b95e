(** Network literals denote what the candidates in texts denote; candidates of a text made of
    separate parts. *)
From Verif Require Import Bytes Utf8 Utf8Proofs GoStrconv GoFloat GoTime GoNet Oracles Ast AstSpec ParseQuery Json Values StrMatch MatchSpec NetProofs NetSpec DateProofs.
From Verif Require GrammarSpec.
From Coq Require Import ZifyBool ZifyN ZifyNat.

Lemma digit_text_gram n t : digit_text n t -> GrammarSpec.digits1 t /\ (length t <= n)%nat.
Proof. intros (N & L & F). split; [split; [exact F|exact N]|exact L]. Qed.
Lemma gram_digit_text n t : GrammarSpec.digits1 t -> (length t <= n)%nat -> digit_text n t.
Proof. intros (F & N) L. split; [exact N|]. split; [exact L|exact F]. Qed.

Lemma dotted_ip_lit t : dotted t <-> GrammarSpec.ip_lit t.
Proof.
  split.
  - intros [d1 d2 d3 d4 D1 D2 D3 D4|d1 d2 d3 d4 n D1 D2 D3 D4 Dn].
    + exists d1, d2, d3, d4, []. rewrite app_nil_r. split; [reflexivity|]. repeat (split; [now apply digit_text_gram|]). now left.
    + exists d1, d2, d3, d4, (47 :: n). split; [repeat (rewrite <- app_assoc; cbn [app]); reflexivity|].
      repeat (split; [now apply digit_text_gram|]). right. exists n. split; [reflexivity|]. now apply digit_text_gram.
  - intros (d1 & d2 & d3 & d4 & m & -> & (O1 & L1) & (O2 & L2) & (O3 & L3) & (O4 & L4) & M).
    apply (gram_digit_text 3) in O1, O2, O3, O4; auto. destruct M as [->|(n & -> & Dn & Ln)].
    + rewrite app_nil_r. now apply (dt_addr d1 d2 d3 d4).
    + replace (d1 ++ GrammarSpec.tx "." ++ d2 ++ GrammarSpec.tx "." ++ d3 ++ GrammarSpec.tx "." ++ d4 ++ GrammarSpec.tx "/" ++ n)
        with ((d1 ++ 46 :: d2 ++ 46 :: d3 ++ 46 :: d4) ++ 47 :: n) by (repeat (rewrite <- app_assoc; cbn [app]); reflexivity).
      apply dt_block; auto. now apply gram_digit_text.
Qed.
Lemma dotted_chars t : dotted t -> Forall (fun c => 46 <= c <= 57) t.
Proof.
  assert (G : forall n d, digit_text n d -> Forall (fun c => 46 <= c <= 57) d).
  { intros n d (_ & _ & F). eapply Forall_impl; [|exact F]. cbn. lia. }
  intros [d1 d2 d3 d4 D1 D2 D3 D4|d1 d2 d3 d4 n D1 D2 D3 D4 Dn];
    repeat (first [apply Forall_app; split|constructor; [lia|]]); eauto.
Qed.
Lemma dotted_ascii t : dotted t -> Forall (fun c => c < 128) t.
Proof. intros D. eapply Forall_impl; [|exact (dotted_chars t D)]. cbn. lia. Qed.
Lemma denotes_dotted O t p : denotes_net O t p -> dotted t.
Proof. intros []; [now apply dt_addr|now apply dt_block]. Qed.

(** The value of a network literal. *)
Lemma net_value O t p : dotted t -> new_net_val O t p =
  match read_net O t with Some q => Some (ANet q (if has_byte 47 t then t else t ++ b "/32") p) | None => None end.
Proof.
  intros D. unfold new_net_val, net_text, read_net. destruct (has_byte 47 t) eqn:H; [now destruct (parse_prefix _ t)|].
  destruct D as [d1 d2 d3 d4 D1 D2 D3 D4|d1 d2 d3 d4 n D1 D2 D3 D4 Dn].
  - fold (quad d1 d2 d3 d4). change (quad d1 d2 d3 d4 ++ b "/32") with (quad d1 d2 d3 d4 ++ 47 :: b "32").
    rewrite parse_block, parse_quad; auto; [|split; [discriminate|split; [cbn; lia|repeat (constructor; [vm_compute; split; discriminate|]); constructor]]].
    change (plain_b (b "32")) with true. change (decimal 0 (b "32")) with 32. rewrite orb_true_r, !andb_true_r.
    destruct (octet_b d1 && octet_b d2 && octet_b d3 && octet_b d4); reflexivity.
  - exfalso. unfold has_byte in H. assert (T : existsb (N.eqb 47) ((d1 ++ 46 :: d2 ++ 46 :: d3 ++ 46 :: d4) ++ 47 :: n) = true); [|congruence].
    apply existsb_exists. exists 47. split; [|reflexivity]. apply in_or_app. right. now left.
Qed.
Lemma net_literal O t p q : denotes_net O t q -> exists s, GrammarSpec.literal O t p (ANet q s p).
Proof.
  intros Dn. pose proof (denotes_dotted _ _ _ Dn) as D. eexists. apply GrammarSpec.lit_ip; [now apply dotted_ip_lit|].
  rewrite (encode_ascii _ (dotted_ascii _ D)), net_value by exact D. apply (read_net_spec O t q D) in Dn. now rewrite Dn.
Qed.
Lemma net_literal_inv O t p q s u : GrammarSpec.literal O t p (ANet q s u) -> denotes_net O t q.
Proof.
  intros L. inversion L as [|? ? ? R N|? ? ? R N|? ? ? R N|? ? ? R N|? ? ? R N| |]; subst.
  - unfold new_regexp_val in N. destruct (o_re_parse O _); discriminate.
  - unfold new_time_val in N. destruct (Nat.eqb _ _); [destruct (parse_date _)|destruct (parse_rfc3339 _)]; discriminate.
  - apply dotted_ip_lit in R. rewrite (encode_ascii _ (dotted_ascii _ R)), net_value in N by exact R.
    destruct (read_net O t) as [q'|] eqn:E; [|discriminate]. injection N as <- _ _. now apply (read_net_spec O t q' R).
  - unfold new_float_val in N. destruct (parse_float _ _) as [g|]; [|discriminate]. destruct g; discriminate.
  - unfold new_int_val in N. destruct (parse_int _); discriminate.
Qed.

(** A text that is one candidate has no other. *)
Lemma candidates_nil cs : candidates [] cs -> cs = [].
Proof.
  intros H. remember [] as e eqn:E. destruct H as [s N|bf c rest cs D _ _ _]; [reflexivity|]. exfalso.
  apply app_eq_nil in E as [_ E]. apply app_eq_nil in E as [E _]. now apply (dotted_nonempty c D).
Qed.
Lemma candidates_self t cs : dotted t -> candidates t cs -> cs = [t].
Proof.
  intros D H. destruct H as [t N|bf c rest cs' Dc Lg Er C].
  - exfalso. apply (N [] t t eq_refl D). exists []. now rewrite app_nil_r.
  - destruct bf as [|x bf].
    + cbn [app] in *. assert (L : (length (c ++ rest) <= length c)%nat) by (apply Lg; [exact D|exists []; now rewrite app_nil_r]).
      rewrite app_length in L. destruct rest; [|cbn in L; lia]. rewrite app_nil_r. now rewrite (candidates_nil _ C).
    + exfalso. apply (Er [] (x :: bf) (x :: bf ++ c ++ rest) eq_refl); [discriminate|exact D|]. exists []. now rewrite app_nil_r.
Qed.
Lemma candidates_exist t : exists cs, candidates t cs.
Proof. eexists. now apply candidates_spec. Qed.
Lemma candidates_fun t cs cs' : candidates t cs -> candidates t cs' -> cs = cs'.
Proof. intros H H'. apply candidates_spec in H, H'. congruence. Qed.

Lemma denotes_fun O t p q : denotes_net O t p -> denotes_net O t q -> p = q.
Proof. intros H H'. pose proof (denotes_dotted _ _ _ H) as D. apply (read_net_spec O t _ D) in H, H'. congruence. Qed.

Lemma net_in_self O p t q : denotes_net O t q -> net_in_text O p t <-> meets p q.
Proof.
  intros Dn. pose proof (denotes_dotted _ _ _ Dn) as D. split.
  - intros (cs & c & q' & C & I & Dn' & M). rewrite (candidates_self t cs D C) in I. destruct I as [<-|[]].
    now rewrite (denotes_fun O t q q' Dn Dn').
  - intros M. destruct (candidates_exist t) as (cs & C). exists cs, t, q. split; [exact C|]. rewrite (candidates_self t cs D C). split; [now left|]. auto.
Qed.

(** Parts separated by a character that no candidate contains. *)
Lemma starts_before x sep y c v u : separator sep -> dotted c -> x ++ sep :: y = u ++ v -> starts c v ->
  (exists v', x = u ++ v' /\ starts c v') \/ exists u', sep :: y = u' ++ v /\ u = x ++ u' /\ u' <> [].
Proof.
  intros Sp D E (r & ->). revert u E. induction x as [|a x IH]; intros u E.
  - destruct u as [|h u].
    + exfalso. cbn [app] in E. pose proof (dotted_chars c D) as F. destruct c as [|h c]; [now apply dotted_nonempty in D|].
      injection E as -> _. inversion F; subst. unfold separator in Sp. lia.
    + right. exists (h :: u). split; [exact E|]. split; [reflexivity|discriminate].
  - destruct u as [|h u].
    + change ((a :: x) ++ sep :: y = c ++ r) in E. left. exists (a :: x). split; [reflexivity|].
      clear IH. pose proof (dotted_chars c D) as F. clear D. revert E F. generalize (a :: x). intros l. revert c. induction l as [|h l IH]; intros c E F.
      * destruct c as [|h c]; [exists []; reflexivity|]. cbn in E. injection E as -> _. inversion F; subst. unfold separator in Sp. cbn beta in *. lia.
      * destruct c as [|h' c]; [exists (h :: l); reflexivity|]. cbn in E. injection E as -> E. destruct (IH c E (Forall_inv_tail F)) as (r' & ->). exists r'. reflexivity.
    + injection E as -> E. destruct (IH u E) as [(v' & -> & St)|(u' & E' & -> & N)].
      * left. exists v'. auto.
      * right. exists u'. auto.
Qed.

Lemma candidates_app x sep y cs1 cs2 : separator sep -> candidates x cs1 -> candidates y cs2 -> candidates (x ++ sep :: y) (cs1 ++ cs2).
Proof.
  intros Sp H1 H2. induction H1 as [x N|bf c rest cs D Lg Er C IH].
  - cbn [app]. destruct H2 as [y N2|bf c rest cs D Lg Er C].
    + apply cd_none. intros u v c E D St. destruct (starts_before x sep y c v u Sp D E St) as [(v' & E' & St')|(u' & E' & _ & Nn)].
      * exact (N u v' c E' D St').
      * destruct u' as [|h u']; [congruence|]. injection E' as <- E'. exact (N2 u' v c E' D St).
    + change (x ++ sep :: bf ++ c ++ rest) with (x ++ (sep :: bf) ++ c ++ rest). rewrite app_assoc. apply cd_found; auto.
      intros u v c' E Nv D' St. assert (E2 : x ++ sep :: (bf ++ c ++ rest) = u ++ (v ++ c ++ rest)).
      { transitivity ((x ++ sep :: bf) ++ c ++ rest); [now rewrite <- app_assoc|]. rewrite E. now rewrite <- app_assoc. }
      destruct (starts_before x sep (bf ++ c ++ rest) c' (v ++ c ++ rest) u Sp D' E2 St) as [(v' & E' & St')|(u' & E' & Eu & Nn)].
      * exact (N u v' c' E' D' St').
      * destruct u' as [|h u']; [congruence|]. injection E' as <- E'. subst u. apply (Er u' v c'); auto.
        rewrite <- app_assoc in E. apply app_inv_head in E. now injection E.
  - replace ((bf ++ c ++ rest) ++ sep :: y) with (bf ++ c ++ (rest ++ sep :: y)) by (now rewrite <- !app_assoc).
    cbn [app]. apply cd_found; [exact D| | |exact IH].
    + intros c' D' St. apply Lg; [exact D'|]. rewrite app_assoc in St.
      destruct (starts_before (c ++ rest) sep y c' ((c ++ rest) ++ sep :: y) [] Sp D' eq_refl St) as [(v' & E' & St')|(u' & _ & E' & Nn)].
      * cbn in E'. now subst v'.
      * symmetry in E'. apply app_eq_nil in E' as [_ ->]. congruence.
    + intros u v c' E Nv D' St. subst bf.
      destruct (starts_before ((u ++ v) ++ c ++ rest) sep y c' (v ++ c ++ rest ++ sep :: y) u Sp D') as [(v' & E' & St')|(u' & E' & Eu & Nn)].
      * now rewrite <- !app_assoc.
      * exact St.
      * rewrite <- app_assoc in E'. apply app_inv_head in E'. subst v'. exact (Er u v c' eq_refl Nv D' St').
      * rewrite <- app_assoc in Eu. apply (f_equal (@length N)) in Eu. rewrite !app_length in Eu. destruct u'; [congruence|]. cbn in Eu. lia.
Qed.

Lemma net_in_parts O p x sep y : separator sep -> net_in_text O p (x ++ sep :: y) <-> net_in_text O p x \/ net_in_text O p y.
Proof.
  intros Sp. destruct (candidates_exist x) as (cs1 & C1). destruct (candidates_exist y) as (cs2 & C2).
  pose proof (candidates_app x sep y cs1 cs2 Sp C1 C2) as C. split.
  - intros (cs & c & q & C' & I & H). rewrite (candidates_fun _ _ _ C' C) in I. apply in_app_or in I as [I|I]; [left; exists cs1|right; exists cs2]; exists c, q; auto.
  - intros [(cs & c & q & C' & I & H)|(cs & c & q & C' & I & H)]; exists (cs1 ++ cs2), c, q; (split; [exact C|]); (split; [|exact H]); apply in_or_app.
    + left. now rewrite <- (candidates_fun _ _ _ C' C1).
    + right. now rewrite <- (candidates_fun _ _ _ C' C2).
Qed.

Lemma bad_octet_spec d : digit_text 3 d -> octet_b d = false <-> bad_octet d.
Proof.
  intros (N & L & F). unfold octet_b, bad_octet. destruct d as [|c [|c' r]]; [congruence| |].
  - split; [intros H; left; lia|]. intros [H|(r & [= _ <-] & H)]; [lia|congruence].
  - rewrite andb_false_iff, negb_false_iff, N.eqb_eq. split.
    + intros [->|H]; [right; exists (c' :: r); split; [reflexivity|discriminate]|left; lia].
    + intros [H|(r' & [= -> <-] & _)]; [right; lia|now left].
Qed.
Lemma plain_false n : digit_text 2 n -> plain_b n = false <-> exists r, n = 48 :: r /\ r <> [].
Proof.
  intros (N & _ & _). destruct n as [|c [|c' r]]; [congruence| |]; cbn.
  - split; [discriminate|]. intros (r & [= _ <-] & H). congruence.
  - rewrite negb_false_iff, N.eqb_eq. split; [intros ->; exists (c' :: r); split; [reflexivity|discriminate]|]. now intros (r' & [= -> _] & _).
Qed.

Lemma malformed_spec O c : dotted c -> (~ exists q, denotes_net O c q) <-> malformed O c.
Proof.
  intros D. assert (R : (~ exists q, denotes_net O c q) <-> read_net O c = None).
  { destruct (read_net O c) as [q|] eqn:E.
    - split; [intros H; exfalso; apply H; exists q; now apply (read_net_spec O c q D)|discriminate].
    - split; [reflexivity|]. intros _ (q & H). apply (read_net_spec O c q D) in H. congruence. }
  rewrite R. clear R.
  assert (Sp : forall d1 d2 d3 d4 e1 e2 e3 e4 r r', digit_text 3 d1 -> digit_text 3 d2 -> digit_text 3 d3 -> digit_text 3 d4 ->
     digit_text 3 e1 -> digit_text 3 e2 -> digit_text 3 e3 -> digit_text 3 e4 -> (r = [] \/ exists n, r = 47 :: n) -> (r' = [] \/ exists n, r' = 47 :: n) ->
     (d1 ++ 46 :: d2 ++ 46 :: d3 ++ 46 :: d4) ++ r = (e1 ++ 46 :: e2 ++ 46 :: e3 ++ 46 :: e4) ++ r' -> d1 = e1 /\ d2 = e2 /\ d3 = e3 /\ d4 = e4 /\ r = r').
  { assert (One : forall x y : bytes, Forall (fun c => 48 <= c <= 57) x -> Forall (fun c => 48 <= c <= 57) y -> forall a u v, a < 48 -> x ++ a :: u = y ++ v ->
        (v = [] \/ exists a' v', v = a' :: v' /\ a' < 48) -> x = y /\ v = a :: u).
    { induction x as [|h x IH]; intros [|h' y] Fx Fy a u v Ha E V; cbn in E.
      - auto.
      - injection E as -> E. inversion Fy; subst. lia.
      - destruct V as [->|(a' & v' & -> & Ha')]; [discriminate|]. injection E as -> E. inversion Fx; subst. lia.
      - injection E as -> E. destruct (IH y (Forall_inv_tail Fx) (Forall_inv_tail Fy) a u v Ha E V) as [-> ->]. auto. }
    intros d1 d2 d3 d4 e1 e2 e3 e4 r r' (_ & _ & D1) (_ & _ & D2) (_ & _ & D3) (_ & _ & D4) (_ & _ & E1) (_ & _ & E2) (_ & _ & E3) (_ & _ & E4) Hr Hr' E.
    repeat (rewrite <- app_assoc in E; cbn [app] in E).
    destruct (One d1 e1 D1 E1 46 _ _ ltac:(lia) E ltac:(right; do 2 eexists; split; [reflexivity|lia])) as (-> & E'). injection E' as E'. symmetry in E'.
    destruct (One d2 e2 D2 E2 46 _ _ ltac:(lia) E' ltac:(right; do 2 eexists; split; [reflexivity|lia])) as (-> & E''). injection E'' as E''. symmetry in E''.
    destruct (One d3 e3 D3 E3 46 _ _ ltac:(lia) E'' ltac:(right; do 2 eexists; split; [reflexivity|lia])) as (-> & E3'). injection E3' as E3'. symmetry in E3'.
    assert (Hr2 : r' = [] \/ exists a' v', r' = a' :: v' /\ a' < 48) by (destruct Hr' as [->|(n & ->)]; [now left|right; do 2 eexists; split; [reflexivity|lia]]).
    assert (Hr3 : r = [] \/ exists a' v', r = a' :: v' /\ a' < 48) by (destruct Hr as [->|(n & ->)]; [now left|right; do 2 eexists; split; [reflexivity|lia]]).
    destruct Hr as [->|(n & ->)].
    - destruct Hr' as [->|(n' & ->)]; [rewrite !app_nil_r in E3'; auto|].
      symmetry in E3'. destruct (One e4 d4 E4 D4 47 _ _ ltac:(lia) E3' Hr3) as (_ & X). discriminate.
    - destruct (One d4 e4 D4 E4 47 _ _ ltac:(lia) E3' Hr2) as (-> & ->). auto. }
  destruct D as [d1 d2 d3 d4 D1 D2 D3 D4|d1 d2 d3 d4 n D1 D2 D3 D4 Dn]; unfold read_net.
  - fold (quad d1 d2 d3 d4). rewrite (has_byte_false 47) by (now apply quad_no_slash). rewrite parse_quad by auto.
    transitivity (octet_b d1 && octet_b d2 && octet_b d3 && octet_b d4 = false); [destruct (octet_b d1 && octet_b d2 && octet_b d3 && octet_b d4); cbn [option_map]; split; congruence|].
    rewrite !andb_false_iff, !bad_octet_spec by auto. split.
    + intros H. rewrite <- (app_nil_r (quad d1 d2 d3 d4)). apply mf_octet; auto. tauto.
    + intros H. inversion H as [e1 e2 e3 e4 r E1 E2 E3 E4 B Hr Eq|e1 e2 e3 e4 n E1 E2 E3 E4 En B Eq].
      * rewrite <- (app_nil_r (quad d1 d2 d3 d4)) in Eq. apply Sp in Eq as (-> & -> & -> & -> & ->); auto; [tauto|]. destruct Hr as [->|(n & -> & _)]; eauto.
      * rewrite <- (app_nil_r (quad d1 d2 d3 d4)) in Eq. apply Sp in Eq as (_ & _ & _ & _ & X); eauto. discriminate.
  - fold (quad d1 d2 d3 d4). replace (has_byte 47 (quad d1 d2 d3 d4 ++ 47 :: n)) with true.
    2:{ symmetry. apply existsb_exists. exists 47. split; [|reflexivity]. apply in_or_app. right. now left. }
    rewrite parse_block by auto.
    transitivity (octet_b d1 && octet_b d2 && octet_b d3 && octet_b d4 && (negb (o_strict_bits O) || plain_b n) && (decimal 0 n <=? 32) = false); [match goal with |- context [if ?c then Some _ else None] => destruct c end; split; congruence|].
    rewrite !andb_false_iff, !bad_octet_spec, orb_false_iff, negb_false_iff, plain_false by auto. split.
    + intros H. assert (K : (bad_octet d1 \/ bad_octet d2 \/ bad_octet d3 \/ bad_octet d4) \/ (32 < decimal 0 n \/ (o_strict_bits O = true /\ exists r, n = 48 :: r /\ r <> []))).
      { destruct H as [[[[[H|H]|H]|H]|H]|H]; try tauto. right. left. lia. }
      destruct K as [K|K]; [apply mf_octet; eauto|now apply mf_bits].
    + intros H. inversion H as [e1 e2 e3 e4 r E1 E2 E3 E4 B Hr Eq|e1 e2 e3 e4 n' E1 E2 E3 E4 En B Eq].
      * apply Sp in Eq as (-> & -> & -> & -> & ->); eauto; [tauto|]. destruct Hr as [->|(n' & -> & _)]; eauto.
      * apply Sp in Eq as (-> & -> & -> & -> & X); eauto. injection X as ->. destruct B as [B|B]; [right; lia|tauto].
Qed.
