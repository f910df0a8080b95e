(** The address search of expr_net.go against the specification. *)
From Verif Require Import Bytes GoStrconv GoFloat GoTime GoNet Oracles Ast Json Values StrMatch Matcher MatchSpec.
From Coq Require Import ZifyBool ZifyN ZifyNat.

Definition dig (c : N) : Prop := 48 <= c <= 57.
Definition no_dig (t : bytes) : Prop := match t with [] => True | c :: _ => ~ dig c end.

Lemma is_digit_dig c : is_digit c = true <-> dig c.
Proof. unfold is_digit, dig. lia. Qed.

Lemma upto_digits_sound n : forall s ds t, upto_digits n s = (ds, t) ->
  s = ds ++ t /\ Forall dig ds /\ (length ds <= n)%nat.
Proof.
  induction n as [|n IH]; intros s ds t.
  - cbn. intros [= <- <-]. repeat split; [constructor|cbn; lia].
  - destruct s as [|c r]; cbn.
    + intros [= <- <-]. repeat split; [constructor|cbn; lia].
    + destruct (is_digit c) eqn:D.
      * destruct (upto_digits n r) as [a u] eqn:E. intros [= <- <-].
        apply IH in E as (-> & F & L). repeat split; [|cbn; lia].
        constructor; [now apply is_digit_dig|exact F].
      * intros [= <- <-]. repeat split; [constructor|cbn; lia].
Qed.

Lemma upto_digits_app n d : forall r, Forall dig d -> (length d <= n)%nat ->
  upto_digits n (d ++ r) = (d ++ fst (upto_digits (n - length d) r), snd (upto_digits (n - length d) r)).
Proof.
  revert n. induction d as [|c d IH]; intros n r F L.
  - cbn. rewrite Nat.sub_0_r. apply surjective_pairing.
  - destruct n as [|n]; [cbn in L; lia|]. cbn [app length upto_digits].
    pose proof (Forall_inv F) as D. apply is_digit_dig in D. rewrite D.
    rewrite IH; [|apply (Forall_inv_tail F)|cbn in L; lia]. reflexivity.
Qed.

Lemma upto_digits_no n r : no_dig r -> upto_digits n r = ([], r).
Proof.
  intros H. destruct n, r as [|c r]; try reflexivity. cbn.
  destruct (is_digit c) eqn:D; [|reflexivity]. apply is_digit_dig in D. contradiction.
Qed.

Lemma upto_digits_exact n d r : Forall dig d -> (length d <= n)%nat -> no_dig r ->
  upto_digits n (d ++ r) = (d, r).
Proof.
  intros F L H. rewrite upto_digits_app, upto_digits_no by assumption. cbn. now rewrite app_nil_r.
Qed.

Lemma dot_no_dig r : no_dig (46 :: r).
Proof. cbn. unfold dig. lia. Qed.
Lemma slash_no_dig r : no_dig (47 :: r).
Proof. cbn. unfold dig. lia. Qed.

Lemma net_groups_complete3 d1 d2 d3 r : digit_text 3 d1 -> digit_text 3 d2 -> digit_text 3 d3 ->
  net_groups 3 (d1 ++ 46 :: d2 ++ 46 :: d3 ++ 46 :: r) = Some (d1 ++ 46 :: d2 ++ 46 :: d3 ++ [46], r).
Proof.
  intros (N1 & L1 & F1) (N2 & L2 & F2) (N3 & L3 & F3). cbn [net_groups].
  rewrite (upto_digits_exact 3 d1) by (first [assumption|apply dot_no_dig]).
  destruct d1 as [|c1 d1']; [congruence|]. change (46 =? 46) with true. cbv iota.
  rewrite (upto_digits_exact 3 d2) by (first [assumption|apply dot_no_dig]).
  destruct d2 as [|c2 d2']; [congruence|]. change (46 =? 46) with true. cbv iota.
  rewrite (upto_digits_exact 3 d3) by (first [assumption|apply dot_no_dig]).
  destruct d3 as [|c3 d3']; [congruence|]. change (46 =? 46) with true. cbv iota.
  reflexivity.
Qed.

Lemma net_groups_sound k : forall s g t, net_groups (S k) s = Some (g, t) ->
  exists d s', digit_text 3 d /\ s = d ++ 46 :: s' /\
    exists g', net_groups k s' = Some (g', t) /\ g = d ++ 46 :: g'.
Proof.
  intros s g t. cbn [net_groups].
  destruct (upto_digits 3 s) as [ds u] eqn:E. apply upto_digits_sound in E as (-> & F & L).
  destruct ds as [|c ds]; [discriminate|]. destruct u as [|c' u]; [discriminate|].
  destruct (c' =? 46) eqn:D; [|discriminate]. apply N.eqb_eq in D. subst.
  destruct (net_groups k u) as [[g' t']|] eqn:G; [|discriminate]. intros [= <- <-].
  exists (c :: ds), u. repeat split; try assumption; [discriminate|]. eauto.
Qed.

Lemma net_suffix_sound s x w : net_suffix s = (x, w) ->
  s = x ++ w /\ (x = [] \/ exists n, digit_text 2 n /\ x = 47 :: n).
Proof.
  destruct s as [|c t]; cbn [net_suffix].
  - intros [= <- <-]. auto.
  - destruct (c =? 47) eqn:D; [|intros [= <- <-]; auto]. apply N.eqb_eq in D. subst.
    destruct (upto_digits 2 t) as [[|n ns] u] eqn:E; [intros [= <- <-]; auto|].
    apply upto_digits_sound in E as (-> & F & L). intros [= <- <-]. split; [reflexivity|].
    right. eexists. split; [|reflexivity]. repeat split; [discriminate|assumption..].
Qed.

Lemma net_here_sound s m t : net_here s = Some (m, t) -> s = m ++ t /\ dotted m.
Proof.
  unfold net_here. destruct (net_groups 3 s) as [[g u]|] eqn:G; [|discriminate].
  apply net_groups_sound in G as (d1 & s1 & D1 & -> & g1 & G & ->).
  apply net_groups_sound in G as (d2 & s2 & D2 & -> & g2 & G & ->).
  apply net_groups_sound in G as (d3 & s3 & D3 & -> & g3 & G & ->).
  cbn in G. injection G as <- <-.
  destruct (upto_digits 3 s3) as [[|c ds] w] eqn:E; [discriminate|].
  apply upto_digits_sound in E as (-> & F & L).
  destruct (net_suffix w) as [x w'] eqn:X. intros [= <- <-].
  apply net_suffix_sound in X as [-> X].
  assert (D4 : digit_text 3 (c :: ds)) by (repeat split; [discriminate|assumption..]).
  split.
  - repeat (rewrite <- !app_assoc; cbn [app]). reflexivity.
  - destruct X as [-> | (n & Dn & ->)].
    + rewrite app_nil_r. replace ((d1 ++ 46 :: d2 ++ 46 :: d3 ++ [46]) ++ c :: ds)
        with (d1 ++ 46 :: d2 ++ 46 :: d3 ++ 46 :: c :: ds) by (repeat (rewrite <- !app_assoc; cbn [app]); reflexivity).
      now apply dt_addr.
    + match goal with |- dotted ?x =>
        replace x with ((d1 ++ 46 :: d2 ++ 46 :: d3 ++ 46 :: c :: ds) ++ 47 :: n)
          by (repeat (rewrite <- !app_assoc; cbn [app]); reflexivity) end.
      now apply dt_block.
Qed.

Lemma net_here_complete c r : dotted c -> exists m t, net_here (c ++ r) = Some (m, t) /\ (length c <= length m)%nat.
Proof.
  intros [d1 d2 d3 d4 D1 D2 D3 D4 | d1 d2 d3 d4 n D1 D2 D3 D4 Dn]; unfold net_here.
  - replace ((d1 ++ 46 :: d2 ++ 46 :: d3 ++ 46 :: d4) ++ r) with (d1 ++ 46 :: d2 ++ 46 :: d3 ++ 46 :: (d4 ++ r))
      by (repeat (rewrite <- !app_assoc; cbn [app]); reflexivity).
    rewrite net_groups_complete3 by assumption. destruct D4 as (N4 & L4 & F4).
    rewrite upto_digits_app by assumption.
    set (x := fst _). set (y := snd _).
    destruct (d4 ++ x) as [|c0 z] eqn:E; [destruct d4; [congruence|discriminate]|].
    destruct (net_suffix y) as [sx w]. eexists _, _. split; [reflexivity|]. rewrite <- E.
    repeat (rewrite !app_length; cbn [length]). lia.
  - replace (((d1 ++ 46 :: d2 ++ 46 :: d3 ++ 46 :: d4) ++ 47 :: n) ++ r)
      with (d1 ++ 46 :: d2 ++ 46 :: d3 ++ 46 :: (d4 ++ 47 :: n ++ r))
      by (repeat (rewrite <- !app_assoc; cbn [app]); reflexivity).
    rewrite net_groups_complete3 by assumption. destruct D4 as (N4 & L4 & F4). destruct Dn as (Nn & Ln & Fn).
    rewrite upto_digits_exact by (first [assumption|apply slash_no_dig]).
    destruct d4 as [|c0 z]; [congruence|]. cbn [net_suffix]. change (47 =? 47) with true. cbv iota.
    rewrite upto_digits_app by assumption. set (x := fst _). set (y := snd _).
    destruct (n ++ x) as [|c1 z1] eqn:E; [destruct n; [congruence|discriminate]|].
    eexists _, _. split; [reflexivity|]. rewrite <- E.
    repeat (rewrite !app_length; cbn [length]). lia.
Qed.

Lemma net_here_none s : net_here s = None <-> forall c, dotted c -> ~ starts c s.
Proof.
  split.
  - intros H c D (r & ->). destruct (net_here_complete c r D) as (m & t & E & _). congruence.
  - intros H. destruct (net_here s) as [[m t]|] eqn:E; [|reflexivity].
    apply net_here_sound in E as [-> D]. exfalso. apply (H m D). now exists t.
Qed.

Lemma dotted_nonempty c : dotted c -> c <> [].
Proof. intros []; destruct d1; discriminate. Qed.

Lemma find_nets_sound fuel : forall s, (length s <= fuel)%nat -> candidates s (find_nets fuel s).
Proof.
  induction fuel as [|f IH]; intros s L.
  - destruct s; [|cbn in L; lia]. apply cd_none. intros u v c E D (r & ->).
    symmetry in E. apply app_eq_nil in E as [_ E]. apply app_eq_nil in E as [-> _]. now apply dotted_nonempty in D.
  - cbn [find_nets]. destruct (net_here s) as [[m t]|] eqn:E.
    + pose proof (net_here_sound _ _ _ E) as [-> D].
      rewrite <- (app_nil_l (m ++ t)). apply cd_found.
      * exact D.
      * intros c' D' (r & Er). destruct (net_here_complete c' r D') as (m' & t' & E' & L').
        rewrite <- Er in E'. rewrite E in E'. injection E' as <- <-. exact L'.
      * intros u v c' Eu Nv. symmetry in Eu. apply app_eq_nil in Eu as [_ ->]. congruence.
      * apply IH. rewrite app_length in L. apply dotted_nonempty in D. destruct m; [congruence|]. cbn in L. lia.
    + destruct s as [|c r].
      * apply cd_none. intros u v c E' D (r & ->).
        symmetry in E'. apply app_eq_nil in E' as [_ E']. apply app_eq_nil in E' as [-> _]. now apply dotted_nonempty in D.
      * specialize (IH r ltac:(cbn in L; lia)). pose proof (proj1 (net_here_none _) E) as Nn.
        remember (find_nets f r) as cs eqn:Hcs. clear Hcs. inversion IH; subst.
        -- apply cd_none. intros [|x u] v c' E' D.
           ++ cbn in E'. subst. now apply Nn.
           ++ injection E' as <- E'. eapply H; eassumption.
        -- change (c :: before ++ c0 ++ rest) with ((c :: before) ++ c0 ++ rest). apply cd_found; try assumption.
           intros [|x u] v c' E' Nv D.
           ++ cbn in E'. subst. now apply Nn.
           ++ injection E' as <- E'. eapply H1; eassumption.
Qed.

Lemma candidates_unique s cs : candidates s cs -> forall fuel, (length s <= fuel)%nat -> cs = find_nets fuel s.
Proof.
  induction 1 as [s H|before c rest cs D Lg Er _ IH]; intros fuel L.
  - revert s H L. induction fuel as [|f IHf]; intros s H L; [reflexivity|]. cbn [find_nets].
    rewrite (proj2 (net_here_none s)).
    + destruct s as [|x r]; [reflexivity|]. apply IHf; [|cbn in L; lia].
      intros u v c E D. apply (H (x :: u) v c); [cbn; now rewrite E|exact D].
    + intros c D. apply (H [] s c); [reflexivity|exact D].
  - revert fuel L. induction before as [|x before IHb]; intros fuel L.
    + cbn [app] in *. rewrite app_length in L. pose proof (dotted_nonempty _ D) as Nc.
      destruct fuel as [|f]; [destruct c; [congruence|cbn in L; lia]|]. cbn [find_nets].
      destruct (net_here_complete c rest D) as (m & t & E & Lm). rewrite E.
      pose proof (net_here_sound _ _ _ E) as [Em Dm].
      assert (length m <= length c)%nat by (apply Lg; [exact Dm|now exists t]).
      assert (Ec : firstn (length m) (c ++ rest) = firstn (length m) (m ++ t)) by now rewrite Em.
      replace (length m) with (length c) in Ec at 1 by lia.
      rewrite !firstn_app, !firstn_all, !Nat.sub_diag, !firstn_O, !app_nil_r in Ec. subst m.
      apply app_inv_head in Em. subst t. f_equal. apply IH. destruct c; [congruence|]. cbn in L. lia.
    + destruct fuel as [|f]; [cbn in L; lia|]. cbn [app find_nets].
      assert (net_here ((x :: before) ++ c ++ rest) = None) as E.
      { apply net_here_none. intros c' D'. apply (Er [] (x :: before)); [reflexivity|discriminate|exact D']. }
      cbn [app] in E. rewrite E. apply IHb; [|cbn in L; lia].
      intros u v c' Eb Nv D'. apply (Er (x :: u)); [cbn; now rewrite Eb|exact Nv|exact D'].
Qed.

Lemma candidates_spec s cs : candidates s cs <-> cs = find_nets (length s) s.
Proof.
  split.
  - intros H. now apply candidates_unique.
  - intros ->. now apply find_nets_sound.
Qed.

(** ** Reading a candidate *)
Definition octet_b (d : bytes) : bool :=
  (match d with [c] => true | c :: _ => negb (c =? 48) | [] => false end) && (decimal 0 d <=? 255).

Lemma octet_b_spec d : digit_text 3 d -> octet_b d = true <-> exists v, octet d v.
Proof.
  intros (Nn & L & F). unfold octet_b, octet, plain. rewrite andb_true_iff. split.
  - intros [H1 H2]. exists (decimal 0 d). split; [|split; [reflexivity|lia]].
    destruct d as [|c [|c' r]]; [discriminate| |].
    + destruct (N.eq_dec c 48) as [->|N0]; [now left|]. right. eauto.
    + right. exists c, (c' :: r). split; [reflexivity|]. lia.
  - intros (v & [-> | (c & r & -> & N0)] & -> & B).
    + now split.
    + split; [|lia]. destruct r; [reflexivity|]. lia.
Qed.

Lemma ipv4_octet d rest fields : digit_text 3 d ->
  parse_ipv4_loop (d ++ rest) fields 0 0 =
  if octet_b d then parse_ipv4_loop rest fields (decimal 0 d) (length d) else None.
Proof.
  intros (Nn & L & F). destruct d as [|c1 [|c2 [|c3 [|c4 r]]]]; [congruence| | | |cbn in L; lia].
  - pose proof (Forall_inv F) as D1. pose proof D1 as D1'. apply is_digit_dig in D1'. unfold dig in D1.
    cbn [app parse_ipv4_loop]. rewrite D1'. cbn [Nat.eqb andb].
    unfold octet_b, decimal, digit_val. change (0 * 10) with 0. rewrite N.add_0_l.
    replace (255 <? c1 - 48) with false by lia. replace (c1 - 48 <=? 255) with true by lia. reflexivity.
  - pose proof (Forall_inv F) as D1. pose proof (Forall_inv (Forall_inv_tail F)) as D2.
    pose proof D1 as D1'. pose proof D2 as D2'. apply is_digit_dig in D1', D2'. unfold dig in D1, D2.
    cbn [app parse_ipv4_loop]. rewrite D1', D2'. cbn [Nat.eqb andb].
    unfold octet_b, decimal, digit_val. change (0 * 10) with 0. rewrite N.add_0_l.
    replace (255 <? c1 - 48) with false by lia.
    destruct (c1 =? 48) eqn:Z0.
    + replace (c1 - 48 =? 0) with true by lia. reflexivity.
    + replace (c1 - 48 =? 0) with false by lia. cbn [negb andb].
      replace (255 <? (c1 - 48) * 10 + (c2 - 48)) with false by lia.
      replace ((c1 - 48) * 10 + (c2 - 48) <=? 255) with true by lia. reflexivity.
  - pose proof (Forall_inv F) as D1. pose proof (Forall_inv (Forall_inv_tail F)) as D2.
    pose proof (Forall_inv (Forall_inv_tail (Forall_inv_tail F))) as D3.
    pose proof D1 as D1'. pose proof D2 as D2'. pose proof D3 as D3'.
    apply is_digit_dig in D1', D2', D3'. unfold dig in D1, D2, D3.
    cbn [app parse_ipv4_loop]. rewrite D1', D2', D3'. cbn [Nat.eqb andb].
    unfold octet_b, decimal, digit_val. change (0 * 10) with 0. rewrite N.add_0_l.
    replace (255 <? c1 - 48) with false by lia.
    destruct (c1 =? 48) eqn:Z0.
    + replace (c1 - 48 =? 0) with true by lia. reflexivity.
    + replace (c1 - 48 =? 0) with false by lia. cbn [negb andb].
      replace (255 <? (c1 - 48) * 10 + (c2 - 48)) with false by lia.
      set (v := ((c1 - 48) * 10 + (c2 - 48)) * 10 + (c3 - 48)).
      destruct (255 <? v) eqn:B.
      * replace (v <=? 255) with false by lia. reflexivity.
      * replace (v <=? 255) with true by lia. reflexivity.
Qed.

Lemma ipv4_dot d rest fields v : digit_text 3 d -> (length fields < 3)%nat ->
  parse_ipv4_loop (46 :: rest) fields v (length d) = parse_ipv4_loop rest (v :: fields) 0 0.
Proof.
  intros (Nn & L & F) Lf. destruct d; [congruence|]. cbn [length parse_ipv4_loop].
  change (is_digit 46) with false. change (46 =? 46) with true. cbv iota.
  replace (Nat.eqb (length fields) 3) with false by lia. reflexivity.
Qed.

Definition quad (d1 d2 d3 d4 : bytes) : bytes := d1 ++ 46 :: d2 ++ 46 :: d3 ++ 46 :: d4.

Lemma parse_quad d1 d2 d3 d4 : digit_text 3 d1 -> digit_text 3 d2 -> digit_text 3 d3 -> digit_text 3 d4 ->
  parse_addr4 (quad d1 d2 d3 d4) =
  if octet_b d1 && octet_b d2 && octet_b d3 && octet_b d4
  then Some (decimal 0 d1 * 256 ^ 3 + decimal 0 d2 * 256 ^ 2 + decimal 0 d3 * 256 + decimal 0 d4) else None.
Proof.
  intros D1 D2 D3 D4. unfold parse_addr4, quad.
  rewrite ipv4_octet by exact D1. destruct (octet_b d1); [|reflexivity].
  rewrite ipv4_dot by (first [exact D1|cbn; lia]).
  rewrite ipv4_octet by exact D2. destruct (octet_b d2); [|reflexivity].
  rewrite ipv4_dot by (first [exact D2|cbn; lia]).
  rewrite ipv4_octet by exact D3. destruct (octet_b d3); [|reflexivity].
  rewrite ipv4_dot by (first [exact D3|cbn; lia]).
  rewrite <- (app_nil_r d4) at 1. rewrite ipv4_octet by exact D4. destruct (octet_b d4); [|reflexivity].
  destruct D4 as (N4 & _). destruct d4 as [|c r] eqn:E; [congruence|]. rewrite <- E. cbn [length parse_ipv4_loop].
  rewrite E at 1. cbn [length]. cbn [Nat.eqb length rev app andb]. f_equal. unfold addr_of_fields. cbn [fold_left].
  change (256 ^ 3) with (256 * 256 * 256). change (256 ^ 2) with (256 * 256).
  set (x := decimal 0 d1). set (y := decimal 0 d2). set (z := decimal 0 d3). set (w := decimal 0 d4). lia.
Qed.

Lemma quad_no_slash d1 d2 d3 d4 : digit_text 3 d1 -> digit_text 3 d2 -> digit_text 3 d3 -> digit_text 3 d4 ->
  ~ In 47 (quad d1 d2 d3 d4).
Proof.
  intros (_ & _ & F1) (_ & _ & F2) (_ & _ & F3) (_ & _ & F4) I. unfold quad in I.
  assert (Hd : forall d, Forall (fun c => 48 <= c <= 57) d -> ~ In 47 d).
  { intros d F J. rewrite Forall_forall in F. specialize (F _ J). lia. }
  apply in_app_iff in I as [I|[I|I]]; [exact (Hd _ F1 I)|discriminate|].
  apply in_app_iff in I as [I|[I|I]]; [exact (Hd _ F2 I)|discriminate|].
  apply in_app_iff in I as [I|[I|I]]; [exact (Hd _ F3 I)|discriminate|].
  exact (Hd _ F4 I).
Qed.

Lemma has_byte_false c s : ~ In c s -> has_byte c s = false.
Proof.
  intros H. unfold has_byte. destruct (existsb (N.eqb c) s) eqn:E; [|reflexivity].
  apply existsb_exists in E as (x & I & E). apply N.eqb_eq in E. subst. contradiction.
Qed.

Lemma split_slash_none s : ~ In 47 s -> split_slash s = None.
Proof.
  induction s as [|c s IH]; intros H; [reflexivity|]. cbn. rewrite IH by (intros I; apply H; now right).
  replace (c =? 47) with false; [reflexivity|]. symmetry. apply N.eqb_neq. intros ->. apply H. now left.
Qed.

Lemma split_slash_app x y : ~ In 47 y -> split_slash (x ++ 47 :: y) = Some (x, y).
Proof.
  intros H. induction x as [|c x IH]; cbn.
  - now rewrite split_slash_none.
  - now rewrite IH.
Qed.

Lemma digits_acc_decimal t : forall a, Forall dig t -> digits_acc a t = Some (decimal a t).
Proof.
  induction t as [|c t IH]; intros a F; [reflexivity|]. cbn.
  pose proof (Forall_inv F) as D. apply is_digit_dig in D. rewrite D. apply IH. apply (Forall_inv_tail F).
Qed.

Definition plain_b (n : bytes) : bool := match n with [c] => true | c :: _ => negb (c =? 48) | [] => false end.
Lemma plain_b_spec n : plain_b n = true <-> plain n.
Proof.
  unfold plain. destruct n as [|c [|c' r]]; cbn.
  - split; [discriminate|]. intros [H|(c & r & H & _)]; discriminate.
  - split; [|reflexivity]. intros _. destruct (N.eq_dec c 48) as [->|N0]; [now left|]. right. eauto.
  - rewrite negb_true_iff, N.eqb_neq. split.
    + intros H. right. eauto.
    + intros [H|(x & r' & [= -> <-] & N0)]; [discriminate|exact N0].
Qed.

Lemma octet_dec d v : digit_text 3 d -> octet d v <-> octet_b d = true /\ v = decimal 0 d.
Proof.
  intros D. rewrite (octet_b_spec d D). split.
  - intros H. split; [eauto|]. apply H.
  - intros [(w & P & -> & B) ->]. split; [exact P|]. split; [reflexivity|exact B].
Qed.

Section WithOracles.
Context (O : oracles).

Lemma parse_block d1 d2 d3 d4 n : digit_text 3 d1 -> digit_text 3 d2 -> digit_text 3 d3 -> digit_text 3 d4 -> digit_text 2 n ->
  parse_prefix (o_strict_bits O) (quad d1 d2 d3 d4 ++ 47 :: n) =
  if octet_b d1 && octet_b d2 && octet_b d3 && octet_b d4 && (negb (o_strict_bits O) || plain_b n) && (decimal 0 n <=? 32)
  then Some {| p_addr := decimal 0 d1 * 256 ^ 3 + decimal 0 d2 * 256 ^ 2 + decimal 0 d3 * 256 + decimal 0 d4;
               p_bits := decimal 0 n |} else None.
Proof.
  intros D1 D2 D3 D4 (Nn & Ln & Fn). unfold parse_prefix.
  rewrite split_slash_app.
  2: { intros I. rewrite Forall_forall in Fn. specialize (Fn _ I). lia. }
  rewrite parse_quad by assumption.
  destruct (octet_b d1 && octet_b d2 && octet_b d3 && octet_b d4); [|reflexivity]. cbn [andb].
  destruct n as [|c r]; [congruence|].
  replace (o_strict_bits O && negb (Nat.eqb (length r) 0) && (c =? 48)) with (negb (negb (o_strict_bits O) || plain_b (c :: r))).
  2: { destruct (o_strict_bits O); [|reflexivity]. cbn. destruct r; cbn; [reflexivity|]. now rewrite negb_involutive. }
  destruct (negb (o_strict_bits O) || plain_b (c :: r)); [|reflexivity]. cbn [negb andb].
  rewrite digits_acc_decimal by exact Fn.
  destruct (32 <? decimal 0 (c :: r)) eqn:B.
  - replace (decimal 0 (c :: r) <=? 32) with false by lia. reflexivity.
  - replace (decimal 0 (c :: r) <=? 32) with true by lia. reflexivity.
Qed.

(** What a candidate stands for, as computed by the code. *)
Definition read_net (c : bytes) : option prefix :=
  if has_byte 47 c then parse_prefix (o_strict_bits O) c
  else option_map (fun a => {| p_addr := a; p_bits := 32 |}) (parse_addr4 c).

Lemma read_net_spec c q : dotted c -> read_net c = Some q <-> denotes_net O c q.
Proof.
  intros [d1 d2 d3 d4 D1 D2 D3 D4 | d1 d2 d3 d4 n D1 D2 D3 D4 Dn]; unfold read_net.
  - fold (quad d1 d2 d3 d4). pose proof (quad_no_slash d1 d2 d3 d4 D1 D2 D3 D4) as Ns.
    rewrite has_byte_false by exact Ns.
    rewrite parse_quad by assumption. split.
    + destruct (octet_b d1) eqn:B1; [|discriminate]. destruct (octet_b d2) eqn:B2; [|discriminate].
      destruct (octet_b d3) eqn:B3; [|discriminate]. destruct (octet_b d4) eqn:B4; [|discriminate].
      cbn [andb option_map]. intros [= <-]. apply dn_addr; try assumption; now apply octet_dec.
    + intros H. remember (quad d1 d2 d3 d4) as cc eqn:Ec. destruct H as
        [e1 e2 e3 e4 v1 v2 v3 v4 E1 E2 E3 E4 V1 V2 V3 V4 | e1 e2 e3 e4 n v1 v2 v3 v4 E1 E2 E3 E4 En V1 V2 V3 V4 P B].
      * fold (quad e1 e2 e3 e4) in Ec. pose proof (parse_quad e1 e2 e3 e4 E1 E2 E3 E4) as P1.
        rewrite Ec, parse_quad in P1 by assumption.
        apply (octet_dec _ _ E1) in V1 as [V1 ->]. apply (octet_dec _ _ E2) in V2 as [V2 ->].
        apply (octet_dec _ _ E3) in V3 as [V3 ->]. apply (octet_dec _ _ E4) in V4 as [V4 ->].
        rewrite V1, V2, V3, V4 in P1. cbn [andb] in P1. rewrite P1. reflexivity.
      * exfalso. apply Ns. apply in_app_iff. right. left. reflexivity.
  - fold (quad d1 d2 d3 d4).
    assert (In 47 (quad d1 d2 d3 d4 ++ 47 :: n)) as Hs by (apply in_app_iff; right; left; reflexivity).
    replace (has_byte 47 (quad d1 d2 d3 d4 ++ 47 :: n)) with true.
    2: { symmetry. apply existsb_exists. exists 47. now split. }
    rewrite parse_block by assumption. split.
    + destruct (octet_b d1) eqn:B1; [|discriminate]. destruct (octet_b d2) eqn:B2; [|discriminate].
      destruct (octet_b d3) eqn:B3; [|discriminate]. destruct (octet_b d4) eqn:B4; [|discriminate].
      cbn [andb]. destruct (negb (o_strict_bits O) || plain_b n) eqn:St; [|discriminate].
      destruct (decimal 0 n <=? 32) eqn:B; [|discriminate]. intros [= <-].
      apply dn_block; try assumption; try now apply octet_dec.
      * intros S1. rewrite S1 in St. now apply plain_b_spec.
      * lia.
    + intros H. remember (quad d1 d2 d3 d4 ++ 47 :: n) as cc eqn:Ec. destruct H as
        [e1 e2 e3 e4 v1 v2 v3 v4 E1 E2 E3 E4 V1 V2 V3 V4 | e1 e2 e3 e4 n' v1 v2 v3 v4 E1 E2 E3 E4 En V1 V2 V3 V4 P B].
      * exfalso. eapply (quad_no_slash e1 e2 e3 e4); eassumption.
      * fold (quad e1 e2 e3 e4) in Ec. pose proof (parse_block e1 e2 e3 e4 n' E1 E2 E3 E4 En) as P1.
        rewrite Ec, parse_block in P1 by assumption.
        apply (octet_dec _ _ E1) in V1 as [V1 ->]. apply (octet_dec _ _ E2) in V2 as [V2 ->].
        apply (octet_dec _ _ E3) in V3 as [V3 ->]. apply (octet_dec _ _ E4) in V4 as [V4 ->].
        rewrite V1, V2, V3, V4 in P1. cbn [andb] in P1.
        replace (negb (o_strict_bits O) || plain_b n') with true in P1.
        2: { symmetry. destruct (o_strict_bits O); [|reflexivity]. cbn. apply plain_b_spec. auto. }
        replace (decimal 0 n' <=? 32) with true in P1 by lia. exact P1.
Qed.

(** ** Networks that meet *)
Definition net_ok (p : prefix) : Prop := p_addr p < 2 ^ 32 /\ p_bits p <= 32.

Lemma div_pow_more x y i j : i <= j -> x / 2 ^ i = y / 2 ^ i -> x / 2 ^ j = y / 2 ^ j.
Proof.
  intros L E. replace j with (i + (j - i)) by lia. rewrite N.pow_add_r.
  rewrite <- !N.div_div by (apply N.pow_nonzero; lia). now rewrite E.
Qed.

Lemma overlaps_spec p q : net_ok p -> net_ok q -> net_overlaps p q = true <-> meets p q.
Proof.
  intros [Ap Bp] [Aq Bq]. unfold net_overlaps, meets, in_net. rewrite N.eqb_eq. split.
  - intros H. destruct (N.le_ge_cases (p_bits p) (p_bits q)) as [L|L].
    + exists (p_addr q). rewrite N.min_l in H by lia. split; [split; [exact Aq|now symmetry]|]. now split.
    + exists (p_addr p). rewrite N.min_r in H by lia. split; [now split|]. split; [exact Ap|exact H].
  - intros (a & [_ Hp] & [_ Hq]).
    pose proof (div_pow_more a (p_addr p) (32 - p_bits p) (32 - N.min (p_bits p) (p_bits q)) ltac:(clear -Bp Bq; lia) Hp) as E1.
    pose proof (div_pow_more a (p_addr q) (32 - p_bits q) (32 - N.min (p_bits p) (p_bits q)) ltac:(clear -Bp Bq; lia) Hq) as E2.
    rewrite <- E1, E2. reflexivity.
Qed.

Lemma contains_overlaps p a : p_bits p <= 32 -> net_contains p a = net_overlaps p {| p_addr := a; p_bits := 32 |}.
Proof. intros H. unfold net_contains, net_overlaps. cbn [p_bits p_addr]. now rewrite N.min_l by lia. Qed.

Lemma decimal_octet d : octet_b d = true -> decimal 0 d <= 255.
Proof. unfold octet_b. rewrite andb_true_iff. lia. Qed.

Lemma denotes_ok c q : denotes_net O c q -> net_ok q.
Proof.
  assert (forall v1 v2 v3 v4, v1 <= 255 -> v2 <= 255 -> v3 <= 255 -> v4 <= 255 ->
    v1 * 256 ^ 3 + v2 * 256 ^ 2 + v3 * 256 + v4 < 2 ^ 32) as B.
  { intros. change (256 ^ 3) with 16777216. change (256 ^ 2) with 65536. change (2 ^ 32) with 4294967296. lia. }
  intros [d1 d2 d3 d4 v1 v2 v3 v4 D1 D2 D3 D4 (_ & _ & V1) (_ & _ & V2) (_ & _ & V3) (_ & _ & V4) |
          d1 d2 d3 d4 n v1 v2 v3 v4 D1 D2 D3 D4 Dn (_ & _ & V1) (_ & _ & V2) (_ & _ & V3) (_ & _ & V4) P Bn];
  (split; cbn [p_addr p_bits]; [now apply B|lia]).
Qed.

Lemma net_hit_spec p c : net_ok p -> dotted c ->
  net_hit O p c = true <-> exists q, denotes_net O c q /\ meets p q.
Proof.
  intros Hp D.
  assert (net_hit O p c = match read_net c with Some q => net_overlaps p q | None => false end) as ->.
  { unfold net_hit, read_net. destruct (has_byte 47 c); [reflexivity|].
    destruct (parse_addr4 c); [|reflexivity]. cbn. apply contains_overlaps. apply Hp. }
  split.
  - destruct (read_net c) as [q|] eqn:R; [|discriminate]. intros H. apply read_net_spec in R; [|exact D].
    exists q. split; [exact R|]. apply overlaps_spec; [exact Hp|now apply denotes_ok in R|exact H].
  - intros (q & Q & M). pose proof (denotes_ok _ _ Q) as Hq. apply read_net_spec in Q; [|exact D].
    rewrite Q. now apply overlaps_spec.
Qed.

Lemma candidates_dotted s cs : candidates s cs -> Forall dotted cs.
Proof. induction 1; constructor; assumption. Qed.

Theorem net_search_spec p t : net_ok p ->
  existsb (net_hit O p) (find_nets (length t) t) = true <-> net_in_text O p t.
Proof.
  intros Hp. unfold net_in_text. rewrite existsb_exists.
  pose proof (proj2 (candidates_spec t _) eq_refl) as C. pose proof (candidates_dotted _ _ C) as F.
  rewrite Forall_forall in F. split.
  - intros (c & I & H). apply net_hit_spec in H as (q & Q & M); [|exact Hp|now apply F].
    eexists _, c, q. split; [exact C|]. auto.
  - intros (cs & c & q & C' & I & Q & M). apply candidates_spec in C'. subst.
    exists c. split; [exact I|]. apply net_hit_spec; [exact Hp|now apply F|]. eauto.
Qed.

(** The networks of a query are well formed. *)
Lemma ipv4_fields s : forall fields v k l, parse_ipv4_loop s fields v k = Some l ->
  Forall (fun x => x <= 255) fields -> v <= 255 -> Forall (fun x => x <= 255) l /\ length l = 4%nat.
Proof.
  induction s as [|c s IH]; intros fields v k l H F V; cbn in H.
  - destruct k; [discriminate|]. destruct (Nat.eqb (length fields) 3) eqn:L; [|discriminate].
    injection H as <-. split.
    + apply Forall_app. split; [now apply Forall_rev|]. now constructor.
    + rewrite app_length, rev_length. cbn. lia.
  - destruct (is_digit c) eqn:D.
    + destruct (Nat.eqb k 1 && (v =? 0)); [discriminate|].
      destruct (255 <? v * 10 + digit_val c) eqn:B; [discriminate|].
      eapply IH; [exact H|exact F|lia].
    + destruct (c =? 46); [|discriminate]. destruct k; [discriminate|].
      destruct (Nat.eqb (length fields) 3); [discriminate|].
      eapply IH; [exact H|now constructor|lia].
Qed.

Lemma parse_addr4_bound s a : parse_addr4 s = Some a -> a < 2 ^ 32.
Proof.
  unfold parse_addr4. destruct (parse_ipv4_loop s [] 0 0) as [l|] eqn:E; [|discriminate]. intros [= <-].
  apply ipv4_fields in E as [F L]; [|constructor|lia].
  destruct l as [|v1 [|v2 [|v3 [|v4 [|? ?]]]]]; try discriminate.
  pose proof (Forall_inv F). pose proof (Forall_inv (Forall_inv_tail F)).
  pose proof (Forall_inv (Forall_inv_tail (Forall_inv_tail F))).
  pose proof (Forall_inv (Forall_inv_tail (Forall_inv_tail (Forall_inv_tail F)))).
  cbv beta in *. unfold addr_of_fields. cbn [fold_left]. change (2 ^ 32) with 4294967296. lia.
Qed.

Lemma parse_prefix_ok st s p : parse_prefix st s = Some p -> net_ok p.
Proof.
  unfold parse_prefix. destruct (split_slash s) as [[a bs]|]; [|discriminate].
  destruct (parse_addr4 a) as [ip|] eqn:A; [|discriminate]. destruct bs as [|c r]; [discriminate|].
  destruct (_ && _ && _); [discriminate|]. destruct (digits_acc 0 (c :: r)) as [n|]; [|discriminate].
  destruct (32 <? n) eqn:B; [discriminate|]. intros [= <-]. split; cbn; [now apply parse_addr4_bound in A|lia].
Qed.
End WithOracles.
