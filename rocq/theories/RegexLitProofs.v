(** Regular-expression literals. *)
From Verif Require Import Bytes Utf8 Utf8Proofs Oracles Ast Actions GrammarSpec GrammarFacts LiteralSpec.
From Coq Require Import ZifyBool ZifyN ZifyNat.

Lemma unescape_cons c r : c <> 92 -> unescape_slash (c :: r) = c :: unescape_slash r.
Proof.
  intros H. cbn [unescape_slash]. destruct r as [|d r]; [reflexivity|].
  destruct d as [|q]; [reflexivity|]. replace (c =? 92) with false by lia.
  do 6 (destruct q as [q|q|]; try reflexivity).
Qed.
Lemma unescape_bs d r : d <> 47 -> unescape_slash (92 :: d :: r) = 92 :: unescape_slash (d :: r).
Proof.
  intros H. cbn [unescape_slash]. destruct d as [|q]; [reflexivity|].
  do 6 (destruct q as [q|q|]; try reflexivity); congruence.
Qed.
Lemma unescape_app x r : Forall (fun c => c <> 92) x -> unescape_slash (x ++ r) = x ++ unescape_slash r.
Proof. induction 1 as [|c x H Hx IH]; [reflexivity|]. cbn [app]. now rewrite unescape_cons, IH. Qed.
Lemma encode_rune_no c k : c <> k -> k < 128 -> Forall (fun x => x <> k) (encode_rune c).
Proof.
  intros H K. destruct (N.lt_ge_cases c 128) as [L|L].
  - rewrite encode_rune_ascii by auto. repeat constructor. auto.
  - eapply Forall_impl; [|apply encode_rune_high, L]. cbn. lia.
Qed.
Lemma encode_rune_split c : exists x y, encode_rune c = x :: y.
Proof. pose proof (encode_rune_len c). destruct (encode_rune c); [cbn in *; lia|eauto]. Qed.

Lemma unescape_denotes body u : regex_denotes body u -> last body 0 <> 92 ->
  unescape_slash (encode body ++ [47]) = encode u ++ [47].
Proof.
  assert (LC : forall (c d : N) t, t <> [] -> last (c :: t) d = last t d) by (intros c d [|x t] H; [congruence|reflexivity]).
  assert (LT : forall (c : N) t, last (c :: t) 0 <> 92 -> last t 0 <> 92).
  { intros c [|x t] H; [cbn; lia|exact H]. }
  induction 1 as [|c t u H1 H2 H3 D IH|t u D IH|c t u H1 H2 D IH]; intros L.
  - reflexivity.
  - rewrite !encode_cons, <- !app_assoc, unescape_app by (apply encode_rune_no; auto; lia). rewrite IH by eauto. reflexivity.
  - change (tx "\/" ++ t) with (92 :: 47 :: t) in *. rewrite !encode_cons, !encode_rune_ascii by lia. cbn [app].
    change (unescape_slash (92 :: 47 :: encode t ++ [47])) with (47 :: unescape_slash (encode t ++ [47])). rewrite IH by eauto. reflexivity.
  - rewrite !encode_cons, (encode_rune_ascii 92) by lia. cbn [app]. rewrite <- !app_assoc.
    destruct (encode_rune_split c) as (x & y & E). pose proof (encode_rune_no c 47 H1 ltac:(lia)) as N. rewrite E in N. inversion N; subst.
    rewrite E. cbn [app]. rewrite unescape_bs by auto. f_equal. change (x :: y ++ encode t ++ [47]) with ((x :: y) ++ encode t ++ [47]). rewrite <- E.
    destruct (N.eq_dec c 92) as [->|Hc].
    2: { rewrite unescape_app by (apply encode_rune_no; auto; lia). rewrite IH by eauto. change (x :: y ++ encode u ++ [47]) with ((x :: y) ++ encode u ++ [47]). now rewrite <- E. }
    rewrite (encode_rune_ascii 92) in * by lia. injection E as <- <-. cbn [app].
    assert (T : t <> []) by (intros ->; apply L; reflexivity).
    assert (HT : exists d s, encode t ++ [47] = d :: s /\ d <> 47).
    { destruct D as [|d t u K1 K2 K3 D|t u D|d t u K1 K2 D]; [congruence| | |].
      - destruct (encode_rune_split d) as (x & y & E). pose proof (encode_rune_no d 47 K1 ltac:(lia)) as M. rewrite E in M. inversion M; subst.
        rewrite encode_cons, E. cbn [app]. eauto.
      - exists 92; eexists. split; [reflexivity|]. lia.
      - rewrite encode_cons, encode_rune_ascii by lia. cbn [app]. do 2 eexists. split; [reflexivity|]. lia. }
    destruct HT as (d & s & E & Hd). rewrite E, unescape_bs by auto. rewrite <- E, IH by eauto. reflexivity.
Qed.

Lemma trim_left_no c s : c <> 47 -> trim_left_slash (c :: s) = c :: s.
Proof. intros H. cbn. destruct c as [|q]; [reflexivity|]. do 6 (destruct q as [q|q|]; try reflexivity); congruence. Qed.
Lemma trim_slash_ok s : hd 0 s <> 47 -> last s 0 <> 47 -> trim_slash ([47] ++ s ++ [47]) = s.
Proof.
  intros H L. unfold trim_slash. destruct s as [|c s]; [reflexivity|]. cbn [app hd] in *.
  change (trim_left_slash (47 :: c :: s ++ [47])) with (trim_left_slash (c :: s ++ [47])). rewrite trim_left_no by auto.
  change (c :: s ++ [47]) with ((c :: s) ++ [47]). rewrite rev_app_distr. cbn [rev app].
  change (trim_left_slash (47 :: rev s ++ [c])) with (trim_left_slash (rev s ++ [c])).
  change (rev s ++ [c]) with (rev (c :: s)). destruct (exists_last (l := c :: s)) as (s' & d & E); [discriminate|]. rewrite E in *.
  rewrite last_last in L. rewrite rev_app_distr. cbn [rev app]. rewrite trim_left_no by auto. cbn. now rewrite rev_involutive.
Qed.
Lemma encode_hd u k : k < 128 -> k <> 0 -> hd 0 u <> k -> hd 0 (encode u) <> k.
Proof.
  intros K K0 H. destruct u as [|c u]; [cbn; lia|]. cbn [hd] in H. rewrite encode_cons. destruct (encode_rune_split c) as (x & y & E).
  pose proof (encode_rune_no c k H K) as N. rewrite E in *. now inversion N.
Qed.
Lemma encode_last u k : k < 128 -> k <> 0 -> last u 0 <> k -> last (encode u) 0 <> k.
Proof.
  intros K K0 H. destruct u as [|c u] using rev_ind; [cbn; lia|]. rewrite last_last in H. rewrite encode_app.
  unfold encode at 2. cbn [map concat]. rewrite app_nil_r. pose proof (encode_rune_no c k H K) as N.
  destruct (exists_last (l := encode_rune c)) as (s' & d & E).
  { pose proof (encode_rune_len c). intros E. rewrite E in *. cbn in *; lia. }
  rewrite E in *. rewrite app_assoc, last_last. apply Forall_app in N as [_ N]. now inversion N.
Qed.

Lemma regex_denotes_body t u : regex_denotes t u -> regex_body t.
Proof. induction 1; [apply rb_nil|now apply rb_char|apply (rb_esc 47); [lia|auto]|now apply rb_esc]. Qed.
Lemma regex_body_denotes t : regex_body t -> exists u, regex_denotes t u.
Proof.
  induction 1 as [|c t H1 H2 H3 R [u IH]|c t H R [u IH]]; [eexists; constructor|eexists; econstructor; eauto|].
  destruct (N.eq_dec c 47) as [->|N]; [exists (47 :: u); now apply rd_slash|eexists; apply rd_esc; eauto].
Qed.

Lemma regex_pattern O body u p : regex_denotes body u -> last body 0 <> 92 -> hd 0 u <> 47 -> last u 0 <> 47 ->
  new_regexp_val O (unescape_slash (encode ([47] ++ body ++ [47]))) p =
    match o_re_parse O (encode u) with
    | Some _ => Some (ARegex (encode u) ([47] ++ encode u ++ [47]) p)
    | None => None
    end.
Proof.
  intros D L H1 H2. assert (E : unescape_slash (encode ([47] ++ body ++ [47])) = [47] ++ encode u ++ [47]).
  { rewrite !encode_app. change (encode [47]) with [47]. cbn [app]. rewrite unescape_cons by lia. now rewrite (unescape_denotes _ _ D L). }
  rewrite E. unfold new_regexp_val. cbv zeta. rewrite trim_slash_ok; [reflexivity|apply encode_hd|apply encode_last]; auto; lia.
Qed.
