(** String literals: lower-casing does not change the search; literals without wildcards. *)
From Verif Require Import Bytes Utf8 Utf8Proofs GoFloat GoTime Oracles Json Values StrMatch MatchSpec StrProofs.
From Coq Require Import ZifyBool ZifyN ZifyNat.

Section S.
Context (O : oracles).

Lemma lower_range c : c < 128 -> lower_ascii c < 128.
Proof. unfold lower_ascii. destruct (_ && _) eqn:E; lia. Qed.
Lemma lower_special c k : lower_ascii c = k -> k = 92 \/ k = 63 \/ k = 42 -> c = k.
Proof. unfold lower_ascii. destruct (_ && _) eqn:E; lia. Qed.
Lemma fold_lower c : c < 128 -> fold O (lower_ascii c) = fold O c.
Proof.
  intros H. unfold fold. replace (c <? 128) with true by lia. pose proof (lower_range c H). replace (lower_ascii c <? 128) with true by lia.
  unfold lower_ascii. destruct ((65 <=? c) && (c <=? 90)) eqn:E; cbn; [|now rewrite E]. replace ((65 <=? c + 32) && (c + 32 <=? 90)) with false by lia. reflexivity.
Qed.

Definition low_tok (t : wtok) : wtok := match t with WLit c => WLit (lower_ascii c) | _ => t end.

Lemma pattern_lower s ts : pattern s ts -> pattern (map lower_ascii s) (map low_tok ts).
Proof.
  induction 1 as [|c s ts C _ IH|s ts _ IH|s ts _ IH|s ts H1 H2 _ IH|c s ts C1 C2 C3 _ IH]; cbn [map low_tok].
  - constructor.
  - change (lower_ascii 92) with 92. replace (lower_ascii c) with c by (destruct C as [-> | ->]; reflexivity). now constructor.
  - change (lower_ascii 63) with 63. now constructor.
  - change (lower_ascii 42) with 42. now constructor.
  - change (lower_ascii 92) with 92. apply pt_back; auto; destruct s as [|d s]; try discriminate; cbn [map hd_error] in *; intros [= E]; (apply lower_special in E; [|tauto]); subst d; (now apply H1) || (now apply H2).
  - apply pt_char; auto; intros E; (apply lower_special in E; [contradiction|tauto]).
Qed.

Definition tok_ascii (t : wtok) : Prop := match t with WLit c => c < 128 | _ => True end.
Lemma pattern_ascii s ts : pattern s ts -> ascii s -> Forall tok_ascii ts.
Proof.
  induction 1 as [|c s ts C _ IH|s ts _ IH|s ts _ IH|s ts H1 H2 _ IH|c s ts C1 C2 C3 _ IH]; intros A; constructor; cbn; try lia;
    try (apply IH; exact (Forall_inv_tail A)).
  - apply IH. exact (Forall_inv_tail (Forall_inv_tail A)).
  - exact (Forall_inv A).
Qed.

Lemma covers_lower ts seg : Forall tok_ascii ts -> covers O (map low_tok ts) seg <-> covers O ts seg.
Proof.
  intros A. revert seg. induction A as [|t ts At _ IH]; intros seg; cbn [map]; [reflexivity|].
  destruct t as [c| |]; cbn [low_tok]; cbn in At.
  - split; intros H; inversion H; subst; constructor; try (now apply IH); unfold same_letter in *; rewrite fold_lower in *; auto.
  - split; intros H; inversion H; subst; constructor; auto; now apply IH.
  - split; intros H; inversion H; subst; constructor; auto; now apply IH.
Qed.

Lemma decode_ascii s : ascii s -> decode s = s.
Proof. intros A. rewrite <- (encode_ascii s A) at 1. apply decode_encode. now apply ascii_scalars. Qed.

Lemma word_search_lower ts t : Forall tok_ascii ts -> word_search O (map low_tok ts) t <-> word_search O ts t.
Proof.
  intros A. unfold word_search. split; intros (bf & seg & af & E & C & B); exists bf, seg, af; (split; [exact E|]); (split; [|exact B]); now apply (covers_lower ts seg A).
Qed.

Lemma pattern_fun s ts ts' : pattern s ts -> pattern s ts' -> ts = ts'.
Proof. intros H H'. apply pattern_toks in H, H'. congruence. Qed.
Lemma pattern_exists s : exists ts, pattern s ts.
Proof. exists (toks_of s). now apply pattern_toks. Qed.

Lemma ascii_hit s ts t : ascii s -> pattern s ts -> string_hit O s t <-> word_search O ts (decode t).
Proof.
  intros A P. assert (Ia : is_ascii s = true) by now apply is_ascii_spec.
  assert (Lo : to_lower O s = map lower_ascii s) by (unfold to_lower; now rewrite Ia).
  assert (Al : ascii (map lower_ascii s)) by (unfold ascii in *; rewrite Forall_map; eapply Forall_impl; [|exact A]; intros c; apply lower_range).
  assert (Il : is_ascii (to_lower O s) = true) by (rewrite Lo; now apply is_ascii_spec).
  assert (Ld : lowered O s = map lower_ascii s) by (unfold lowered; rewrite Lo; now apply decode_ascii).
  unfold string_hit. rewrite Il, Ld. split.
  - intros [(Na & _)|(_ & ts' & P' & W)]; [contradiction|].
    rewrite (pattern_fun _ _ _ P' (pattern_lower _ _ P)) in W. now apply (word_search_lower ts _ (pattern_ascii _ _ P A)).
  - intros W. right. split; [now left|]. exists (map low_tok ts). split; [now apply pattern_lower|].
    now apply (word_search_lower ts _ (pattern_ascii _ _ P A)).
Qed.

(** Without wildcards every character stands for itself. *)
Lemma plain_pattern s : ~ In 63 s -> ~ In 42 s -> pattern s (map WLit s).
Proof.
  induction s as [|c s IH]; intros H1 H2; [constructor|]. cbn [map]. cbn [In] in *.
  assert (IH' : pattern s (map WLit s)) by (apply IH; tauto).
  destruct (N.eq_dec c 92) as [->|N]; [|apply pt_char; auto].
  apply pt_back; auto; destruct s as [|d s]; try discriminate; cbn; intros [= ->]; cbn in *; tauto.
Qed.
Lemma covers_plain s seg : covers O (map WLit s) seg <-> Forall2 (same_letter O) s seg.
Proof.
  revert seg. induction s as [|c s IH]; intros seg; cbn [map]; split; intros H; inversion H; subst; constructor; auto; now apply IH.
Qed.

Lemma self_hit s : word_search O (map WLit s) s <-> starts_with_word s /\ ends_in_word s.
Proof.
  assert (N1 : ~ ends_in_word []) by (intros (u & c & E & _); symmetry in E; apply app_eq_nil in E as [_ E]; discriminate).
  assert (N2 : ~ starts_with_word []) by (intros (c & u & E & _); discriminate).
  split.
  - intros (bf & seg & af & E & C & B1 & B2). apply covers_plain in C. assert (C' : length s = length seg) by (clear -C; induction C; cbn; congruence). clear C.
    assert (L : length s = (length bf + (length seg + length af))%nat) by (rewrite E at 1; now rewrite !app_length).
    destruct bf as [|? bf]; [|cbn in L; lia]. destruct af as [|? af]; [|cbn in L; lia].
    rewrite app_nil_r in *. cbn [app] in *. subst seg. unfold boundary in *. tauto.
  - intros (Sw & Ew). exists [], s, []. rewrite app_nil_r. split; [reflexivity|]. split.
    + apply covers_plain. clear. induction s; constructor; [reflexivity|assumption].
    + cbn [app]. split; [right|left]; tauto.
Qed.
End S.
