(** The parser model agrees with the simplified evaluator as long as no error is recorded. *)
From Verif Require Import Bytes Utf8 Utf8Proofs Oracles Ast PegSyntax Grammar Actions Engine EngineBasics CleanEval.
From Coq Require Import ZifyBool ZifyN ZifyNat.

Lemma step_errs p0 s s' : step p0 s s' -> errs s <> [] -> errs s' <> [].
Proof.
  destruct 1; cbn; auto.
  - unfold read, read_at. destruct (_ && _); cbn; auto. discriminate.
  - now rewrite errs_fail.
  - discriminate.
Qed.
Lemma steps_errs p0 s s' : steps p0 s s' -> errs s <> [] -> errs s' <> [].
Proof. induction 1; auto. intros. eapply step_errs; eauto. Qed.

Definition dirty (r : res) : Prop :=
  match r with RVal _ _ s | RFail s | RPanic s => errs s <> [] | RFuel => False end.

(** The first error recorded. *)
Definition born (s : state) (e : perr) : Prop := exists l, errs s = l ++ [e].
Definition dirtyw (e : perr) (r : res) : Prop :=
  match r with RVal _ _ s | RFail s | RPanic s => born s e | RFuel => False end.
Lemma born_errs s e : born s e -> errs s <> [].
Proof. intros (l & E). rewrite E. now destruct l. Qed.
Lemma dirtyw_dirty e r : dirtyw e r -> dirty r.
Proof. destruct r; cbn; auto; apply born_errs. Qed.
Lemma step_born p0 s s' e : step p0 s s' -> born s e -> born s' e.
Proof.
  intros H (l & E). destruct H; unfold born; cbn; eauto.
  - unfold read, read_at. destruct (_ && _); cbn; eauto. rewrite E. eexists (_ :: l). reflexivity.
  - rewrite errs_fail. eauto.
  - rewrite E. eexists (_ :: l). reflexivity.
Qed.
Lemma steps_born p0 s s' e : steps p0 s s' -> born s e -> born s' e.
Proof. induction 1; auto. intros. eapply step_born; eauto. Qed.
Lemma good_born p0 nl s r e : good p0 nl s r -> born s e -> dirtyw e r \/ r = RFuel.
Proof. destruct r; cbn; intros G H; auto; left; eapply steps_born; try exact H; apply G. Qed.
Lemma born_add s e k p : born s e -> born (add_err s k p) e.
Proof. intros (l & E). eexists (_ :: l). cbn. now rewrite E. Qed.
Lemma born_new s k p : errs s = [] -> born (add_err s k p) {| pe_kind := k; pe_pos := p |}.
Proof. intros E. exists []. cbn. now rewrite E. Qed.

Section Bridge.
Context (O : oracles).
(** The query is [encode u ++ tl] where [tl] is empty or starts with an invalid byte; the
    simplified evaluator sees a line feed in its place. *)
Variable tl : bytes.
Hypothesis Htl : tl = [] \/ decode_rune tl = (rune_error, 1%nat).
Definition ext : list N := match tl with [] => [] | _ => [10] end.

Definition Rel (s : state) (c : cursor) : Prop :=
  errs s = [] /\ at_ (pt s) = pos_at c /\
  exists u, scalars u /\ crs c = u ++ ext /\ rest (pt s) = encode u ++ tl /\ (tl <> [] -> u <> []).

(** The code points of the whole text; the error about an invalid byte is placed at that byte. *)
Definition whole (c : cursor) : list N := rev (pre c) ++ crs c.
Definition inv_at (w : list N) (e : perr) : Prop :=
  pe_kind e = KInvalidEncoding /\ exists t, w = t ++ ext /\ off (pe_pos e) = Z.of_nat (length (encode t)).
Lemma cadv_whole c c' : cadv c c' -> whole c' = whole c.
Proof. intros (t & E1 & E2). unfold whole. now rewrite E1, E2, rev_app_distr, rev_involutive, <- app_assoc. Qed.

Definition cor (c : cursor) (r : res) (o : cres) : Prop :=
  r = RFuel \/ (exists e, dirtyw e r /\ (o = CBad e \/ (tl <> [] /\ inv_at (whole c) e))) \/
  match r, o with
  | RVal v f s', COk v' f' c' => v = v' /\ f = f' /\ Rel s' c'
  | RFail s', CNo => Rel s' c
  | RPanic s', CPan => errs s' = []
  | _, _ => False
  end.

Lemma width_len' l : width l = Z.of_nat (length (encode (rev l))).
Proof. induction l as [|x l IH]; [reflexivity|]. cbn [width rev]. rewrite encode_app, app_length. cbn [encode map concat]. rewrite app_nil_r. rewrite IH. lia. Qed.
Definition inv_born (w : list N) (s : state) : Prop := exists e, born s e /\ tl <> [] /\ inv_at w e.

Lemma ext_nil : tl = [] -> ext = [].
Proof. clear Htl. unfold ext. intros E. rewrite E. reflexivity. Qed.

Lemma rel_nil s c : Rel s c -> crs c = [] -> at_eof (pt s) = true.
Proof.
  intros (_ & _ & u & _ & H1 & H2 & H3) E. apply eof_rest. rewrite E in H1. symmetry in H1.
  apply app_eq_nil in H1 as [-> E2]. rewrite H2. cbn. unfold ext in E2. now destruct tl.
Qed.

Lemma rel_cons s c x r : Rel s c -> crs c = x :: r ->
  cur_rune (pt s) = x /\ cur_width (pt s) = length (encode_rune x) /\ at_eof (pt s) = false /\ is_scalar x = true /\
  exists u, scalars u /\ r = u ++ ext /\ rest (pt s) = encode_rune x ++ encode u ++ tl.
Proof.
  intros (_ & _ & u & Hu & H1 & H2 & H3) E.
  assert (exists u', u = x :: u') as [u' ->].
  { rewrite E in H1. destruct u as [|y u]; [|cbn in H1; injection H1 as -> _; eauto].
    exfalso. unfold ext in H1. destruct tl as [|z tl']; [discriminate|]. apply H3; auto. discriminate. }
  inversion Hu as [|? ? Hx Hu']; subst.
  rewrite E in H1. cbn in H1. injection H1 as ->.
  rewrite encode_cons, <- app_assoc in H2.
  unfold at_eof, cur_rune, cur_width. rewrite H2, decode_encode_rune by auto. cbn.
  pose proof (encode_rune_len x). split; [auto|split; [auto|split; [|split; [auto|eauto]]]].
  apply andb_false_iff. right. apply Nat.eqb_neq. lia.
Qed.

Lemma rel_read s c x r : Rel s c -> crs c = x :: r ->
  inv_born (whole c) (read s) \/ Rel (read s) {| pre := x :: pre c; crs := r |}.
Proof.
  intros R E. pose proof (rel_cons _ _ _ _ R E) as (C1 & C2 & C3 & C4 & u & Hu & -> & Hr).
  assert (Hrest : rest (next_point (pt s)) = encode u ++ tl).
  { rewrite next_point_rest, C2, Hr. apply skipn_app_exact. }
  destruct R as (R1 & R2 & _).
  destruct u as [|y u].
  - pose proof Htl as T. destruct T as [T|T].
    + right. rewrite T in *. rewrite (ext_nil T) in *. cbn in Hrest.
      assert (Er : errs (read s) = []).
      { unfold read, read_at, cur_rune, cur_width. rewrite Hrest. cbn. exact R1. }
      split; [exact Er|]. split.
      * rewrite pt_read. unfold next_point. rewrite next_point_rest in Hrest. rewrite Hrest. cbn [decode_rune fst].
        replace (rune_error =? 10) with false by reflexivity. cbn [at_]. unfold pos_at. cbn [crs hd_nl app pre lfs since width].
        rewrite R2, C2. unfold pos_at. rewrite E. cbn [hd_nl].
        destruct (x =? 10); cbn [line col off]; f_equal; lia.
      * exists []. split; [constructor|]. split; [cbn; now rewrite (ext_nil T)|].
        split; [rewrite pt_read, Hrest; now rewrite T|congruence].
    + left. eexists. split; [|split; [intros ->; discriminate|]].
      * unfold read, read_at, cur_rune, cur_width. rewrite Hrest. cbn [encode map concat app]. rewrite T. cbn.
        apply born_new. exact R1.
      * split; [reflexivity|]. exists (rev (pre c) ++ [x]). split.
        -- unfold whole. rewrite E. cbn [app]. now rewrite <- app_assoc.
        -- cbn [pe_pos]. unfold next_point. rewrite <- next_point_rest, Hrest. cbn [encode map concat app]. rewrite T. cbn [fst].
           replace (rune_error =? 10) with false by reflexivity. cbn [at_ off]. rewrite R2, C2. unfold pos_at.
           rewrite encode_app, app_length. cbn [encode map concat]. rewrite app_nil_r, Nat2Z.inj_add, <- width_len'. destruct (hd_nl _); cbn [off]; lia.
  - right. pose proof (proj1 (Forall_cons_iff _ _ _) Hu) as [Hy Hu'].
    assert (Hd : decode_rune (rest (next_point (pt s))) = (y, length (encode_rune y))).
    { rewrite Hrest, encode_cons, <- app_assoc. now apply decode_encode_rune. }
    assert (Er : errs (read s) = []).
    { unfold read, read_at, cur_rune, cur_width. rewrite Hd. cbn [fst snd].
      destruct (_ && _) eqn:B; [|exact R1]. apply andb_true_iff in B as [B1 B2]. apply N.eqb_eq in B1. subst y.
      vm_compute in B2. discriminate. }
    split; [exact Er|]. split.
    + rewrite pt_read. unfold next_point. rewrite <- next_point_rest, Hd. cbn [fst].
      rewrite R2, C2. unfold pos_at. rewrite E. cbn [crs hd_nl app pre lfs since width].
      destruct (y =? 10), (x =? 10); cbn [at_ line col off]; f_equal; lia.
    + exists (y :: u). rewrite pt_read, Hrest. repeat split; auto. discriminate.
Qed.

Lemma rel_tick s c : Rel s c -> Rel (tick s) c.
Proof. exact (fun H => H). Qed.
Lemma rel_fail s c inv fl p w : Rel s c -> Rel (fail_at inv fl p w s) c.
Proof. unfold Rel. now rewrite errs_fail, pt_fail. Qed.
Lemma rel_back s s' c : Rel s c -> pt s' = pt s -> errs s' = [] -> Rel s' c.
Proof. unfold Rel. intros (R1 & R2 & R3) -> ->. auto. Qed.

Lemma rel_slice s c s' c' : Rel s c -> Rel s' c' -> adv (pt s) (pt s') -> cadv c c' ->
  slice (pt s) (pt s') = ctext c c'.
Proof.
  intros (_ & _ & u & Hu & H1 & H2 & _) (_ & _ & u' & Hu' & H1' & H2' & _) Ha (t & Ht & _).
  apply slice_adv in Ha. unfold ctext. rewrite (between_adv _ _ _ Ht).
  rewrite H1, H1', app_assoc in Ht. apply app_inv_tail in Ht. subst u.
  rewrite encode_app, <- app_assoc, H2' in *. rewrite H2 in Ha. now apply app_inv_tail in Ha.
Qed.

Lemma lit_bridge ic w : forallb (fun c => negb (c =? rune_error)) w = true -> forall s c, Rel s c ->
  match lit_loop ic w s with
  | (Some s', _) => inv_born (whole c) s' \/ match clit ic w c with Some c' => Rel s' c' | None => False end
  | (None, s') => inv_born (whole c) s' \/ (clit ic w c = None /\ errs s' = [])
  end.
Proof.
  induction w as [|w ws IH]; intros Hw s c R; cbn [lit_loop clit]; [auto|].
  cbn in Hw. apply andb_true_iff in Hw as [Hc Hw].
  destruct (crs c) as [|x r] eqn:E.
  - pose proof (rel_nil _ _ R E) as He. apply eof_rest in He. unfold cur_rune. rewrite He. cbn [decode_rune fst].
    replace (if ic then to_lower rune_error else rune_error) with rune_error by (destruct ic; reflexivity).
    rewrite N.eqb_sym. apply negb_true_iff in Hc. rewrite Hc. right. split; auto. apply R.
  - pose proof (rel_cons _ _ _ _ R E) as (C1 & _). rewrite C1.
    destruct (_ =? w); [|right; split; auto; apply R].
    destruct (rel_read _ _ _ _ R E) as [(e1 & D1 & D2)|R'].
    + pose proof (lit_loop_good (pt (read s)) ic ws Hw (read s)) as G.
      destruct (lit_loop ic ws (read s)) as [[s'|] s'']; left; exists e1; split; auto.
      * destruct G as (_ & G & _). eapply steps_born; eauto.
      * destruct G as (_ & G). eapply steps_born; eauto.
    + assert (Ew : whole {| pre := x :: pre c; crs := r |} = whole c) by (unfold whole; cbn [pre crs rev]; now rewrite E, <- app_assoc).
      specialize (IH Hw _ _ R'). rewrite Ew in IH. exact IH.
Qed.

Lemma good_dirty p0 nl s r : good p0 nl s r -> errs s <> [] -> dirty r \/ r = RFuel.
Proof. destruct r; cbn; intros G H; auto; left; eapply steps_errs; try exact H; apply G. Qed.

Section Loops.
Variable ev : expr -> frame -> state -> res.
Variable evc : expr -> frame -> cursor -> cres.
Hypothesis Hg : forall p0 e f s, wf e = true -> adv p0 (pt s) -> good p0 (nullable e) s (ev e f s).
Hypothesis Hc : forall e f c, wf e = true -> cgood (nullable e) c (evc e f c).
Hypothesis Hb : forall e f s c, wf e = true -> Rel s c -> cor c (ev e f s) (evc e f c).

Lemma seq_bridge start c0 es : at_ start = pos_at c0 ->
  (exists u, scalars u /\ crs c0 = u ++ ext /\ rest start = encode u ++ tl /\ (tl <> [] -> u <> [])) ->
  forall acc f s c, forallb wf es = true -> Rel s c -> adv start (pt s) -> whole c = whole c0 ->
  cor c0 (seq_loop ev start es acc f s) (cseq evc es acc f c).
Proof.
  intros P0 U0. induction es as [|e es IH]; intros acc f s c Hw R Ha Ew; cbn [seq_loop cseq].
  - right. right. auto.
  - cbn in Hw. apply andb_true_iff in Hw as [He Hw].
    pose proof (Hb e f s c He R) as B. pose proof (Hg start e f s He Ha) as G. pose proof (Hc e f c He) as Gc. unfold cor in B. rewrite Ew in B.
    destruct B as [B|[(e1 & B1 & B2)|B]].
    + rewrite B. left. reflexivity.
    + destruct (ev e f s) as [v f' s'|s'|s'|]; cbn in B1; [| | |contradiction].
      * destruct G as (G1 & _ & _).
        pose proof (seq_loop_good start ev (Hg start) start es (v :: acc) f' s' Hw (adv_refl _) (adv_trans _ _ _ Ha G1)) as G'.
        destruct (seq_loop ev start es (v :: acc) f' s') as [v2 f2 s2|s2|s2|]; [| | |left; reflexivity]; right; left;
          (exists e1; split; [cbn; eapply steps_born; [apply G'|auto]|]); destruct B2 as [->|B2]; auto.
      * right. left. destruct G as (G1 & _). rewrite restore_back by (now rewrite G1).
        exists e1. split; [exact B1|]. destruct B2 as [->|B2]; auto.
      * right. left. exists e1. split; [exact B1|]. destruct B2 as [->|B2]; auto.
    + destruct (ev e f s) as [v f' s'|s'|s'|]; destruct (evc e f c) as [v1 f1 c1| | | |]; try contradiction.
      * destruct B as (<- & <- & R'). destruct G as (G1 & _). apply IH; auto; [eapply adv_trans; eauto|]. destruct Gc as (Gc & _). rewrite (cadv_whole _ _ Gc). exact Ew.
      * right. right. destruct G as (G1 & _). rewrite restore_back by (now rewrite G1).
        split; [apply B|]. cbn. split; auto.
      * right. right. exact B.
Qed.

Lemma choice_bridge es : forall f s c, forallb wf es = true -> Rel s c ->
  cor c (choice_loop ev es f s) (cchoice evc es f c).
Proof.
  induction es as [|e es IH]; intros f s c Hw R; cbn [choice_loop cchoice].
  - right. right. exact R.
  - cbn in Hw. apply andb_true_iff in Hw as [He Hw].
    pose proof (Hb e [] s c He R) as B. pose proof (Hg (pt s) e [] s He (adv_refl _)) as G.
    destruct B as [B|[(e1 & B1 & B2)|B]].
    + rewrite B. left. reflexivity.
    + destruct (ev e [] s) as [v f' s'|s'|s'|]; cbn in B1; [| | |contradiction].
      * right. left. exists e1. split; [exact B1|]. destruct B2 as [->|B2]; auto.
      * destruct G as (G1 & _).
        pose proof (choice_loop_good (pt s') ev (Hg (pt s')) es f s' Hw (adv_refl _)) as G'.
        apply (fun g => good_born _ _ _ _ _ g B1) in G'. destruct G' as [G'| ->]; [|left; reflexivity].
        right. left. exists e1. split; [exact G'|]. destruct B2 as [->|B2]; auto.
      * right. left. exists e1. split; [exact B1|]. destruct B2 as [->|B2]; auto.
    + destruct (ev e [] s) as [v f' s'|s'|s'|]; destruct (evc e [] c) as [v1 f1 c1| | | |]; try contradiction.
      * destruct B as (<- & <- & R'). right. right. cbn. auto.
      * apply IH; auto.
      * right. right. exact B.
Qed.

Lemma star_bridge e k : wf e = true -> nullable e = false -> forall k' acc f s c, (length (crs c) < k')%nat -> Rel s c ->
  cor c (star_loop ev k e acc f s) (cstar evc k' e acc f c).
Proof.
  intros He Hn. induction k as [|k IH]; intros k' acc f s c Hk R; cbn [star_loop]; [left; reflexivity|].
  destruct k' as [|k']; [lia|]. cbn [cstar].
  pose proof (Hb e [] s c He R) as B. pose proof (Hg (pt s) e [] s He (adv_refl _)) as G.
  pose proof (Hc e [] c He) as Gc.
  destruct B as [B|[(e1 & B1 & B2)|B]].
  - rewrite B. left. reflexivity.
  - destruct (ev e [] s) as [v f' s'|s'|s'|]; cbn in B1; [| | |contradiction].
    + pose proof (star_loop_good (pt s') ev (Hg (pt s')) e k He (v :: acc) f s' (adv_refl _)) as G'.
      destruct (star_loop ev k e (v :: acc) f s') as [v2 f2 s2|s2|s2|]; [| | |left; reflexivity]; [|contradiction|]; right; left;
          (exists e1; split; [cbn; eapply steps_born; [apply G'|auto]|]); destruct B2 as [->|B2]; auto.
    + right. left. exists e1. split; [exact B1|]. destruct B2 as [->|B2]; auto.
    + right. left. exists e1. split; [exact B1|]. destruct B2 as [->|B2]; auto.
  - destruct (ev e [] s) as [v f' s'|s'|s'|]; destruct (evc e [] c) as [v1 f1 c1| | | |]; try contradiction.
    + destruct B as (<- & <- & R'). destruct Gc as (Gw & Gc). specialize (Gc Hn). apply cadv_whole in Gw.
      specialize (IH k' (v :: acc) f s' c1 ltac:(lia) R'). unfold cor in IH. rewrite Gw in IH.
      destruct IH as [IH|[IH|IH]]; [left|right; left|right; right]; auto.
      destruct (star_loop _ _ _ _ _ _) as [v2 f2 s2|s2|s2|] eqn:Es; destruct (cstar evc k' e (v :: acc) f c1); auto.
      pose proof (star_loop_good (pt s') ev (Hg (pt s')) e k He (v :: acc) f s' (adv_refl _)) as G'.
      rewrite Es in G'. contradiction.
    + right. right. auto.
    + right. right. exact B.
Qed.

Lemma throw_bridge l recs : Forall (fun p => wf (snd p) = true) recs -> forall f s c, Rel s c ->
  cor c (throw_loop ev l recs f s) (cthrow evc l recs f c).
Proof.
  induction 1 as [|[ls e] recs He Hrr IH]; intros f s c R; cbn [throw_loop cthrow].
  - right. right. exact R.
  - destruct (existsb _ ls); auto. cbn in He.
    pose proof (Hb e f s c He R) as B. pose proof (Hg (pt s) e f s He (adv_refl _)) as G.
    destruct B as [B|[(e1 & B1 & B2)|B]].
    + rewrite B. left. reflexivity.
    + destruct (ev e f s) as [v f' s'|s'|s'|]; cbn in B1; [| | |contradiction].
      * right. left. exists e1. split; [exact B1|]. destruct B2 as [->|B2]; auto.
      * pose proof (throw_loop_good (pt s') ev (Hg (pt s')) l recs Hrr f s' (adv_refl _)) as G'.
        apply (fun g => good_born _ _ _ _ _ g B1) in G'. destruct G' as [G'| ->]; [|left; reflexivity].
        right. left. exists e1. split; [exact G'|]. destruct B2 as [->|B2]; auto.
      * right. left. exists e1. split; [exact B1|]. destruct B2 as [->|B2]; auto.
    + destruct (ev e f s) as [v f' s'|s'|s'|]; destruct (evc e f c) as [v1 f1 c1| | | |]; try contradiction.
      * right. right. exact B.
      * apply IH; auto.
      * right. right. exact B.
Qed.
End Loops.

Theorem bridge n : forall inv recs e f s c, wf e = true -> recs_ok recs -> Rel s c ->
  cor c (eval O n inv recs e f s) (ceval O n recs e f c).
Proof.
  induction n as [|n IH]; intros inv recs e f s0 c Hw Hr R0; [left; reflexivity|].
  cbn [eval ceval]. set (s := tick s0). assert (R : Rel s c) by exact R0. clearbody s. clear R0 s0.
  assert (Hg : forall inv p0 e f s, wf e = true -> adv p0 (pt s) -> good p0 (nullable e) s (eval O n inv recs e f s))
    by (intros; apply eval_good; auto).
  assert (Hc : forall e f c, wf e = true -> cgood (nullable e) c (ceval O n recs e f c))
    by (intros; apply ceval_good; auto).
  assert (Hb : forall inv e f s c, wf e = true -> Rel s c -> cor c (eval O n inv recs e f s) (ceval O n recs e f c))
    by (intros; apply IH; auto).
  assert (Hrr : Forall (fun p => wf (snd p) = true) recs) by (eapply Forall_impl; [|exact Hr]; cbn; tauto).
  destruct e as [a e|l|l|l e|r|w ic want|v chars ranges ic invd| |e|e|e|e|e rc ls|l|cd]; cbn zeta;
    cbn [wf] in Hw; apply andb_true_iff in Hw as [_ Hw].
  - (* action *)
    pose proof (Hb inv e f s c Hw R) as B. pose proof (Hg inv (pt s) e f s Hw (adv_refl _)) as G. pose proof (Hc e f c Hw) as Gc.
    destruct B as [B|[(e1 & B1 & B2)|B]].
    + rewrite B. left. reflexivity.
    + destruct (eval O n inv recs e f s) as [v f' s'|s'|s'|]; cbn in B1; [| | |contradiction].
      * right. left. exists e1. split; [|destruct B2 as [->|B2]; auto].
        destruct (run_action _ _ _ _ _); cbn [dirtyw]; auto. now apply born_add.
      * right. left. exists e1. split; [exact B1|]. destruct B2 as [->|B2]; auto.
      * right. left. exists e1. split; [exact B1|]. destruct B2 as [->|B2]; auto.
    + destruct (eval O n inv recs e f s) as [v f' s'|s'|s'|]; destruct (ceval O n recs e f c) as [v1 f1 c1| | | |]; try contradiction;
        try (right; right; exact B).
      destruct B as (<- & <- & R'). destruct G as (G1 & _). destruct Gc as (Gc1 & _).
      rewrite (rel_slice _ _ _ _ R R' G1 Gc1). destruct R as (R1 & R2 & R3). rewrite R2.
      destruct (run_action _ _ _ _ _).
      * right. right. auto.
      * right. left. eexists. split; [apply born_new; apply R'|left; reflexivity].
      * right. right. apply R'.
  - eapply seq_bridge; eauto. apply R. apply R. apply adv_refl.
  - eapply choice_bridge; eauto.
  - pose proof (Hb inv e [] s c Hw R) as B.
    destruct B as [B|[(e1 & B1 & B2)|B]].
    + rewrite B. left. reflexivity.
    + right. left. exists e1. split; [|destruct B2 as [->|B2]; auto]. destruct (eval O n inv recs e [] s); auto.
    + destruct (eval O n inv recs e [] s) as [v f' s'|s'|s'|]; destruct (ceval O n recs e [] c) as [v1 f1 c1| | | |]; try contradiction;
        right; right; auto. destruct B as (<- & <- & R'). auto.
  - pose proof (Hb inv (rules r) [] s c (wf_rules r) R) as B.
    destruct B as [B|[(e1 & B1 & B2)|B]].
    + rewrite B. left. reflexivity.
    + right. left. exists e1. split; [|destruct B2 as [->|B2]; auto]. destruct (eval O n inv recs _ [] s); auto.
    + destruct (eval O n inv recs (rules r) [] s) as [v f' s'|s'|s'|]; destruct (ceval O n recs (rules r) [] c) as [v1 f1 c1| | | |]; try contradiction;
        right; right; cbn; auto. destruct B as (<- & <- & R'). auto.
  - (* literal *)
    pose proof (lit_bridge ic w Hw s c R) as B. pose proof (lit_loop_good (pt s) ic w Hw s) as G.
    destruct (lit_loop ic w s) as [[s'|] s''].
    + destruct B as [(e1 & B1 & B2)|B].
      * right. left. exists e1. split; auto. destruct B1 as (l1 & B1). exists l1. cbn. now rewrite errs_fail.
      * destruct (clit ic w c) as [c'|] eqn:Ec; [|contradiction]. right. right.
        rewrite (rel_slice _ _ _ _ R B); [|apply G|]. 2:{ apply clit_good in Ec. apply Ec. }
        split; auto. split; auto. now apply rel_fail.
    + destruct G as (G1 & _). rewrite restore_back by (now rewrite pt_fail).
      destruct B as [(e1 & B1 & B2)|[-> B]].
      * right. left. exists e1. split; auto. destruct B1 as (l1 & B1). exists l1. cbn. now rewrite errs_fail.
      * right. right. eapply rel_back; eauto. cbn. now rewrite errs_fail.
  - (* class *)
    destruct (crs c) as [|x r] eqn:E.
    + rewrite (rel_nil _ _ R E). right. right. now apply rel_fail.
    + pose proof (rel_cons _ _ _ _ R E) as (C1 & C2 & C3 & C4 & _). rewrite C3, C1.
      pose proof (rel_read _ _ _ _ R E) as RR.
      destruct (xorb _ _).
      * destruct RR as [(e1 & D1 & D2)|RR].
        -- right. left. exists e1. split; auto. destruct D1 as (l1 & D1). exists l1. cbn. now rewrite errs_fail.
        -- right. right. split; [|split; [auto|now apply rel_fail]]. f_equal.
           rewrite (rel_slice _ _ _ _ R RR).
           ++ unfold ctext. rewrite (between_adv _ [x]); auto.
           ++ rewrite pt_read. apply adv_next. now apply noeof_rest.
           ++ exists [x]. split; auto.
      * right. right. now apply rel_fail.
  - (* any *)
    destruct (crs c) as [|x r] eqn:E.
    + rewrite (rel_nil _ _ R E). right. right. now apply rel_fail.
    + pose proof (rel_cons _ _ _ _ R E) as (C1 & C2 & C3 & C4 & _). rewrite C3.
      pose proof (rel_read _ _ _ _ R E) as RR.
      destruct RR as [(e1 & D1 & D2)|RR].
      * right. left. exists e1. split; auto. destruct D1 as (l1 & D1). exists l1. cbn. now rewrite errs_fail.
      * right. right. split; [|split; [auto|now apply rel_fail]]. f_equal.
        rewrite (rel_slice _ _ _ _ R RR).
        -- unfold ctext. rewrite (between_adv _ [x]); auto.
        -- rewrite pt_read. apply adv_next. now apply noeof_rest.
        -- exists [x]. split; auto.
  - (* not *)
    pose proof (Hb (negb inv) e [] s c Hw R) as B. pose proof (Hg (negb inv) (pt s) e [] s Hw (adv_refl _)) as G.
    destruct B as [B|[(e1 & B1 & B2)|B]].
    + rewrite B. left. reflexivity.
    + right. left. exists e1. split; [|destruct B2 as [->|B2]; auto]. destruct (eval O n (negb inv) recs e [] s) as [v f' s'|s'|s'|]; auto.
      * destruct G as (G1 & _). rewrite restore_back by auto. exact B1.
      * destruct G as (G1 & _). rewrite restore_back by (rewrite G1; apply adv_refl). exact B1.
    + destruct (eval O n (negb inv) recs e [] s) as [v f' s'|s'|s'|]; destruct (ceval O n recs e [] c) as [v1 f1 c1| | | |]; try contradiction.
      * destruct G as (G1 & _). rewrite restore_back by auto. right. right. eapply rel_back; eauto. apply B.
      * destruct G as (G1 & _). rewrite restore_back by (rewrite G1; apply adv_refl). right. right.
        split; auto. split; auto. eapply rel_back; eauto. apply B.
      * right. right. exact B.
  - apply andb_true_iff in Hw as [Hw Hn]. apply negb_true_iff in Hn. eapply star_bridge; eauto.
  - apply andb_true_iff in Hw as [Hw Hn]. apply negb_true_iff in Hn.
    assert (B : cor c (star_loop (eval O n inv recs) (S (length (rest (pt s)))) e [] f s)
                      (cstar (ceval O n recs) (S (length (crs c))) e [] f c)) by (eapply star_bridge; eauto).
    pose proof (cstar_good _ Hc e (S (length (crs c))) Hw [] f c) as Gc.
    destruct B as [B|[(e1 & B1 & B2)|B]].
    + rewrite B. left. reflexivity.
    + right. left. exists e1. split; [|destruct B2 as [->|B2]; auto].
      destruct (star_loop _ _ _ _ _ _) as [v f' s'|s'|s'|]; auto. destruct v; auto. destruct l; auto.
    + destruct (star_loop _ _ _ _ _ _) as [v f' s'|s'|s'|]; destruct (cstar _ _ _ _ _ _) as [v1 f1 c1| | | |]; try contradiction;
        [|right; right; exact B].
      destruct B as (<- & <- & R'). destruct Gc as (_ & _ & l & -> & Gc & _). cbn [rev app]. destruct l; cbn [plus_res].
      * rewrite (Gc eq_refl) in R'. right. right. exact R'.
      * right. right. auto.
  - pose proof (Hb inv e [] s c Hw R) as B.
    destruct B as [B|[(e1 & B1 & B2)|B]].
    + rewrite B. left. reflexivity.
    + right. left. exists e1. split; [|destruct B2 as [->|B2]; auto]. destruct (eval O n inv recs e [] s); auto.
    + destruct (eval O n inv recs e [] s) as [v f' s'|s'|s'|]; destruct (ceval O n recs e [] c) as [v1 f1 c1| | | |]; try contradiction;
        right; right; auto. destruct B as (<- & <- & R'). auto.
  - apply andb_true_iff in Hw as [Hw Hd]. apply andb_true_iff in Hw as [Hw Hrc].
    apply IH; auto. constructor; auto. cbn. split; auto. now apply Nat.leb_le.
  - eapply throw_bridge; eauto.
  - right. left. eexists. split; [apply born_new; apply R|left]. destruct R as (_ & -> & _). reflexivity.
Qed.
End Bridge.

(** Longest valid prefix. *)
Lemma split_valid q : exists u tl, scalars u /\ q = encode u ++ tl /\ (tl = [] \/ decode_rune tl = (rune_error, 1%nat)).
Proof.
  remember (length q) as n eqn:Hn. assert (Hle : (length q <= n)%nat) by lia. clear Hn.
  revert q Hle. induction n as [|n IH]; intros q Hle.
  - destruct q; [|cbn in Hle; lia]. exists [], []. repeat split; auto. constructor.
  - destruct q as [|c q]; [exists [], []; repeat split; auto; constructor|].
    destruct (decode_rune (c :: q)) as [r w] eqn:D.
    assert (Dec : (r, w) = (rune_error, 1%nat) \/ (r, w) <> (rune_error, 1%nat)).
    { destruct (N.eq_dec r rune_error), (Nat.eq_dec w 1); [left; congruence|right; congruence..]. }
    destruct Dec as [E|E].
    + exists [], (c :: q). repeat split; [constructor|]. right. congruence.
    + destruct (decode_rune_ok _ _ _ D) as (S1 & S2 & S3); [congruence|discriminate|].
      destruct (IH (skipn w (c :: q))) as (u & tl & U1 & U2 & U3).
      * pose proof (encode_rune_len r). rewrite skipn_length. cbn [length] in *. lia.
      * exists (r :: u), tl. repeat split; auto; [constructor; auto|].
        rewrite encode_cons, <- app_assoc, <- U2. exact S2.
Qed.

(** ** The parser in terms of the simplified evaluator *)
Section Top.
Context (O : oracles).

Definition ctop (rs : list N) : cres := cev O [] (rules RStart) [] {| pre := []; crs := rs |}.

Lemma init_rel u tl : scalars u -> (tl = [] \/ decode_rune tl = (rune_error, 1%nat)) -> (tl <> [] -> u <> []) ->
  Rel tl (init_state (encode u ++ tl)) {| pre := []; crs := u ++ ext tl |}.
Proof.
  intros Hu Ht Hn.
  assert (D : u = [] /\ tl = [] \/ exists y u', u = y :: u' /\ is_scalar y = true /\
            decode_rune (encode u ++ tl) = (y, length (encode_rune y))).
  { destruct u as [|y u]; [left; split; auto; destruct tl; auto; exfalso; apply Hn; auto; discriminate|right].
    exists y, u. inversion Hu; subst. split; auto. split; auto. rewrite encode_cons, <- app_assoc. now apply decode_encode_rune. }
  assert (P : at_ (pt (init_state (encode u ++ tl))) = pos_at {| pre := []; crs := u ++ ext tl |}).
  { rewrite pt_init. cbn [at_]. unfold pos_at. cbn [crs pre lfs since width].
    destruct D as [[-> ->]|(y & u' & -> & Hy & D)]; [reflexivity|]. rewrite D. cbn [fst hd_nl app]. destruct (y =? 10); reflexivity. }
  split; [|split; [exact P|]].
  - unfold init_state, read_at. destruct D as [[-> ->]|(y & u' & -> & Hy & D)]; [reflexivity|].
    rewrite D. cbn [fst]. destruct (y =? 10) eqn:E; unfold cur_rune, cur_width; cbn [rest]; rewrite D; cbn [fst snd];
      (destruct (_ && _) eqn:B; [|reflexivity]); apply andb_true_iff in B as [B1 B2]; apply N.eqb_eq in B1; subst y; vm_compute in B2; discriminate.
  - exists u. rewrite pt_init. repeat split; auto.
Qed.

(** On valid UTF-8: exact correspondence. *)
Theorem run_valid rs : scalars rs ->
  match ctop rs with
  | COk v f c' => exists s', run O (encode rs) = RVal v f s' /\ Rel [] s' c'
  | CNo => exists s', run O (encode rs) = RFail s' /\ errs s' = []
  | CPan => exists s', run O (encode rs) = RPanic s' /\ errs s' = []
  | CBad e => dirtyw e (run O (encode rs))
  | CFuel => False
  end.
Proof.
  intros Hs. pose proof (run_no_fuel O (encode rs)) as Hn.
  assert (R : Rel [] (init_state (encode rs)) {| pre := []; crs := rs |}).
  { pose proof (init_rel rs [] Hs (or_introl eq_refl)) as R. cbn in R. rewrite !app_nil_r in R. apply R. congruence. }
  unfold run in *.
  pose proof (bridge O [] (or_introl eq_refl) (fuel_for (encode rs)) false [] (rules RStart) [] _ _ eq_refl (Forall_nil _) R) as B.
  assert (L : (length rs <= length (encode rs))%nat).
  { clear. induction rs as [|r rs IH]; [cbn; lia|]. rewrite encode_cons, app_length. pose proof (encode_rune_len r). cbn. lia. }
  rewrite cev_ceval in B; [| reflexivity | constructor |].
  2:{ unfold need, fuel_for. cbn [crs]. assert (depth (rules RStart) <= 100)%nat by (apply Nat.leb_le; vm_compute; reflexivity).
      unfold slack. lia. }
  fold (ctop rs) in B. fold (run O (encode rs)) in *.
  destruct B as [B|[(e1 & B1 & B2)|B]]; [congruence| |].
  - destruct B2 as [->|[B2 _]]; [exact B1|congruence].
  - destruct (run O (encode rs)) as [v f s'|s'|s'|]; destruct (ctop rs); try contradiction.
    + destruct B as (<- & <- & R'). eauto.
    + exists s'. split; auto. apply B.
    + eauto.
Qed.

(** The first error recorded is the one the simplified evaluator reports, or it is about the
    first invalid byte and placed there. *)
Theorem run_first u tl e : scalars u -> (tl = [] \/ decode_rune tl = (rune_error, 1%nat)) -> dirtyw e (run O (encode u ++ tl)) ->
  ctop (u ++ ext tl) = CBad e \/ (tl <> [] /\ pe_kind e = KInvalidEncoding /\ off (pe_pos e) = Z.of_nat (length (encode u))).
Proof.
  intros Hu Ht D.
  assert (Un : forall s e1 e2, born s e1 -> born s e2 -> e1 = e2).
  { intros s e1 e2 (l1 & E1) (l2 & E2). rewrite E1 in E2. now apply app_inj_tail in E2 as [_ E2]. }
  assert (Ur : forall r e1 e2, dirtyw e1 r -> dirtyw e2 r -> e1 = e2) by (intros [] ? ? ? ?; cbn in *; try contradiction; eauto).
  destruct (list_eq_dec N.eq_dec tl []) as [Et|Et].
  2:{ destruct u as [|y u].
      - right. split; auto. destruct Ht as [Ht|Ht]; [congruence|]. cbn [encode map concat app] in *.
        assert (B0 : exists e0, born (init_state tl) e0 /\ pe_kind e0 = KInvalidEncoding /\ off (pe_pos e0) = 0%Z).
        { unfold init_state, read_at. rewrite Ht. cbn [fst]. replace (rune_error =? 10) with false by reflexivity.
          unfold cur_rune, cur_width. cbn [rest]. rewrite Ht. cbn. eexists. split; [exists []; reflexivity|]. split; reflexivity. }
        destruct B0 as (e0 & B0 & K0 & O0). pose proof (run_good O tl) as G. pose proof (run_no_fuel O tl).
        apply (fun g => good_born _ _ _ _ _ g B0) in G. destruct G as [G|G]; [|congruence]. rewrite (Ur _ _ _ D G). auto.
      - pose proof (init_rel (y :: u) tl Hu Ht (fun _ => ltac:(discriminate))) as R. revert D R.
        set (q := encode (y :: u) ++ tl). intros D R. pose proof (run_no_fuel O q) as Hn. unfold run in D, Hn.
        pose proof (bridge O tl Ht (fuel_for q) false [] (rules RStart) [] _ _ eq_refl (Forall_nil _) R) as B.
        assert (L : (length ((y :: u) ++ ext tl) <= length q)%nat).
        { unfold q. rewrite !app_length.
          assert (Hl : forall l, (length l <= length (encode l))%nat).
          { clear. induction l as [|r rs IH]; [cbn; lia|]. rewrite encode_cons, app_length. pose proof (encode_rune_len r). cbn. lia. }
          specialize (Hl (y :: u)). destruct tl; cbn [ext length] in *; lia. }
        rewrite cev_ceval in B; [| reflexivity | constructor |].
        2:{ unfold need, fuel_for. cbn [crs]. assert (depth (rules RStart) <= 100)%nat by (apply Nat.leb_le; vm_compute; reflexivity).
            unfold slack. lia. }
        fold (ctop ((y :: u) ++ ext tl)) in B.
        destruct B as [B|[(e1 & B1 & B2)|B]]; [congruence| |].
        + rewrite (Ur _ _ _ D B1). destruct B2 as [B2|(_ & K & t & E & Of)]; [now left|right].
          unfold whole in E. cbn [pre crs rev] in E. change ([] ++ (y :: u) ++ ext tl) with ((y :: u) ++ ext tl) in E. apply app_inv_tail in E. subst t. auto.
        + exfalso. destruct (eval O (fuel_for q) false [] (rules RStart) [] (init_state q)) as [v f s'|s'|s'|]; destruct (ctop ((y :: u) ++ ext tl)); try contradiction;
            cbn in D; apply born_errs in D; [destruct B as (_ & _ & B)| |]; apply D, B. }
  left. subst tl. cbn [ext]. rewrite !app_nil_r in *. pose proof (run_valid u Hu) as V.
  destruct (ctop u) as [v f c'| |e0| |].
  - destruct V as (s' & Es & R). rewrite Es in D. apply born_errs in D. destruct D. apply R.
  - destruct V as (s' & Es & R). rewrite Es in D. apply born_errs in D. contradiction.
  - now rewrite (Ur _ _ _ V D).
  - destruct V as (s' & Es & R). rewrite Es in D. apply born_errs in D. contradiction.
  - contradiction.
Qed.

(** On any bytes that are not valid UTF-8: an error is recorded, or the run is one of a valid text. *)
Theorem run_invalid q : valid_utf8 q = false ->
  dirty (run O q) \/
  exists rs, match run O q, ctop rs with
             | RVal v f s', COk v' f' c' => v' = v /\ crs c' <> []
             | RFail s', CNo => errs s' = []
             | RPanic s', CPan => errs s' = []
             | _, _ => False
             end.
Proof.
  intros Hv. destruct (split_valid q) as (u & tl & Hu & -> & Ht).
  assert (Hne : tl <> []).
  { intros ->. rewrite app_nil_r in Hv. assert (valid_utf8 (encode u) = true) by (apply valid_utf8_spec; eauto). congruence. }
  destruct u as [|y u].
  { left. cbn [encode map concat app]. destruct Ht as [Ht|Ht]; [congruence|].
    assert (E : errs (init_state tl) <> []).
    { unfold init_state, read_at. rewrite Ht. cbn. unfold cur_rune, cur_width. cbn. rewrite Ht. cbn. discriminate. }
    pose proof (run_good O tl) as G. pose proof (run_no_fuel O tl). apply good_dirty in G; [|exact E]. tauto. }
  pose proof (run_no_fuel O (encode (y :: u) ++ tl)) as Hn.
  pose proof (init_rel (y :: u) tl Hu Ht (fun _ => ltac:(discriminate))) as R.
  set (q := encode (y :: u) ++ tl) in *. unfold run in *.
  pose proof (bridge O tl Ht (fuel_for q) false [] (rules RStart) [] _ _ eq_refl (Forall_nil _) R) as B.
  assert (L : (length ((y :: u) ++ ext tl) <= length q)%nat).
  { unfold q. rewrite !app_length.
    assert (forall l, length l <= length (encode l))%nat.
    { clear. induction l as [|r rs IH]; [cbn; lia|]. rewrite encode_cons, app_length. pose proof (encode_rune_len r). cbn. lia. }
    specialize (H (y :: u)). destruct tl; cbn [ext length] in *; lia. }
  rewrite cev_ceval in B; [| reflexivity | constructor |].
  2:{ unfold need, fuel_for. cbn [crs]. assert (depth (rules RStart) <= 100)%nat by (apply Nat.leb_le; vm_compute; reflexivity).
      unfold slack. lia. }
  fold (ctop ((y :: u) ++ ext tl)) in B. fold (run O q) in *.
  destruct B as [B|[(e1 & B1 & B2)|B]]; [congruence|left; eapply dirtyw_dirty; exact B1|].
  right. exists ((y :: u) ++ ext tl). destruct (run O q); destruct (ctop ((y :: u) ++ ext tl)); try contradiction; auto.
  - destruct B as (<- & <- & R'). split; auto. destruct R' as (_ & _ & u' & _ & H1 & _ & H2).
    rewrite H1. specialize (H2 Hne). destruct u'; [congruence|discriminate].
  - apply B.
Qed.
End Top.
