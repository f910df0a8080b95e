(** The start rule: continuing the text before the farthest failure. *)
From Verif Require Import Bytes Utf8 Utf8Proofs Oracles Ast PegSyntax Grammar Actions Engine EngineBasics Bridge Viable.

Section Start.
Context (O : oracles) (q : bytes).
Variable V : list N -> Prop.
Hypothesis Vpre : forall P w, scalars w -> V (P ++ w) -> V P.
Variable Cp : list N -> Prop.
(** The start rule: a query and the end of the text. *)
Theorem viable_start n f s : here q [] s -> V [] -> mfok q V Cp s ->
  (forall w, scalars w -> L (ERule RQuery) w -> V w /\ Cp w) ->
  let r := eval O n false [] (rules RStart) f s in
  r = RFuel \/ badr q V r \/ match r with RVal _ _ s' => errs s' = [] | RFail s' => mfok q V Cp s' /\ errs s' = [] | RPanic s' => errs s' = [] | RFuel => False end.
Proof.
  intros H HV M HL. cbn zeta. cbn [rules]. destruct n as [|n]; [left; reflexivity|]. cbn [eval].
  destruct n as [|n]; [left; reflexivity|]. set (ex := eval O n false []). cbn [eval seq_loop]. fold ex. set (s1 := tick (tick s)).
  assert (H1 : here q [] s1) by exact H. assert (M1 : mfok q V Cp s1) by exact M.
  change (pt (tick s)) with (pt s1). change (at_ (pt (tick s))) with (at_ (pt s1)). clearbody s1.
  assert (Hfin : forall f' s' t, errs s' = [] \/ bad q V s' ->
    let r := match run_action O AStart1 f' (at_ (pt s1)) t with
             | AOk v => RVal v f' s' | AErr v k => RVal v f' (add_err s' k (at_ (pt s1))) | APanic => RPanic s' end in
    r = RFuel \/ badr q V r \/ match r with RVal _ _ s' => errs s' = [] | RFail s' => mfok q V Cp s' /\ errs s' = [] | RPanic s' => errs s' = [] | RFuel => False end).
  { intros f' s' t Hs. cbn zeta. destruct (run_action _ _ _ _ _) eqn:Er; destruct Hs as [Hs|Hs]; right; auto; left; cbn [badr]; auto.
    - discriminate Er.
    - now apply bad_add. }
  assert (Ho : ok (ELabel "query" (ERule RQuery)) = true) by reflexivity.
  assert (HL1 : forall w, scalars w -> L (ELabel "query" (ERule RQuery)) w -> V ([] ++ w)).
  { intros w Sw Lw. inversion Lw; subst. now apply HL. }
  pose proof (viable O q V Vpre Cp n [] (ELabel "query" (ERule RQuery)) f [] s1 Ho eq_refl (Forall_nil _) (Forall_nil _) H1 HV M1 HL1) as B.
  pose proof (eval_good O (pt s1) n false [] (ELabel "query" (ERule RQuery)) f s1 eq_refl (Forall_nil _) (adv_refl _)) as G.
  fold ex in B, G. 
  assert (Heof : forall p0 s f, adv p0 (pt s) -> good p0 (nullable (ERule REOF)) s (ex (ERule REOF) f s)) by (intros; apply eval_good; auto; constructor).
  destruct B as [B|[B|B]].
  - rewrite B. left. reflexivity.
  - destruct (ex (ELabel _ _) f s1) as [v f' s'|s'|s'|]; cbn in B; [| | |contradiction].
    + specialize (Heof (pt s') s' f' (adv_refl _)). apply (good_bad q V) in Heof; [|exact B].
      destruct Heof as [Hb|Hb]; [|rewrite Hb; left; reflexivity].
      destruct (ex (ERule REOF) f' s') as [v2 f2 s2|s2|s2|]; cbn in Hb; [| | |contradiction].
      * apply Hfin. now right.
      * right. left. cbn. eapply bad_eq; [|exact Hb]. unfold restore. destruct (_ =? _)%Z; reflexivity.
      * right. left. exact Hb.
    + right. left. cbn. eapply bad_eq; [|exact B]. unfold restore. destruct (_ =? _)%Z; reflexivity.
    + right. left. exact B.
  - destruct (ex (ELabel _ _) f s1) as [v f' s'|s'|s'|]; try contradiction.
    + destruct B as (M' & w & Sw & Lw & H'). cbn [app] in H'. assert (Lq : L (ERule RQuery) w) by (inversion Lw; auto).
      destruct (HL w Sw Lq) as (Vw & Cw).
      pose proof (flat_out O q V Vpre Cp 10 n false [] (ERule REOF) f' w s' eq_refl eq_refl (Forall_nil _) H' Vw M') as B.
      assert (HS : forall x, In x (wants 10 false (ERule REOF)) -> sugg V Cp w x) by (intros x [<-|[]]; now apply sg_end).
      specialize (B HS). fold ex in B. destruct B as [B|[B|B]].
      * rewrite B. left. reflexivity.
      * destruct (ex (ERule REOF) f' s') as [v2 f2 s2|s2|s2|]; cbn in B; [| | |contradiction].
        -- apply Hfin. now right.
        -- right. left. cbn. eapply bad_eq; [|exact B]. unfold restore. destruct (_ =? _)%Z; reflexivity.
        -- right. left. exact B.
      * destruct (ex (ERule REOF) f' s') as [v2 f2 s2|s2|s2|]; try contradiction.
        -- apply Hfin. left. apply B.
        -- right. right. destruct B as (B1 & B2 & _).
           split; [apply (mfok_eq q V Cp s2); auto|]; unfold restore; destruct (_ =? _)%Z; auto; apply B2.
    + right. right. destruct B as (B1 & B2).
      split; [apply (mfok_eq q V Cp s'); auto|]; unfold restore; destruct (_ =? _)%Z; auto; apply B2.
    + right. right. exact B.
Qed.
End Start.
