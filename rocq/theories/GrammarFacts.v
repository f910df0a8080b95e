(** Facts about the grammar specification used by the property files. *)
From Verif Require Import Bytes Utf8 Utf8Proofs GoStrconv GoTime GoNet GoFloat Oracles Ast AstSpec GrammarSpec.

Lemma encode_rune_high c : 128 <= c -> Forall (fun x => 128 <= x) (encode_rune c).
Proof.
  intros H. unfold encode_rune, encode_raw. destruct (is_scalar c); [|repeat constructor; vm_compute; discriminate].
  assert (L : forall k x, 128 <= k -> 128 <= k + x) by (intros; lia).
  destruct (c <? 128) eqn:E; [apply N.ltb_lt in E; lia|].
  destruct (c <? 2048); [|destruct (c <? 65536)]; repeat (constructor; [apply L; vm_compute; discriminate|]); constructor.
Qed.

Section F.
Context (O : oracles).

Lemma literal_pos t p v : literal O t p v -> val_pos v = p.
Proof.
  assert (B : forall t p v, new_regexp_val O t p = Some v \/ new_time_val t p = Some v \/ new_net_val O t p = Some v \/
    new_float_val O t p = Some v \/ new_int_val t p = Some v -> val_pos v = p).
  { clear. intros t p v [H|[H|[H|[H|H]]]].
    - unfold new_regexp_val in H. destruct (o_re_parse O _); [|discriminate]. now injection H as <-.
    - unfold new_time_val in H. destruct (Nat.eqb _ _).
      + destruct (parse_date t); [|discriminate]. now injection H as <-.
      + destruct (parse_rfc3339 t); [|discriminate]. now injection H as <-.
    - unfold new_net_val in H. cbn zeta in H. destruct (parse_prefix _ _); [|discriminate]. now injection H as <-.
    - unfold new_float_val in H. destruct (parse_float _ _) as [g|]; [|discriminate]. destruct g; try discriminate; now injection H as <-.
    - unfold new_int_val in H. destruct (parse_int t); [|discriminate]. now injection H as <-. }
  destruct 1; try reflexivity; eapply B; eauto 6.
Qed.

(** A comparison itself, without parentheses around it. *)
Inductive comparison (pre : text) : text -> op -> list bytes -> list aval -> Prop :=
| cmp_noarg f l w1 w2 k o : field f l -> ws w1 -> ws w2 -> noarg_op k o ->
    comparison pre (f ++ w1 ++ tx ":" ++ w2 ++ k) o l []
| cmp_values f l w1 w2 k o w3 v vs : field f l -> ws w1 -> ws w2 -> comp_op k o -> ws w3 ->
    values O (pre ++ f ++ w1 ++ tx ":" ++ w2 ++ k ++ w3) v vs ->
    comparison pre (f ++ w1 ++ tx ":" ++ w2 ++ k ++ w3 ++ v) o l vs.

(** Each comparison of a tree has its text in the query. *)
Lemma derives_expr l pre t x o f vs p : derives O l pre t x -> subnode (NExpr o f vs p) x ->
  exists a k z, pre ++ t = a ++ k ++ z /\ p = pos_of a k /\ comparison a k o f vs.
Proof.
  induction 1; intros S.
  - inversion S; subst.
    + destruct IHderives1 as (a' & k & z & E & P & D); auto. exists a', k, (z ++ w1 ++ tx "OR" ++ w2 ++ c). split; [|auto]. rewrite app_assoc, E. now rewrite <- !app_assoc.
    + destruct IHderives2 as (a' & k & z & E & P & D); auto. exists a', k, z. split; [|auto]. rewrite <- E. now rewrite <- !app_assoc.
  - auto.
  - inversion S; subst.
    + destruct IHderives1 as (a' & k & z & E & P & D); auto. exists a', k, (z ++ w1 ++ tx "AND" ++ w2 ++ c). split; [|auto]. rewrite app_assoc, E. now rewrite <- !app_assoc.
    + destruct IHderives2 as (a' & k & z & E & P & D); auto. exists a', k, z. split; [|auto]. rewrite <- E. now rewrite <- !app_assoc.
  - auto.
  - inversion S; subst. destruct IHderives as (a' & k & z & E & P & D); auto. exists a', k, z. split; [|auto]. rewrite <- E. now rewrite <- !app_assoc.
  - auto.
  - destruct IHderives as (a' & k & z & E & P & D); auto.
    exists a', k, (z ++ w2 ++ tx ")"). split; [|auto]. rewrite !app_assoc in *. rewrite E. now rewrite <- !app_assoc.
  - inversion S; subst. exists pre, t, []. rewrite app_nil_r. repeat split. now apply cmp_noarg.
  - inversion S; subst. exists pre, t, []. rewrite app_nil_r. repeat split. now apply cmp_values.
Qed.

(** A value of a comparison, with its text in place. *)
Lemma more_values_in pre u vs v : more_values O pre u vs -> In v vs ->
  exists a k z, pre ++ u = a ++ k ++ z /\ literal O k (pos_of a k) v.
Proof.
  induction 1; intros I.
  - destruct I as [<-|[]]. exists (pre ++ w1 ++ tx "," ++ w2), t, []. split; [|auto]. now rewrite <- !app_assoc, app_nil_r.
  - destruct I as [<-|I].
    + exists (pre ++ w1 ++ tx "," ++ w2), t, u. split; [|auto]. now rewrite <- !app_assoc.
    + destruct (IHmore_values I) as (a & k & z & E & L). exists a, k, z. split; [|auto]. rewrite <- E. now rewrite <- !app_assoc.
Qed.
Lemma values_in pre u vs v : values O pre u vs -> In v vs ->
  exists a k z, pre ++ u = a ++ k ++ z /\ literal O k (pos_of a k) v.
Proof.
  destruct 1 as [? ? ? L|pre w1 t w u vs w2 W1 W2 L M]; intros I.
  - destruct I as [<-|[]]. exists pre, t, []. now rewrite app_nil_r.
  - destruct I as [<-|I].
    + exists (pre ++ tx "(" ++ w1), t, (u ++ w2 ++ tx ")"). split; [|auto]. now rewrite <- !app_assoc.
    + destruct (more_values_in _ _ _ _ M I) as (a & k & z & E & L'). exists a, k, (z ++ w2 ++ tx ")"). split; auto.
      rewrite <- !app_assoc in E. rewrite (app_assoc a), (app_assoc (a ++ k)), <- (app_assoc a k z), <- E. now rewrite <- !app_assoc.
Qed.
Lemma comparison_value_in a k o f vs v : comparison a k o f vs -> In v vs ->
  exists a' k' z', a ++ k = a' ++ k' ++ z' /\ literal O k' (pos_of a' k') v.
Proof.
  destruct 1 as [|? ? ? ? ? ? ? ? ? ? ? ? ? ? V]; [intros []|]. intros I. destruct (values_in _ _ _ _ V I) as (a' & k' & z' & E & L).
  exists a', k', z'. split; [|auto]. rewrite <- E. now rewrite <- !app_assoc.
Qed.
End F.
