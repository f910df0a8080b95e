(** The reasons of Reasons.v are those of ReasonSpec.v. *)
From Verif Require Import Bytes Utf8 Utf8Proofs GoStrconv GoTime GoNet Oracles Ast GrammarSpec LiteralSpec LiteralProofs MatchSpec NetProofs NetLitProofs Reasons ReasonSpec.
From Coq Require Import ZifyBool ZifyN ZifyNat.

Lemma app_inj_len {A} (a : list A) : forall c x y, length a = length c -> a ++ x = c ++ y -> a = c /\ x = y.
Proof.
  induction a as [|h a IH]; intros [|k c] x y L E; try discriminate L; cbn in *; [auto|].
  injection E as -> E. injection L as L. destruct (IH c x y L E) as [-> ->]. auto.
Qed.
Lemma fw_here (P : Prop) r l : P -> first_wrong ((P, r) :: l) r.
Proof. intros H. exists [], P, l. auto. Qed.
Lemma fw_skip (P : Prop) x l r : ~ P -> first_wrong l r -> first_wrong ((P, x) :: l) r.
Proof. intros H (l1 & Q & l2 & -> & HQ & F). exists ((P, x) :: l1), Q, l2. repeat split; auto. Qed.
Lemma fw_app l1 l2 r : Forall (fun x => ~ fst x) l1 -> first_wrong l2 r -> first_wrong (l1 ++ l2) r.
Proof. induction 1 as [|[P x] l H F IH]; [auto|]. intros G. cbn [app]. apply fw_skip; auto. Qed.
Lemma fw_left l1 l2 r : first_wrong l1 r -> first_wrong (l1 ++ l2) r.
Proof. intros (a & P & c & -> & H & F). exists a, P, (c ++ l2). rewrite <- app_assoc. auto. Qed.
(** What a reason function must satisfy *)
Definition explains (x : option bytes) (l : list (Prop * bytes)) : Prop :=
  match x with Some r => first_wrong l r | None => Forall (fun p => ~ fst p) l end.
Lemma ex_here (P : Prop) r l : P -> explains (Some r) ((P, r) :: l).
Proof. apply fw_here. Qed.
Lemma ex_skip (P : Prop) x l r : ~ P -> explains r l -> explains r ((P, x) :: l).
Proof. intros H E. destruct r; cbn in *; [now apply fw_skip|constructor; auto]. Qed.
Lemma ex_app r l1 l2 x : explains r l1 -> (r = None -> explains x l2) -> explains (match r with Some y => Some y | None => x end) (l1 ++ l2).
Proof.
  destruct r; cbn [explains].
  - intros F _. now apply fw_left.
  - intros F G. specialize (G eq_refl). destruct x; cbn [explains] in *; [now apply fw_app|apply Forall_app; auto].
Qed.
Lemma ex_need (P : Prop) c what l r : (c = true -> ~ P) -> (c = false -> P) -> explains r l ->
  explains (match need c what with Go _ => r | Stop x => Some x end) ((P, b what ++ b " out of range") :: l).
Proof. intros H H' G. unfold need. destruct c; [apply ex_skip|apply ex_here]; auto. Qed.

(** ** Dates *)
Lemma day_explained y m d : ndigits 4 y -> ndigits 2 m -> ndigits 2 d -> (1 <= dec_num m <= 12)%Z ->
  explains (day_reason (Z.to_N (dec_num y)) (Z.to_N (dec_num m)) (Z.to_N (dec_num d))) [day_fault y m d].
Proof.
  intros Y M D R. assert (0 <= dec_num y)%Z by (apply dec_num_nonneg, Y). assert (0 <= dec_num d)%Z by (apply dec_num_nonneg, D).
  unfold day_reason, day_fault. change (b "day out of range") with (b "day" ++ b " out of range"). rewrite month_days_eq by auto. unfold num_between.
  apply ex_need; [lia|lia|]. constructor.
Qed.
Lemma date_explained y m d : ndigits 4 y -> ndigits 2 m -> ndigits 2 d ->
  explains (date_reason (y ++ tx "-" ++ m ++ tx "-" ++ d)) (date_faults y m d).
Proof.
  intros Y M D. assert (0 <= dec_num m)%Z by (apply dec_num_nonneg, M).
  unfold date_reason. rewrite num4_ok by auto. change (tx "-") with [45]. cbn [app or_stop].
  rewrite eat_ok. cbn [or_stop]. rewrite num2_ok by auto. cbn [or_stop]. unfold date_faults, month_fault.
  change (b "month out of range") with (b "month" ++ b " out of range"). unfold num_between.
  destruct ((1 <=? Z.to_N (dec_num m)) && (Z.to_N (dec_num m) <=? 12)) eqn:R; cbn [need].
  - apply ex_skip; [lia|]. rewrite eat_ok. cbn [or_stop]. rewrite <- (app_nil_r d) at 1. rewrite num2_ok by auto. cbn [or_stop]. apply day_explained; auto. lia.
  - apply ex_here. lia.
Qed.
Lemma zone_explained z l r : zone z -> explains r l ->
  explains (match zone_reason z with Go _ => r | Stop x => Some x end) (zone_faults z ++ l).
Proof.
  assert (NM : forall (c : N) h m, c = 43 \/ c = 45 -> ndigits 2 h -> ndigits 2 m -> zone_reason (c :: h ++ tx ":" ++ m) =
    if (60 <? dec_num m)%Z then Stop (b "time zone offset minute out of range")
    else if (24 <? dec_num h)%Z then Stop (b "time zone offset hour out of range") else Go tt).
  { intros c h m Hc H M. assert (E : zone_reason (c :: h ++ tx ":" ++ m) =
      match (do (h, r) <- num2 (h ++ tx ":" ++ m);; do r <- eat 58 r;; do (m, r) <- num2 r;; match r with [] => Some (h, m) | _ => None end) with
      | None => Stop []
      | Some (h, m) => if 60 <? m then Stop (b "time zone offset minute out of range")
      else if 24 <? h then Stop (b "time zone offset hour out of range")
      else if (c =? 43) || (c =? 45) then Go tt else Stop [] end) by (destruct Hc as [->| ->]; reflexivity).
    rewrite E, num2_ok by auto. change (tx ":") with [58]. cbn [app]. rewrite eat_ok. rewrite <- (app_nil_r m) at 1. rewrite num2_ok by auto.
    assert (0 <= dec_num h)%Z by (apply dec_num_nonneg, H). assert (0 <= dec_num m)%Z by (apply dec_num_nonneg, M).
    replace (60 <? Z.to_N (dec_num m)) with (60 <? dec_num m)%Z by lia. replace (24 <? Z.to_N (dec_num h)) with (24 <? dec_num h)%Z by lia.
    destruct Hc as [->| ->]; reflexivity. }
  intros Zn G. unfold zone_faults. cbn [app].
  assert (Off : forall c h m, c = 43 \/ c = 45 -> ndigits 2 h -> ndigits 2 m -> z = [c] ++ h ++ tx ":" ++ m ->
    explains (match zone_reason z with Go _ => r | Stop x => Some x end) (zone_faults z ++ l)).
  { intros c h m Hc H M ->. cbn [app]. rewrite NM by auto.
    assert (0 <= dec_num h)%Z by (apply dec_num_nonneg, H). assert (0 <= dec_num m)%Z by (apply dec_num_nonneg, M).
    assert (U : forall s h' m', c :: h ++ tx ":" ++ m = s ++ h' ++ tx ":" ++ m' -> length s = 1%nat -> ndigits 2 h' -> ndigits 2 m' -> h' = h /\ m' = m).
    { intros s h' m' E L H' M'. destruct s as [|x [|]]; try discriminate L. cbn [app] in E. injection E as _ E.
      destruct H as [_ H], H' as [_ H']. apply app_inj_len in E as [<- E']; [|congruence]. injection E' as <-. auto. }
    unfold zone_faults. cbn [app]. apply ex_skip; [intros [= E _]; lia|].
    destruct (60 <? dec_num m)%Z eqn:E1.
    - apply ex_here. exists [c], h, m. repeat split; try apply H; try apply M. unfold num_between. lia.
    - apply ex_skip. { intros (s & h' & m' & E & L & H' & M' & B). destruct (U s h' m' E L H' M') as [-> ->]. unfold num_between in B. lia. }
      destruct (24 <? dec_num h)%Z eqn:E2.
      + apply ex_here. exists [c], h, m. repeat split; try apply H; try apply M. unfold num_between. lia.
      + apply ex_skip; [|exact G]. intros (s & h' & m' & E & L & H' & M' & B). destruct (U s h' m' E L H' M') as [-> ->]. unfold num_between in B. lia. }
  destruct Zn as [->|[->|(s & h & m & E & [->| ->] & H & M)]].
  - assert (Nz : forall s h m, tx "Z" = s ++ h ++ tx ":" ++ m -> length s = 1%nat -> ndigits 2 h -> False).
    { intros s h m E L [_ H]. apply (f_equal (@length N)) in E. rewrite !app_length, L, H in E. discriminate. }
    apply ex_skip; [discriminate|]. apply ex_skip; [|apply ex_skip; [|exact G]]; intros (s & h & m & E & L & H & _); exact (Nz s h m E L H).
  - now apply ex_here.
  - exact (Off 43 h m (or_introl eq_refl) H M E).
  - exact (Off 45 h m (or_intror eq_refl) H M E).
Qed.
Lemma time_explained y m d sep h mi s f z : ndigits 4 y -> ndigits 2 m -> ndigits 2 d -> ndigits 2 h -> ndigits 2 mi -> ndigits 2 s ->
  secfrac f -> zone z ->
  explains (rfc3339_reason ((y ++ tx "-" ++ m ++ tx "-" ++ d) ++ [sep] ++ h ++ tx ":" ++ mi ++ tx ":" ++ s ++ f ++ z))
    (time_faults y m d [sep] h mi s z).
Proof.
  intros Y M D H Mi Se F Z. assert (0 <= dec_num m)%Z by (apply dec_num_nonneg, M).
  assert (0 <= dec_num h)%Z by (apply dec_num_nonneg, H). assert (0 <= dec_num mi)%Z by (apply dec_num_nonneg, Mi). assert (0 <= dec_num s)%Z by (apply dec_num_nonneg, Se).
  unfold rfc3339_reason. rewrite <- !app_assoc, num4_ok by auto. change (tx "-") with [45]. change (tx ":") with [58]. cbn [app or_stop].
  rewrite eat_ok. cbn [or_stop]. rewrite num2_ok by auto. cbn [or_stop app]. unfold time_faults, month_fault. cbn [app].
  change (b "month out of range") with (b "month" ++ b " out of range"). change (b "hour out of range") with (b "hour" ++ b " out of range").
  change (b "minute out of range") with (b "minute" ++ b " out of range"). change (b "second out of range") with (b "second" ++ b " out of range"). unfold num_between.
  destruct ((1 <=? Z.to_N (dec_num m)) && (Z.to_N (dec_num m) <=? 12)) eqn:R; cbn [need].
  2:{ apply ex_here. lia. }
  apply ex_skip; [lia|]. rewrite eat_ok. cbn [or_stop]. rewrite num2_ok by auto. cbn [or_stop app]. unfold eat at 1.
  destruct (sep =? 84) eqn:Es; cbn [or_stop].
  2:{ apply ex_here. intros [= E]. lia. }
  apply ex_skip. { intros Ne. apply Ne. apply N.eqb_eq in Es. now subst. }
  rewrite num2_ok by auto. cbn [or_stop app].
  apply ex_need; [lia|lia|]. rewrite eat_ok. cbn [or_stop]. rewrite num2_ok by auto. cbn [or_stop app].
  apply ex_need; [lia|lia|]. rewrite eat_ok. cbn [or_stop]. rewrite num2_ok by auto. cbn [or_stop app].
  apply ex_need; [lia|lia|]. rewrite parse_frac_ok by auto.
  apply (zone_explained z); auto. apply day_explained; auto. lia.
Qed.
(** For every text there is a reason exactly if there is no value. *)
Lemma digits_acc_le n : forall t a, digits_acc a t = Some n -> a <= n.
Proof.
  induction t as [|c t IH]; intros a E; cbn in E; [injection E as <-; lia|]. destruct (is_digit c); [|discriminate]. apply IH in E. lia.
Qed.
Lemma day_agrees y m d : (1 <=? m) && (m <=? 12) = true -> day_reason y m d = None <-> date_ok y m d = true.
Proof.
  intros R. unfold day_reason, date_ok. rewrite R. cbn [andb]. unfold need. destruct ((1 <=? d) && (d <=? days_in m y)); split; congruence.
Qed.
Lemma date_agrees s : date_reason s = None <-> exists t, parse_date s = Some t.
Proof.
  unfold date_reason, parse_date, parse_ymd.
  assert (X : forall A (r : bytes), (Some r = None <-> (exists t : A, None = Some t))) by (split; [discriminate|now intros (t & E)]).
  destruct (num4 s) as [[y s1]|]; [|apply X]. cbn [or_stop]. destruct (eat 45 s1) as [s2|]; [|apply X]. cbn [or_stop].
  destruct (num2 s2) as [[m s3]|]; [|apply X]. cbn [or_stop].
  destruct ((1 <=? m) && (m <=? 12)) eqn:R; cbn [need].
  - destruct (eat 45 s3) as [s4|]; [|apply X]. cbn [or_stop]. destruct (num2 s4) as [[d s5]|]; [|apply X]. cbn [or_stop].
    destruct s5 as [|z s5].
    + rewrite day_agrees by exact R. destruct (date_ok y m d); split; eauto; try discriminate. now intros (t & E).
    + destruct (date_ok y m d); apply X.
  - split; [discriminate|]. intros (t & E). exfalso. destruct (eat 45 s3) as [s4|]; [|discriminate]. destruct (num2 s4) as [[d s5]|]; [|discriminate].
    unfold date_ok in E. rewrite R in E. discriminate.
Qed.
Lemma zone_agrees s : zone_reason s = Go tt <-> exists o, parse_zone s = Some o.
Proof.
  assert (X : forall A r, (Stop (A := unit) r = Go tt <-> (exists t : A, None = Some t))) by (split; [discriminate|now intros (t & E)]).
  destruct s as [|c r]; [apply X|].
  assert (E1 : zone_reason (c :: r) = if (c =? 90) && Nat.eqb (length r) 0 then Go tt else
    match (do (h, r) <- num2 r;; do r <- eat 58 r;; do (m, r) <- num2 r;; match r with [] => Some (h, m) | _ => None end) with
    | None => Stop []
    | Some (h, m) => if 60 <? m then Stop (b "time zone offset minute out of range")
      else if 24 <? h then Stop (b "time zone offset hour out of range")
      else if (c =? 43) || (c =? 45) then Go tt else Stop [] end).
  { unfold zone_reason. destruct (N.eq_dec c 90) as [->|Nc].
    - destruct r; reflexivity.
    - replace (c =? 90) with false by lia. cbn [andb].
      destruct c as [|p]; [reflexivity|]. do 8 (destruct p as [p|p|]; try reflexivity; try congruence). }
  assert (E2 : parse_zone (c :: r) = if (c =? 90) && Nat.eqb (length r) 0 then Some 0%Z else
    if (c =? 43) || (c =? 45) then
      do (h, r) <- num2 r;; do r <- eat 58 r;; do (m, r) <- num2 r;;
      match r with
      | [] => if (24 <? h) || (60 <? m) then None else let o := (Z.of_N (h * 3600 + m * 60)) in Some (if c =? 45 then Z.opp o else o)
      | _ => None
      end
    else None).
  { unfold parse_zone. destruct (N.eq_dec c 90) as [->|Nc].
    - destruct r; reflexivity.
    - replace (c =? 90) with false by lia. cbn [andb].
      destruct c as [|p]; [reflexivity|]. do 8 (destruct p as [p|p|]; try reflexivity; try congruence). }
  rewrite E1, E2. destruct ((c =? 90) && _); [split; eauto|].
  destruct (num2 r) as [[h r1]|]; [|destruct ((c =? 43) || (c =? 45)); apply X].
  destruct (eat 58 r1) as [r2|]; [|destruct ((c =? 43) || (c =? 45)); apply X].
  destruct (num2 r2) as [[m [|z r3]]|]; [|destruct ((c =? 43) || (c =? 45)); apply X..].
  destruct (60 <? m) eqn:B1; [rewrite orb_true_r; destruct ((c =? 43) || (c =? 45)); apply X|].
  destruct (24 <? h) eqn:B2; [destruct ((c =? 43) || (c =? 45)); apply X|].
  destruct ((c =? 43) || (c =? 45)); [|apply X]. cbn. split; eauto.
Qed.
Lemma time_agrees s : rfc3339_reason s = None <-> exists t, parse_rfc3339 s = Some t.
Proof.
  unfold rfc3339_reason, parse_rfc3339, parse_ymd.
  assert (X : forall A (r : bytes), (Some r = None <-> (exists t : A, None = Some t))) by (split; [discriminate|now intros (t & E)]).
  destruct (num4 s) as [[y s1]|]; [|apply X]. cbn [or_stop]. destruct (eat 45 s1) as [s2|]; [|apply X]. cbn [or_stop].
  destruct (num2 s2) as [[m s3]|]; [|apply X]. cbn [or_stop].
  destruct ((1 <=? m) && (m <=? 12)) eqn:R; cbn [need].
  2:{ split; [discriminate|]. intros (t & E). exfalso. destruct (eat 45 s3) as [s4|]; [|discriminate]. destruct (num2 s4) as [[d s5]|]; [|discriminate].
    unfold date_ok in E. rewrite R in E. discriminate. }
  destruct (eat 45 s3) as [s4|]; [|apply X]. cbn [or_stop]. destruct (num2 s4) as [[d s5]|]; [|apply X]. cbn [or_stop].
  assert (Dz : forall P Q : Prop, (day_reason y m d = None <-> date_ok y m d = true)) by (intros; now apply day_agrees).
  assert (Dy := Dz True True). clear Dz.
  destruct (date_ok y m d) eqn:K.
  - cbn beta iota. destruct (eat 84 s5) as [s6|]; [|apply X]. cbn [or_stop]. destruct (num2 s6) as [[h s7]|]; [|apply X]. cbn [or_stop].
    destruct (h <=? 23) eqn:Hh; cbn [need].
    2:{ split; [discriminate|]. intros (t & E). exfalso. destruct (eat 58 s7); [|discriminate]. destruct (num2 _) as [[mi s9]|]; [|discriminate].
        destruct (eat 58 s9); [|discriminate]. destruct (num2 _) as [[se s11]|]; [|discriminate]. replace (23 <? h) with true in E by lia. discriminate. }
    destruct (eat 58 s7) as [s8|]; [|apply X]. cbn [or_stop]. destruct (num2 s8) as [[mi s9]|]; [|apply X]. cbn [or_stop].
    destruct (mi <=? 59) eqn:Hm; cbn [need].
    2:{ split; [discriminate|]. intros (t & E). exfalso.
        destruct (eat 58 s9); [|discriminate]. destruct (num2 _) as [[se s11]|]; [|discriminate]. replace (59 <? mi) with true in E by lia. rewrite orb_true_r in E. discriminate. }
    destruct (eat 58 s9) as [s10|]; [|apply X]. cbn [or_stop]. destruct (num2 s10) as [[se s11]|]; [|apply X]. cbn [or_stop].
    destruct (se <=? 59) eqn:Hs; cbn [need].
    2:{ split; [discriminate|]. intros (t & E). exfalso. replace (59 <? se) with true in E by lia. rewrite orb_true_r in E. discriminate. }
    replace ((23 <? h) || (59 <? mi) || (59 <? se)) with false by lia. destruct (parse_frac s11) as [ns s12].
    pose proof (zone_agrees s12) as Zn. destruct (zone_reason s12) as [[]|r].
    + destruct (proj1 Zn eq_refl) as (o & ->). split; [eauto|]. intros _. now apply Dy.
    + split; [discriminate|]. intros (t & E). destruct (parse_zone s12) as [o|]; [|discriminate]. discriminate (proj2 Zn (ex_intro _ o eq_refl)).
  - split; [|now intros (t & E)]. intros E. exfalso.
    assert (Dn : day_reason y m d <> None) by (intros E'; apply Dy in E'; discriminate). revert E.
    repeat match goal with
    | |- context [or_stop ?x] => destruct x as [?|]; cbn [or_stop]; [|discriminate]
    | |- context [let (_, _) := ?p in _] => destruct p
    | |- context [need ?c _] => destruct c; cbn [need]; [|discriminate]
    | |- context [zone_reason ?x] => destruct (zone_reason x); [|discriminate]
    end. exact Dn.
Qed.
Lemma time_reason_none s p : time_reason s = None <-> exists v, new_time_val s p = Some v.
Proof.
  unfold time_reason, new_time_val. destruct (Nat.eqb (length s) 10).
  - rewrite date_agrees. destruct (parse_date s); split; intros (t & E); try discriminate; eauto.
  - rewrite time_agrees. destruct (parse_rfc3339 s); split; intros (t & E); try discriminate; eauto.
Qed.

(** ** Addresses *)
Section Net.
Context (O : oracles).

Lemma ipv4_agrees s : forall fields val dig, (length fields <= 3)%nat -> (dig = 0%nat -> s <> []) ->
  ipv4_reason O s (length fields) val dig = None <-> exists l, parse_ipv4_loop s fields val dig = Some l.
Proof.
  assert (X : forall A (r : bytes), (Some r = None <-> (exists t : A, None = Some t))) by (split; [discriminate|now intros (t & E)]).
  induction s as [|c s IH]; intros fields val dig L D; cbn [ipv4_reason parse_ipv4_loop].
  - destruct dig; [now destruct D|]. destruct (Nat.ltb_spec (length fields) 3).
    + replace (Nat.eqb (length fields) 3) with false by lia. apply X.
    + replace (Nat.eqb (length fields) 3) with true by lia. split; eauto.
  - destruct (is_digit c).
    + destruct (Nat.eqb dig 1 && (val =? 0)); [apply X|]. cbv zeta. destruct (255 <? val * 10 + digit_val c); [apply X|]. apply IH; [exact L|discriminate].
    + destruct (c =? 46); [|apply X]. destruct dig as [|dig]; [apply X|]. cbn [Nat.eqb orb].
      destruct s as [|c' s]; cbn [length Nat.eqb].
      * split; [discriminate|]. intros (l & E). cbn in E. destruct (Nat.eqb (length fields) 3); discriminate.
      * destruct (Nat.eqb_spec (length fields) 3); [apply X|]. apply (IH (val :: fields)); [cbn [length]; lia|discriminate].
Qed.
Lemma no_dot_none s : has_byte 46 s = false -> forall val dig, parse_ipv4_loop s [] val dig = None.
Proof.
  unfold has_byte. induction s as [|c s IH]; intros H val dig; cbn [parse_ipv4_loop].
  - destruct dig; reflexivity.
  - cbn [existsb] in H. apply orb_false_iff in H as [Hc H]. destruct (is_digit c).
    + destruct (_ && _); [reflexivity|]. cbv zeta. destruct (255 <? _); [reflexivity|]. now apply IH.
    + rewrite N.eqb_sym, Hc. reflexivity.
Qed.
Lemma addr_agrees a : addr_reason O a = None <-> exists n, parse_addr4 a = Some n.
Proof.
  unfold addr_reason, parse_addr4. destruct (has_byte 46 a) eqn:H.
  - rewrite (ipv4_agrees a [] 0 0 (Nat.le_0_l 3)) by (intros _ ->; discriminate). destruct (parse_ipv4_loop a [] 0 0); split; intros (t & E); try discriminate; eauto.
  - rewrite no_dot_none by exact H. split; [discriminate|now intros (n & E)].
Qed.
Lemma net_agrees s : net_reason O s = None <-> exists q, parse_prefix (o_strict_bits O) s = Some q.
Proof.
  assert (X : forall A (r : bytes), (Some r = None <-> (exists t : A, None = Some t))) by (split; [discriminate|now intros (t & E)]).
  unfold net_reason, parse_prefix. destruct (split_slash s) as [[a bs]|]; [|apply X].
  pose proof (addr_agrees a) as A. destruct (addr_reason O a).
  - split; [discriminate|]. intros (q & E). destruct (parse_addr4 a) as [n|]; [|discriminate]. discriminate (proj2 A (ex_intro _ n eq_refl)).
  - destruct (proj1 A eq_refl) as (ip & ->). cbv zeta. destruct bs as [|c r]; [apply X|]. destruct (_ && _ && _); [apply X|].
    destruct (digits_acc 0 (c :: r)) as [n|]; [|apply X]. destruct (32 <? n); [apply X|]. split; eauto.
Qed.
Lemma net_reason_none t p : net_reason O (net_text t) = None <-> exists v, new_net_val O t p = Some v.
Proof. rewrite net_agrees. unfold new_net_val. cbv zeta. destruct (parse_prefix _ (net_text t)); split; intros (q & E); try discriminate; eauto. Qed.

Definition octet_reason (d : bytes) : option bytes :=
  if match d with [c] => false | c :: _ => c =? 48 | [] => false end then Some (b "IPv4 field has octet with leading zero")
  else if 255 <? decimal 0 d then Some (b "IPv4 field has value >255") else None.
Lemma octet_step d rest n : digit_text 3 d ->
  ipv4_reason O (d ++ rest) n 0 0 = match octet_reason d with Some r => Some r | None => ipv4_reason O rest n (decimal 0 d) (length d) end.
Proof.
  intros (Nn & L & F). assert (D : forall c, 48 <= c <= 57 -> is_digit c = true) by (intros c H; unfold is_digit; lia).
  destruct d as [|c1 [|c2 [|c3 [|c4 r]]]]; [congruence| | | |cbn in L; lia].
  - pose proof (Forall_inv F) as D1. cbn beta in D1. cbn [app ipv4_reason]. rewrite (D c1 D1). cbn [Nat.eqb andb].
    unfold octet_reason, decimal, digit_val. change (0 * 10) with 0. rewrite N.add_0_l. cbv zeta. replace (255 <? c1 - 48) with false by lia. reflexivity.
  - pose proof (Forall_inv F) as D1. pose proof (Forall_inv (Forall_inv_tail F)) as D2. cbn beta in D1, D2.
    cbn [app ipv4_reason]. rewrite (D c1 D1), (D c2 D2). cbn [Nat.eqb andb].
    unfold octet_reason, decimal, digit_val. change (0 * 10) with 0. rewrite N.add_0_l. cbv zeta. replace (255 <? c1 - 48) with false by lia.
    destruct (c1 =? 48) eqn:Z0.
    + replace (c1 - 48 =? 0) with true by lia. reflexivity.
    + replace (c1 - 48 =? 0) with false by lia. replace (255 <? (c1 - 48) * 10 + (c2 - 48)) with false by lia. reflexivity.
  - pose proof (Forall_inv F) as D1. pose proof (Forall_inv (Forall_inv_tail F)) as D2.
    pose proof (Forall_inv (Forall_inv_tail (Forall_inv_tail F))) as D3. cbn beta in D1, D2, D3.
    cbn [app ipv4_reason]. rewrite (D c1 D1), (D c2 D2), (D c3 D3). cbn [Nat.eqb andb].
    unfold octet_reason, decimal, digit_val. change (0 * 10) with 0. rewrite N.add_0_l. cbv zeta. replace (255 <? c1 - 48) with false by lia.
    destruct (c1 =? 48) eqn:Z0.
    + replace (c1 - 48 =? 0) with true by lia. reflexivity.
    + replace (c1 - 48 =? 0) with false by lia. replace (255 <? (c1 - 48) * 10 + (c2 - 48)) with false by lia.
      destruct (255 <? ((c1 - 48) * 10 + (c2 - 48)) * 10 + (c3 - 48)); reflexivity.
Qed.
Lemma dot_step d d' rest n v : digit_text 3 d -> digit_text 3 d' -> (n < 3)%nat ->
  ipv4_reason O (46 :: d' ++ rest) n v (length d) = ipv4_reason O (d' ++ rest) (S n) 0 0.
Proof.
  intros (Nn & _) (Nn' & _) L. destruct d; [congruence|]. destruct d' as [|c d']; [congruence|]. cbn [length ipv4_reason app].
  change (is_digit 46) with false. change (46 =? 46) with true. cbn [Nat.eqb orb length]. replace (Nat.eqb n 3) with false by lia. reflexivity.
Qed.
Lemma quad_reason d1 d2 d3 d4 : digit_text 3 d1 -> digit_text 3 d2 -> digit_text 3 d3 -> digit_text 3 d4 ->
  addr_reason O (quad d1 d2 d3 d4) =
  match octet_reason d1 with Some r => Some r | None =>
  match octet_reason d2 with Some r => Some r | None =>
  match octet_reason d3 with Some r => Some r | None => octet_reason d4 end end end.
Proof.
  intros D1 D2 D3 D4. unfold addr_reason. replace (has_byte 46 (quad d1 d2 d3 d4)) with true.
  2:{ symmetry. apply existsb_exists. exists 46. split; [|reflexivity]. unfold quad. apply in_or_app. right. now left. }
  unfold quad. rewrite octet_step by exact D1. destruct (octet_reason d1); [reflexivity|].
  rewrite dot_step by (auto; lia). rewrite octet_step by exact D2. destruct (octet_reason d2); [reflexivity|].
  rewrite dot_step by (auto; lia). rewrite octet_step by exact D3. destruct (octet_reason d3); [reflexivity|].
  rewrite <- (app_nil_r d4) at 1. rewrite dot_step by (auto; lia). rewrite octet_step by exact D4. destruct (octet_reason d4); [reflexivity|].
  reflexivity.
Qed.
Lemma decimal_dec d : digits d -> Z.of_N (decimal 0 d) = dec_num d.
Proof.
  intros D. pose proof (digits_dec d D) as E. rewrite (digits_acc_decimal d 0) in E by exact D. injection E as ->.
  assert (0 <= dec_num d)%Z by now apply dec_num_nonneg. lia.
Qed.
Lemma octet_explained d : digit_text 3 d -> explains (octet_reason d) (octet_faults d).
Proof.
  intros (Nn & L & F). unfold octet_reason, octet_faults, num_between. pose proof (decimal_dec d F) as E. rewrite <- E.
  assert (P : (match d with [c] => false | c :: _ => c =? 48 | [] => false end) = true <-> padded d).
  { unfold padded. change (tx "0") with [48]. destruct d as [|c [|c' r]]; cbn [app].
    - split; [discriminate|]. intros (r & R & _). discriminate.
    - split; [discriminate|]. intros (r & R & Nr). injection R as _ R. congruence.
    - split; [intros Ec; apply N.eqb_eq in Ec as ->; eexists; split; [reflexivity|discriminate]|]. intros (r' & R & _). injection R as -> _. reflexivity. }
  destruct (match d with [c] => false | c :: _ => c =? 48 | [] => false end) eqn:Q; [apply ex_here; now apply P|].
  apply ex_skip; [intros H; apply P in H; discriminate|]. destruct (255 <? decimal 0 d) eqn:B.
  - apply ex_here. lia.
  - apply ex_skip; [lia|constructor].
Qed.
Lemma quote_digits isprint d : digits d -> quote isprint d = tx """" ++ d ++ tx """".
Proof.
  intros D. unfold quote. change (tx """") with [34]. cbn [app]. do 2 f_equal. clear - D.
  assert (G : forall n, (length d <= n)%nat -> quote_loop isprint n d = d); [|now apply G].
  induction D as [|c d Hc D IH]; intros n L; [now destruct n|]. destruct n as [|n]; [cbn in L; lia|]. cbn [length] in L.
  cbn [quote_loop]. unfold digit in Hc. assert (Dc : decode_rune (c :: d) = (c, 1%nat)) by (unfold decode_rune; replace (c <? 128) with true by lia; reflexivity).
  rewrite Dc. replace (c =? rune_error) with false by (unfold rune_error; lia). cbn [andb skipn]. unfold quote_rune.
  replace ((c =? 34) || (c =? 92)) with false by lia. replace (c <? 128) with true by lia. replace ((32 <=? c) && (c <? 127)) with true by lia.
  rewrite IH, encode_rune_ascii by lia. reflexivity.
Qed.
Lemma quad_explained o1 o2 o3 o4 x l : digit_text 3 o1 -> digit_text 3 o2 -> digit_text 3 o3 -> digit_text 3 o4 ->
  explains x l ->
  explains (match addr_reason O (quad o1 o2 o3 o4) with Some r => Some r | None => x end)
    (octet_faults o1 ++ octet_faults o2 ++ octet_faults o3 ++ octet_faults o4 ++ l).
Proof.
  intros D1 D2 D3 D4 G. rewrite quad_reason by auto.
  pose proof (ex_app (octet_reason o4) (octet_faults o4) l x (octet_explained o4 D4) (fun _ => G)) as E4.
  pose proof (ex_app (octet_reason o3) _ _ _ (octet_explained o3 D3) (fun _ => E4)) as E3.
  pose proof (ex_app (octet_reason o2) _ _ _ (octet_explained o2 D2) (fun _ => E3)) as E2.
  pose proof (ex_app (octet_reason o1) _ _ _ (octet_explained o1 D1) (fun _ => E2)) as E1.
  destruct (octet_reason o1); [exact E1|]. destruct (octet_reason o2); [exact E1|]. destruct (octet_reason o3); exact E1.
Qed.
Lemma split_at a bs : ~ In 47 bs -> split_slash (a ++ 47 :: bs) = Some (a, bs).
Proof.
  intros N0. induction a as [|c a IH]; cbn [app split_slash].
  - assert (E : split_slash bs = None). { clear -N0. induction bs as [|c bs IH]; [reflexivity|]. cbn [split_slash]. rewrite IH by (intros H; apply N0; now right).
      destruct (N.eqb_spec c 47) as [->|]; [destruct N0; now left|reflexivity]. }
    rewrite E. reflexivity.
  - rewrite IH. reflexivity.
Qed.
Lemma net_explained o1 o2 o3 o4 m : GrammarSpec.octet o1 -> GrammarSpec.octet o2 -> GrammarSpec.octet o3 -> GrammarSpec.octet o4 -> cidr m ->
  explains (net_reason O (net_text (o1 ++ tx "." ++ o2 ++ tx "." ++ o3 ++ tx "." ++ o4 ++ m))) (net_faults O o1 o2 o3 o4 m).
Proof.
  intros (O1 & L1) (O2 & L2) (O3 & L3) (O4 & L4) C. apply (gram_digit_text 3) in O1, O2, O3, O4; auto.
  change (o1 ++ tx "." ++ o2 ++ tx "." ++ o3 ++ tx "." ++ o4 ++ m) with (o1 ++ 46 :: o2 ++ 46 :: o3 ++ 46 :: o4 ++ m).
  replace (o1 ++ 46 :: o2 ++ 46 :: o3 ++ 46 :: o4 ++ m) with (quad o1 o2 o3 o4 ++ m) by (unfold quad; repeat (rewrite <- app_assoc; cbn [app]); reflexivity).
  unfold net_text, net_faults. destruct C as [->|(n & -> & (Dn & Nn) & Ln)].
  - rewrite app_nil_r, (has_byte_false 47) by (now apply quad_no_slash). change (b "/32") with (47 :: b "32").
    unfold net_reason. rewrite split_at by (vm_compute; intros [H|[H|[]]]; discriminate).
    rewrite <- (app_nil_r (octet_faults o4)), <- app_assoc. apply quad_explained; auto.
    change (b "32") with [51; 50]. cbn [length Nat.eqb negb]. rewrite andb_true_r. change (51 =? 48) with false. rewrite andb_false_r. constructor.
  - change (tx "/" ++ n) with (47 :: n). replace (has_byte 47 (quad o1 o2 o3 o4 ++ 47 :: n)) with true.
    2:{ symmetry. apply existsb_exists. exists 47. split; [|reflexivity]. apply in_or_app. right. now left. }
    assert (Ns : ~ In 47 n). { intros H. unfold digits in Dn. rewrite Forall_forall in Dn. apply Dn in H. unfold digit in H. lia. }
    unfold net_reason. rewrite split_at by exact Ns. apply quad_explained; auto. cbv zeta.
    destruct n as [|c r]; [congruence|]. rewrite (digits_acc_decimal (c :: r) 0) by exact Dn. rewrite quote_digits by exact Dn.
    unfold bits_faults, num_between. rewrite <- (decimal_dec (c :: r) Dn).
    assert (P : negb (Nat.eqb (length r) 0) && (c =? 48) = true <-> padded (c :: r)).
    { unfold padded. change (tx "0") with [48]. cbn [app]. split.
      - intros H. apply andb_true_iff in H as [H1 H2]. apply N.eqb_eq in H2 as ->. exists r. split; [reflexivity|]. intros ->. discriminate.
      - intros (r' & R & Nr). injection R as -> ->. destruct r'; [congruence|reflexivity]. }
    destruct (o_strict_bits O && negb (Nat.eqb (length r) 0) && (c =? 48)) eqn:Q.
    + apply ex_here. rewrite <- andb_assoc in Q. apply andb_true_iff in Q as [Q1 Q2]. split; [exact Q1|]. now apply P.
    + apply ex_skip. { intros [H1 H2]. apply P in H2. rewrite <- andb_assoc, H1, H2 in Q. discriminate. }
      destruct (32 <? decimal 0 (c :: r)) eqn:B; [apply ex_here; lia|apply ex_skip; [lia|constructor]].
Qed.
End Net.
