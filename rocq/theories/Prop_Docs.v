(** C123-C125: how answers on related documents are related. *)
From Verif Require Import Bytes Utf8 GoStrconv GoFloat GoTime GoNet Oracles Ast AstSpec Json JsonSpec JsonProofs Values StrMatch Matcher
  QueryMessages MatchApi MatchSpec MatchProofs MatcherTop Visitors ParseQuery TestOracle Prop_Match.
From Coq Require Import ZifyBool ZifyN ZifyNat.

(** ** C123: top-level arrays *)
(** [index_text key n]: the segment is [n] in brackets, with a sign and leading zeros if one likes. *)
Definition index_text (key : bytes) (n : N) : Prop :=
  exists sg ds, key = b "[" ++ sg ++ ds ++ b "]" /\ ds <> [] /\ Forall (fun c => 48 <= c <= 57) ds /\ n = decimal 0 ds /\
    ((sg = [] \/ sg = b "+") /\ n < 2 ^ 63 \/ sg = b "-" /\ n = 0).
(** The element a segment selects. *)
Definition element (els : list json) (key : bytes) (child : json) : Prop :=
  exists n, index_text key n /\ nth_error els (N.to_nat n) = Some child.

Lemma digits_acc_some ds : forall a n, digits_acc a ds = Some n <-> Forall (fun c => 48 <= c <= 57) ds /\ n = decimal a ds.
Proof.
  induction ds as [|c ds IH]; intros a n; cbn [digits_acc decimal].
  - split; [intros [= <-]; auto|intros [_ ->]; reflexivity].
  - unfold is_digit, digit_val. destruct ((48 <=? c) && (c <=? 57)) eqn:D.
    + rewrite IH. split; intros [F ->]; split; auto; [constructor; [lia|exact F]|]. now inversion F.
    + split; [discriminate|]. intros [F _]. inversion F; subst. lia.
Qed.
Lemma parse_int_index s z : (0 <= z)%Z -> parse_int s = Some z <-> index_text (b "[" ++ s ++ b "]") (Z.to_N z).
Proof.
  intros Pz. unfold index_text.
  set (go := fun (neg : bool) (t : bytes) => match t with [] => None | _ => match digits_acc 0 t with None => None | Some n =>
        if neg then (if 9223372036854775808 <? n then None else Some (- Z.of_N n)%Z)
        else (if 9223372036854775807 <? n then None else Some (Z.of_N n)) end end).
  assert (Gf : forall t, go false t = Some z <-> t <> [] /\ Forall (fun c => 48 <= c <= 57) t /\ Z.to_N z = decimal 0 t /\ Z.to_N z < 2 ^ 63).
  { intros t. unfold go. destruct t as [|c t]; [split; [discriminate|intros (N & _); congruence]|]. set (u := c :: t).
    assert (Nu : u <> []) by discriminate. destruct (digits_acc 0 u) as [n|] eqn:D.
    - pose proof D as D'. apply digits_acc_some in D' as [F E]. destruct (_ <? n) eqn:L; split; try discriminate.
      + intros (_ & _ & V & B). lia.
      + intros [= <-]. repeat split; auto; lia.
      + intros (_ & _ & V & B). f_equal. lia.
    - split; [discriminate|]. intros (_ & F & _). pose proof (proj2 (digits_acc_some u 0 _) (conj F eq_refl)). congruence. }
  assert (Gt : forall t, go true t = Some z <-> t <> [] /\ Forall (fun c => 48 <= c <= 57) t /\ Z.to_N z = decimal 0 t /\ Z.to_N z = 0).
  { intros t. unfold go. destruct t as [|c t]; [split; [discriminate|intros (N & _); congruence]|]. set (u := c :: t).
    assert (Nu : u <> []) by discriminate. destruct (digits_acc 0 u) as [n|] eqn:D.
    - pose proof D as D'. apply digits_acc_some in D' as [F E]. destruct (_ <? n) eqn:L; split; try discriminate.
      + intros (_ & _ & V & B). lia.
      + intros [= <-]. repeat split; auto; lia.
      + intros (_ & _ & V & B). f_equal. lia.
    - split; [discriminate|]. intros (_ & F & _). pose proof (proj2 (digits_acc_some u 0 _) (conj F eq_refl)). congruence. }
  assert (E : parse_int s = match s with 45 :: t => go true t | 43 :: t => go false t | _ => go false s end) by reflexivity.
  assert (Dg : forall c t, 48 <= c <= 57 -> match c :: t with 45 :: t => go true t | 43 :: t => go false t | _ => go false (c :: t) end = go false (c :: t)).
  { intros c t C. destruct c as [|p]; [lia|]. do 6 (destruct p as [p|p|]; try reflexivity; try lia). }
  rewrite E. clear E. split.
  - intros H. assert (K : (exists t, s = 45 :: t /\ go true t = Some z) \/ (exists t, s = 43 :: t /\ go false t = Some z) \/ go false s = Some z).
    { destruct s as [|c t]; [auto|]. destruct (N.eq_dec c 45) as [->|N1]; [eauto|]. destruct (N.eq_dec c 43) as [->|N2]; [eauto|].
      right. right. rewrite <- H. destruct c as [|p]; [reflexivity|]. do 6 (destruct p as [p|p|]; try reflexivity; try lia). }
    destruct K as [(t & -> & G)|[(t & -> & G)|G]].
    + apply Gt in G as (N & F & V & B). exists (b "-"), t. repeat split; auto.
    + apply Gf in G as (N & F & V & B). exists (b "+"), t. repeat split; auto.
    + apply Gf in G as (N & F & V & B). exists [], s. repeat split; auto.
  - intros (sg & ds & Ek & N & F & V & C). apply app_inv_head in Ek. rewrite app_assoc in Ek. apply app_inv_tail in Ek. subst s.
    destruct C as [[[->| ->] B]|[-> B]]; cbn [app b].
    + destruct ds as [|c ds]; [congruence|]. rewrite Dg by now inversion F. now apply Gf.
    + now apply Gf.
    + now apply Gt.
Qed.

Lemma index_head key n : index_text key n -> exists t, key = 91 :: t.
Proof. intros (sg & ds & -> & _). cbn. eauto. Qed.
Lemma json_get_element els key : key <> [] -> exists x, json_get key (JArr els) = Ok x /\ forall child, x = Some child <-> element els key child.
Proof.
  intros Nk. destruct key as [|c t]; [congruence|]. cbn [json_get]. destruct (c =? 91) eqn:C.
  2:{ exists None. split; [reflexivity|]. intros child. split; [discriminate|]. intros (n & (sg & ds & Ek & _) & _). cbn in Ek. injection Ek as -> _. discriminate. }
  apply N.eqb_eq in C. subst c. destruct (rev t) as [|e i] eqn:R.
  { exists None. split; [reflexivity|]. intros child. split; [discriminate|]. intros (n & (sg & ds & Ek & _) & _). exfalso.
    cbn in Ek. injection Ek as ->. rewrite !rev_app_distr in R. discriminate. }
  assert (Et : t = rev i ++ [e]) by (rewrite <- (rev_involutive t), R; reflexivity). subst t. clear R.
  destruct (e =? 93) eqn:E93.
  2:{ exists None. split; [reflexivity|]. intros child. split; [discriminate|]. intros (n & (sg & ds & Ek & _) & _). exfalso.
      cbn in Ek. injection Ek as Ek. rewrite app_assoc in Ek. apply app_inj_tail in Ek as [_ ->]. discriminate. }
  apply N.eqb_eq in E93. subst e. destruct (parse_int (rev i)) as [z|] eqn:P.
  - eexists. split; [reflexivity|]. intros child. destruct (z <? 0)%Z eqn:Ng.
    + split; [discriminate|]. intros (n & X & _). pose proof (proj2 (parse_int_index (rev i) (Z.of_N n) ltac:(lia))) as H. rewrite N2Z.id in H.
      pose proof (H X). rewrite P in H0. injection H0 as ->. lia.
    + pose proof (proj1 (parse_int_index (rev i) z ltac:(lia)) P) as X. split.
      * intros E. exists (Z.to_N z). split; [exact X|]. now rewrite Z_N_nat.
      * intros (n & X' & Nt). pose proof (proj2 (parse_int_index (rev i) (Z.of_N n) ltac:(lia))) as H. rewrite N2Z.id in H. pose proof (H X') as P'.
        rewrite P in P'. injection P' as ->. rewrite <- Z_N_nat, N2Z.id. exact Nt.
  - exists None. split; [reflexivity|]. intros child. split; [discriminate|]. intros (n & X & _).
    pose proof (proj2 (parse_int_index (rev i) (Z.of_N n) ltac:(lia))) as H. rewrite N2Z.id in H. pose proof (H X). congruence.
Qed.

(** On a top-level array a query behaves as on an object whose members are named by the indices. *)
Theorem C123_array O q t data els ms : parse_plain O q = QOk t -> document data (JArr els) ->
  (forall o f vs p, subnode (NExpr o f vs p) t -> f <> [] /\ hd_error f <> Some []) ->
  (forall o key rest vs p, subnode (NExpr o (key :: rest) vs p) t ->
     forall child, member key (JObj ms) child <-> element els key child) ->
  (answers O q data (Some true) <-> holds O t (JObj ms)) /\ (answers O q data (Some false) <-> ~ holds O t (JObj ms)).
Proof.
  intros P D Sf Ag. pose proof (accepted_tree_ok O q t P) as T. destruct (build_ok O t T) as (m & B).
  destruct (ev_holds O t (JObj ms) T) with (m := m) as (a & E & H); [|exact B|].
  { intros o f vs p S1. destruct (Sf o f vs p S1) as [N1 N2]. destruct f as [|[|c k] rest]; [now destruct N1|now destruct N2|].
    split; [exact Logic.I|]. cbn. destruct (N.eq_dec c 91) as [->|Nc]; [discriminate|].
    destruct c as [|p']; [exact Logic.I|]. do 7 (destruct p' as [p'|p'|]; try exact Logic.I; try discriminate). }
  assert (Ev : ev O m (JArr els) = Ok a).
  { rewrite <- E. clear P T E H. revert m B. induction t as [l IHl rr IHr|l IHl rr IHr|e IHe|o f vs p]; intros m; cbn [build].
    - destruct (build O l) as [x|]; [|discriminate]. destruct (build O rr) as [y|]; [|discriminate]. cbn. intros [= <-]. cbn [ev].
      rewrite (IHl ltac:(intros; eapply Sf, sub_and_l; eassumption) ltac:(intros; eapply Ag, sub_and_l; eassumption) _ eq_refl).
      now rewrite (IHr ltac:(intros; eapply Sf, sub_and_r; eassumption) ltac:(intros; eapply Ag, sub_and_r; eassumption) _ eq_refl).
    - destruct (build O l) as [x|]; [|discriminate]. destruct (build O rr) as [y|]; [|discriminate]. cbn. intros [= <-]. cbn [ev].
      rewrite (IHl ltac:(intros; eapply Sf, sub_or_l; eassumption) ltac:(intros; eapply Ag, sub_or_l; eassumption) _ eq_refl).
      now rewrite (IHr ltac:(intros; eapply Sf, sub_or_r; eassumption) ltac:(intros; eapply Ag, sub_or_r; eassumption) _ eq_refl).
    - destruct (build O e) as [x|]; [|discriminate]. cbn. intros [= <-]. cbn [ev].
      now rewrite (IHe ltac:(intros; eapply Sf, sub_not; eassumption) ltac:(intros; eapply Ag, sub_not; eassumption) _ eq_refl).
    - destruct (build_exprs O o vs) as [es|]; [|discriminate]. cbn [bind]. intros [= <-]. cbn [ev]. unfold expr_result, get_field.
      destruct (Sf o f vs p (sub_refl _)) as [N1 N2]. destruct f as [|key rest]; [now destruct N1|].
      replace (get_values (key :: rest) (JArr els)) with (get_values (key :: rest) (JObj ms)); [reflexivity|].
      destruct (json_get_element els key ltac:(intros ->; now destruct N2)) as (x & G & Hx).
      cbn [get_values]. rewrite G. change (json_get key (JObj ms)) with (Ok (lookup key ms)).
      replace x with (lookup key ms); [reflexivity|].
      pose proof (Ag o key rest vs p (sub_refl _)) as Hm.
      destruct (lookup key ms) as [c|] eqn:L.
      + apply lookup_member, Hm, Hx in L. congruence.
      + destruct x as [c|]; [|reflexivity]. pose proof (proj1 (Hx c) eq_refl) as X. apply Hm, lookup_member in X. congruence. }
  apply parse_json_spec in D.
  assert (An : forall r, answers O q data r <-> r = Some a).
  { intros r. rewrite answers_iff. unfold answer. split.
    - intros (t' & m' & P' & B' & A). rewrite D in A. replace m' with m in A by congruence. rewrite Ev in A. cbn in A. congruence.
    - intros ->. exists t, m. rewrite D, Ev. auto. }
  rewrite !An, <- H. split; [|destruct a; split; congruence]. split; congruence.
Qed.
Print Assumptions C123_array.

(** There is such an object for every array and all segments a query may use. *)
Definition raw_name (key : bytes) : bytes := flat_map (fun c => if c =? 92 then [92; 92] else [c]) key.
Lemma unescape_raw key : unescape (raw_name key) = Some key.
Proof.
  induction key as [|c key IH]; [reflexivity|]. unfold raw_name in *. cbn [flat_map]. destruct (c =? 92) eqn:C.
  - apply N.eqb_eq in C. subst c. cbn [app]. change (option_map (cons 92) (unescape (flat_map (fun c => if c =? 92 then [92; 92] else [c]) key)) = Some (92 :: key)). now rewrite IH.
  - cbn [app unescape]. rewrite C. now rewrite IH.
Qed.
Theorem C123_object els keys : exists ms, forall key, In key keys -> key <> [] -> forall child, member key (JObj ms) child <-> element els key child.
Proof.
  exists (flat_map (fun key => match json_get key (JArr els) with Ok (Some e) => [(raw_name key, e)] | _ => [] end) keys).
  intros key Ik Nk child. rewrite <- lookup_member.
  destruct (json_get_element els key Nk) as (x & G & Hx). rewrite <- Hx.
  assert (L : lookup key (flat_map (fun key => match json_get key (JArr els) with Ok (Some e) => [(raw_name key, e)] | _ => [] end) keys) = x).
  { induction keys as [|k keys IH]; [destruct Ik|]. cbn [flat_map].
    assert (IH' : x = None -> lookup key (flat_map (fun key => match json_get key (JArr els) with Ok (Some e) => [(raw_name key, e)] | _ => [] end) keys) = None).
    { intros ->. clear IH Ik. induction keys as [|k' keys IH]; [reflexivity|]. cbn [flat_map]. destruct (json_get k' (JArr els)) as [[e|]|] eqn:G'; try exact IH.
      cbn [app lookup]. rewrite unescape_raw. destruct (beqb k' key) eqn:Q; [|exact IH]. apply beqb_eq in Q. subst k'. congruence. }
    destruct (beqb k key) eqn:Q.
    - apply beqb_eq in Q. subst k. rewrite G. destruct x as [e|].
      + cbn [app lookup]. rewrite unescape_raw. now replace (beqb key key) with true by (symmetry; now apply beqb_eq).
      + cbn [app]. now apply IH'.
    - assert (Ik' : In key keys) by (destruct Ik as [->|Ik]; [|exact Ik]; exfalso; assert (Bk : beqb key key = true) by (now apply beqb_eq); congruence).
      destruct (json_get k (JArr els)) as [[e|]|]; cbn [app lookup]; try (now apply IH). rewrite unescape_raw, Q. now apply IH. }
  rewrite L. tauto.
Qed.
Print Assumptions C123_object.
Example C123_hypotheses : let els := [JNum (b "1"); JArr [JObj [(b "b", JNum (b "7"))]]] in let ms := [(b "[1]", JArr [JObj [(b "b", JNum (b "7"))]])] in
  exists t, parse_plain test_oracle (b """[1]"".b:7 AND !""[2]"":exists") = QOk t /\ document (b "[1,[{""b"":7}]]") (JArr els) /\
  (forall o f vs p, subnode (NExpr o f vs p) t -> f <> [] /\ hd_error f <> Some []) /\
  (forall o key rest vs p, subnode (NExpr o (key :: rest) vs p) t -> forall child, member key (JObj ms) child <-> element els key child).
Proof.
  intros els ms. eexists. split; [vm_compute; reflexivity|]. split; [apply parse_json_spec; vm_compute; reflexivity|].
  assert (One : forall d n, 48 <= d <= 57 -> index_text (b "[" ++ [d] ++ b "]") n <-> n = d - 48).
  { intros d n Hd. pose proof (parse_int_index [d] (Z.of_N n) ltac:(lia)) as H. rewrite N2Z.id in H.
    assert (E : parse_int [d] = Some (Z.of_N (d - 48))).
    { assert (C : In d [48; 49; 50; 51; 52; 53; 54; 55; 56; 57]) by (cbn; lia). cbn in C. repeat (destruct C as [<-|C]; [vm_compute; reflexivity|]). destruct C. }
    rewrite E in H. cbn [app] in H |- *. rewrite <- H. split; [intros [= X]; lia|intros ->; reflexivity]. }
  split; intros o f vs p; [intros H|intros p0 H child]; repeat match goal with H : subnode _ _ |- _ => inversion H; clear H; subst end;
    try (split; discriminate); rewrite <- lookup_member; unfold element.
  - split; [intros H; vm_compute in H; injection H as <-; exists 1; split; [now apply (One 49)|reflexivity]|].
    intros (n & X & Nn). apply (One 49) in X; [|lia]. subst n. cbn in Nn. injection Nn as <-. vm_compute. reflexivity.
  - split; [intros H; vm_compute in H; discriminate|]. intros (n & X & Nn). apply (One 50) in X; [|lia]. subst n. vm_compute in Nn. discriminate.
Qed.

Example C123_example : answers test_oracle (b """[1]"".b:7 AND ""[+00]"":exists AND !""[2]"":exists AND !""[-1]"":exists") (b "[1,[{""b"":7}]]") (Some true) /\
  index_text (b "[+00]") 0 /\ (forall n, ~ index_text (b "[-1]") n).
Proof.
  split; [|split].
  - do 3 eexists. split; [vm_compute; reflexivity|]. split; [apply af_none|]. vm_compute. reflexivity.
  - exists (b "+"), (b "00"). repeat split; [discriminate| |]; [apply (digits_acc_some (b "00") 0 0); reflexivity|left; split; [now right|reflexivity]].
  - intros n X. pose proof (proj2 (parse_int_index (b "-1") (Z.of_N n) ltac:(lia))) as H. rewrite N2Z.id in H. specialize (H X). change (Some (-1)%Z = Some (Z.of_N n)) in H. injection H. lia.
Qed.

(** ** C124: documents that grow *)
(** [grows j j']: members are added behind the others, elements anywhere, and a value that is no array may
    become an element of one; elements of arrays themselves do not become arrays. *)
Inductive grows : json -> json -> Prop :=
| gr_el j j' : grows_el j j' -> grows j j'
| gr_wrap j e els : (forall l, j <> JArr l) -> grows_el j e -> In e els -> grows j (JArr els)
with grows_el : json -> json -> Prop :=
| ge_same j : grows_el j j
| ge_obj ms ms' extra : grow_members ms ms' -> grows_el (JObj ms) (JObj (ms' ++ extra))
| ge_arr els els' : grow_elements els els' -> grows_el (JArr els) (JArr els')
with grow_members : list (bytes * json) -> list (bytes * json) -> Prop :=
| gm_nil : grow_members [] []
| gm_cons raw v v' ms ms' : grows v v' -> grow_members ms ms' -> grow_members ((raw, v) :: ms) ((raw, v') :: ms')
with grow_elements : list json -> list json -> Prop :=
| gel_nil els : grow_elements [] els
| gel_cons e e' els els' : grows_el e e' -> In e' els' -> grow_elements els els' -> grow_elements (e :: els) els'.

(** Queries without null all of whose comparisons stand under an even (odd) number of NOTs. *)
Fixpoint even_nots (n : node) : Prop :=
  match n with
  | NAnd l r | NOr l r => even_nots l /\ even_nots r
  | NNot e => odd_nots e
  | NExpr o _ _ _ => o <> NUL
  end
with odd_nots (n : node) : Prop :=
  match n with
  | NAnd l r | NOr l r => odd_nots l /\ odd_nots r
  | NNot e => even_nots e
  | NExpr _ _ _ _ => False
  end.
Lemma member_grows key j child j' : member key j child -> grows_el j j' -> exists child', member key j' child' /\ grows child child'.
Proof.
  intros M G. inversion G; subst.
  - exists child. split; [exact M|]. apply gr_el, ge_same.
  - destruct M as (bf & raw & af & [= ->] & U & F). revert ms' H G. induction bf as [|[r0 v0] bf IH]; intros ms' H G; inversion H; subst.
    + exists v'. split; [|assumption]. exists [], raw, (ms'0 ++ extra). cbn. auto.
    + inversion F; subst. destruct (IH H3 ms'0 H5 (ge_obj _ _ _ H5)) as (c' & (bf' & raw' & af' & [= E] & U' & F') & Gc).
      exists c'. split; [|exact Gc]. exists ((r0, v') :: bf'), raw', af'. cbn. rewrite E. repeat split; auto.
  - destruct M as (bf & raw & af & E & _). discriminate.
Qed.
Lemma element_grows e els els' : In e els -> grow_elements els els' -> exists e', In e' els' /\ grows_el e e'.
Proof. intros Ie G. induction G; [destruct Ie|]. destruct Ie as [->|Ie]; eauto. Qed.
Lemma array_grows els x e : grows (JArr els) x -> In e els -> exists els' e', x = JArr els' /\ In e' els' /\ grows_el e e'.
Proof.
  intros G Ie. inversion G as [? ? G'|? ? ? Na]; subst; [|exfalso; now apply (Na els)].
  inversion G'; subst; [exists els, e; repeat split; auto; apply ge_same|]. destruct (element_grows _ _ _ Ie H0) as (e' & I' & Ge). eauto.
Qed.
Lemma resolves_grows path j v : resolves path j v -> forall j', grows_el j j' -> exists v', resolves path j' v' /\ grows v v'.
Proof.
  induction 1 as [key j v M|key path j child v M R IH|key path j els e v M Ie R IH]; intros j' G.
  - destruct (member_grows _ _ _ _ M G) as (v' & M' & G'). exists v'. split; [now constructor|exact G'].
  - destruct (member_grows _ _ _ _ M G) as (c' & M' & G'). inversion G' as [? ? Ge|? e els Na Ge Ie]; subst.
    + destruct (IH _ Ge) as (v' & R' & Gv). exists v'. split; [|exact Gv]. eapply rs_object; eassumption.
    + destruct (IH _ Ge) as (v' & R' & Gv). exists v'. split; [|exact Gv]. eapply rs_array; eassumption.
  - destruct (member_grows _ _ _ _ M G) as (c' & M' & G'). destruct (array_grows _ _ _ G' Ie) as (els' & e' & -> & Ie' & Ge).
    destruct (IH _ Ge) as (v' & R' & Gv). exists v'. split; [|exact Gv]. eapply rs_array; eassumption.
Qed.
Lemma scalar_grows s s' : scalar s -> grows_el s s' -> s' = s.
Proof. intros [No Na] G. inversion G; subst; [reflexivity|now destruct (No ms)|now destruct (Na els)]. Qed.
Lemma tested_grows path j s j' : tested path j s -> grows_el j j' -> tested path j' s.
Proof.
  intros (Sc & [R|(els & R & Ie)]) G; split; auto; destruct (resolves_grows _ _ _ R _ G) as (v' & R' & Gv).
  - inversion Gv as [? ? Ge|? e els Na Ge Ie]; subst.
    + left. rewrite (scalar_grows _ _ Sc Ge) in R'. exact R'.
    + right. exists els. split; [exact R'|]. now rewrite (scalar_grows _ _ Sc Ge) in Ie.
  - right. destruct (array_grows _ _ _ Gv Ie) as (els' & e' & -> & Ie' & Ge). exists els'. split; [exact R'|]. now rewrite (scalar_grows _ _ Sc Ge) in Ie'.
Qed.
Lemma holds_grows O n j j' : grows_el j j' -> (even_nots n -> holds O n j -> holds O n j') /\ (odd_nots n -> holds O n j' -> holds O n j).
Proof.
  intros G. induction n as [l IHl r IHr|l IHl r IHr|e IHe|o f vs p]; cbn [even_nots odd_nots holds].
  - split; tauto.
  - split; tauto.
  - split; intros H; tauto.
  - split; [|tauto]. intros No. destruct o; try (now destruct No);
      try (intros (v & s & A & T & E); exists v, s; exact (conj A (conj (tested_grows _ _ _ _ T G) E))).
    + intros (v & w & s & A & T & E). exists v, w, s. exact (conj A (conj (tested_grows _ _ _ _ T G) E)).
    + intros (v & R). destruct (resolves_grows _ _ _ R _ G) as (v' & R' & _). eauto.
Qed.
(** A query that asks for something is still satisfied when the document grows. *)
Theorem C124_grows O q t d1 d2 ms1 ms2 : parse_plain O q = QOk t -> document d1 (JObj ms1) -> document d2 (JObj ms2) -> grows_el (JObj ms1) (JObj ms2) ->
  (forall o f vs p, subnode (NExpr o f vs p) t -> f <> []) ->
  (even_nots t -> answers O q d1 (Some true) -> answers O q d2 (Some true)) /\
  (odd_nots t -> answers O q d2 (Some true) -> answers O q d1 (Some true)).
Proof.
  intros P D1 D2 G Nf.
  assert (Sf : forall ms, forall o f vs p, subnode (NExpr o f vs p) t -> path_safe (JObj ms) f /\ no_index (JObj ms) f).
  { intros ms o f vs p S1. specialize (Nf _ _ _ _ S1). destruct f as [|[|c k] rest]; [now destruct Nf|split; [discriminate|exact Logic.I]|].
    split; [exact Logic.I|]. cbn. destruct c as [|p']; [exact Logic.I|]. do 7 (destruct p' as [p'|p'|]; try exact Logic.I; try discriminate). }
  destruct (C24_meaning O q t d1 _ P D1 (Sf ms1)) as [A1 _]. destruct (C24_meaning O q t d2 _ P D2 (Sf ms2)) as [A2 _].
  rewrite A1, A2. now apply holds_grows.
Qed.
Print Assumptions C124_grows.
(** For null this is so in neither direction. *)
Theorem C124_null_refuted : exists q d1 d2 d3 ms1 ms2 ms3, forall O,
  document d1 (JObj ms1) /\ document d2 (JObj ms2) /\ document d3 (JObj ms3) /\ grows_el (JObj ms1) (JObj ms2) /\ grows_el (JObj ms2) (JObj ms3) /\
  answers O q d1 (Some false) /\ answers O q d2 (Some true) /\ answers O q d3 (Some false).
Proof.
  exists (b "a:null"), (b "{}"), (b "{""a"":null}"), (b "{""a"":[null,1]}"), [], [(b "a", JNull)], [(b "a", JArr [JNull; JNum (b "1")])]. intros O.
  split; [apply parse_json_spec; vm_compute; reflexivity|]. split; [apply parse_json_spec; vm_compute; reflexivity|]. split; [apply parse_json_spec; vm_compute; reflexivity|].
  split; [apply (ge_obj [] [] [(b "a", JNull)]); constructor|]. split.
  - apply (ge_obj _ [(b "a", JArr [JNull; JNum (b "1")])] []). constructor; [|constructor].
    apply (gr_wrap JNull JNull); [discriminate|apply ge_same|now left].
  - split; [|split]; (do 3 eexists; split; [vm_compute; reflexivity|]; split; [apply af_none|]; vm_compute; reflexivity).
Qed.
Print Assumptions C124_null_refuted.
Example C124_example : exists t ms1 ms2, parse_plain test_oracle (b "a.b:>5 AND !(!c:(""x"", ""y""))") = QOk t /\ even_nots t /\
  document (b "{""a"":{""b"":7},""c"":[""x""]}") (JObj ms1) /\ document (b "{""a"":[0,{""b"":[1,7]}],""c"":[""z"",""x""],""a"":1}") (JObj ms2) /\
  grows_el (JObj ms1) (JObj ms2) /\ answers test_oracle (b "a.b:>5 AND !(!c:(""x"", ""y""))") (b "{""a"":{""b"":7},""c"":[""x""]}") (Some true).
Proof.
  do 3 eexists. split; [vm_compute; reflexivity|]. split; [cbn; repeat split; discriminate|]. split; [apply parse_json_spec; vm_compute; reflexivity|].
  split; [apply parse_json_spec; vm_compute; reflexivity|]. split.
  - match goal with |- grows_el (JObj ?x) (JObj [?m1; ?m2; ?m3]) => apply (ge_obj x [m1; m2] [m3]) end. constructor; [|constructor; [|constructor]].
    + eapply gr_wrap; [discriminate| |right; left; reflexivity]. match goal with |- grows_el (JObj ?x) (JObj [?m]) => apply (ge_obj x [m] []) end.
      constructor; [|constructor]. eapply gr_wrap; [discriminate|apply ge_same|right; now left].
    + apply gr_el, ge_arr. econstructor; [apply ge_same|right; now left|constructor].
  - do 3 eexists. split; [vm_compute; reflexivity|]. split; [apply af_none|]. vm_compute. reflexivity.
Qed.

(** ** C125: the same query one level deeper *)
(** [under key t t']: the same query on the members of [key]; the values may stand at other places. *)
Inductive under (key : bytes) : node -> node -> Prop :=
| un_and l l' r r' : under key l l' -> under key r r' -> under key (NAnd l r) (NAnd l' r')
| un_or l l' r r' : under key l l' -> under key r r' -> under key (NOr l r) (NOr l' r')
| un_not e e' : under key e e' -> under key (NNot e) (NNot e')
| un_expr o f vs vs' p p' : Forall2 same_value vs vs' -> under key (NExpr o f vs p) (NExpr o (key :: f) vs' p').

(** The place of a value in the query has no influence on what it equals. *)
Lemma values_holds O o f vs vs' p p' j : Forall2 same_value vs vs' -> holds O (NExpr o f vs p) j -> holds O (NExpr o f vs' p') j.
Proof.
  intros F. assert (Eq : forall v v' s, same_value v v' -> equals O v s -> equals O v' s).
  { intros v v' s Sv. unfold same_value in Sv. destruct v, v'; cbn in Sv; try discriminate; injection Sv as; subst; auto. }
  assert (Or : forall v v' s, same_value v v' -> ordered O o v s -> ordered O o v' s).
  { intros v v' s Sv. unfold same_value in Sv. destruct v, v'; cbn in Sv; try discriminate; injection Sv as; subst; auto. }
  assert (Rg : forall v v' w w' s, same_value v v' -> same_value w w' -> in_range O v w s -> in_range O v' w' s).
  { intros v v' w w' s Sv Sw. unfold same_value in Sv, Sw. destruct v, v'; cbn in Sv; try discriminate; injection Sv as; subst;
      destruct w, w'; cbn in Sw; try discriminate; injection Sw as; subst; auto. }
  assert (In' : forall v, In v vs -> exists v', In v' vs' /\ same_value v v').
  { clear - F. induction F as [|x y l l' Sx F IH]; intros v []; [subst; exists y; split; [now left|exact Sx]|].
    destruct (IH v H) as (v' & I & E). exists v'. split; [now right|exact E]. }
  destruct o; cbn [holds]; auto.
  all: try (intros (v & s & I & T & E); destruct (In' v I) as (v' & I' & Sv); exists v', s; split; [exact I'|]; split; [exact T|]; now apply (Eq v)).
  all: try (intros (v & s & -> & T & E); inversion F as [|? v' ? l' Sv F' ]; subst; inversion F'; subst; exists v', s; split; [reflexivity|]; split; [exact T|]; now apply (Or v)).
  intros (v & w & s & -> & T & E). inversion F as [|? v' ? l' Sv F' ]; subst. inversion F' as [|? w' ? l'' Sw F'']; subst. inversion F''; subst.
  exists v', w', s. split; [reflexivity|]. split; [exact T|]. now apply (Rg v v' w w').
Qed.
Lemma same_values_sym vs vs' : Forall2 same_value vs vs' -> Forall2 same_value vs' vs.
Proof. induction 1; constructor; auto. unfold same_value in *. congruence. Qed.

Lemma member_unique key j c c' : member key j c -> member key j c' -> c = c'.
Proof.
  intros M M'. pose proof M as (bf & raw & af & -> & _). apply lookup_member in M, M'. congruence.
Qed.
Lemma resolves_under key path j child v : path <> [] -> member key j child ->
  resolves (key :: path) j v <-> resolves path child v \/ exists els e, child = JArr els /\ In e els /\ resolves path e v.
Proof.
  intros Np M. split.
  - intros R. inversion R; subst; [congruence| |].
    + left. now rewrite (member_unique _ _ _ _ M H1).
    + right. exists els, e. split; [eapply member_unique; eassumption|auto].
  - intros [R|(els & e & -> & Ie & R)]; [eapply rs_object|eapply rs_array]; eassumption.
Qed.
Lemma holds_under O key t t' ms j' : under key t t' -> member key j' (JObj ms) ->
  (forall o f vs p, subnode (NExpr o f vs p) t -> f <> []) -> holds O t (JObj ms) <-> holds O t' j'.
Proof.
  intros U M. induction U as [l l' r r' Ul IHl Ur IHr|l l' r r' Ul IHl Ur IHr|e e' Ue IHe|o f vs vs' p p' F]; intros Nf.
  - cbn [holds]. rewrite IHl, IHr by (intros; eapply Nf; [apply sub_and_l + apply sub_and_r]; eassumption). tauto.
  - cbn [holds]. rewrite IHl, IHr by (intros; eapply Nf; [apply sub_or_l + apply sub_or_r]; eassumption). tauto.
  - cbn [holds]. rewrite IHe by (intros; eapply Nf, sub_not; eassumption). tauto.
  - pose proof (Nf o f vs p (sub_refl _)) as N. assert (R : forall v, resolves (key :: f) j' v <-> resolves f (JObj ms) v).
    { intros v. rewrite (resolves_under key f j' _ v N M). split; [intros [H|(els & e & E & _)]; [exact H|discriminate]|auto]. }
    assert (T : forall s, tested (key :: f) j' s <-> tested f (JObj ms) s).
    { intros s. unfold tested. rewrite (R s). split; intros (Sc & [H|(els & H & Ie)]); (split; [exact Sc|]); auto; right; exists els; (split; [|exact Ie]); now apply R. }
    transitivity (holds O (NExpr o (key :: f) vs p') j'); [|split; apply values_holds; [exact F|now apply same_values_sym]]. clear F.
    destruct o; cbn [holds]; try (split; intros (v & s & A & B & E); exists v, s; (split; [exact A|]); (split; [now apply T|exact E])).
    + split; intros (v & w & s & A & B & E); exists v, w, s; (split; [exact A|]); (split; [now apply T|exact E]).
    + split; intros (v & H); exists v; now apply R.
    + split; intros ((v & H) & F); (split; [exists v; now apply R|]); intros u Hu; apply F; now apply R.
Qed.
Lemma object_safe t ms : (forall o f vs p, subnode (NExpr o f vs p) t -> f <> []) ->
  forall o f vs p, subnode (NExpr o f vs p) t -> path_safe (JObj ms) f /\ no_index (JObj ms) f.
Proof.
  intros Nf o f vs p S1. specialize (Nf _ _ _ _ S1). destruct f as [|[|c k] rest]; [now destruct Nf|split; [discriminate|exact Logic.I]|].
  split; [exact Logic.I|]. cbn. destruct c as [|p']; [exact Logic.I|]. do 7 (destruct p' as [p'|p'|]; try exact Logic.I; try discriminate).
Qed.
Lemma under_paths key t t' : under key t t' -> forall o f vs p, subnode (NExpr o f vs p) t' -> f <> [].
Proof. induction 1; intros ? ? ? ? S1; inversion S1; subst; eauto; discriminate. Qed.

(** On an object that is the member of another one. *)
Theorem C125_object O key q q' t t' d d' ms ms' x : parse_plain O q = QOk t -> parse_plain O q' = QOk t' -> under key t t' ->
  document d (JObj ms) -> document d' (JObj ms') -> member key (JObj ms') (JObj ms) ->
  (forall o f vs p, subnode (NExpr o f vs p) t -> f <> []) ->
  answers O q d (Some x) <-> answers O q' d' (Some x).
Proof.
  intros P P' U D D' M Nf. destruct (C24_meaning O q t d _ P D (object_safe t ms Nf)) as [A1 A2].
  destruct (C24_meaning O q' t' d' _ P' D' (object_safe t' ms' (under_paths _ _ _ U))) as [B1 B2].
  pose proof (holds_under O key t t' ms _ U M Nf) as H. destruct x; [rewrite A1, B1|rewrite A2, B2]; tauto.
Qed.
Print Assumptions C125_object.

(** On an array of objects a single comparison holds if it holds for one of them. *)
Theorem C125_array O key q q' o f vs vs' p p' els d' ms' ds : parse_plain O q = QOk (NExpr o f vs p) -> parse_plain O q' = QOk (NExpr o (key :: f) vs' p') -> Forall2 same_value vs vs' -> o <> NUL ->
  document d' (JObj ms') -> member key (JObj ms') (JArr els) -> Forall2 document ds els -> f <> [] ->
  answers O q' d' (Some true) <-> exists d ms, In d ds /\ document d (JObj ms) /\ answers O q d (Some true).
Proof.
  intros P P' Sv No D' M Ds Nf.
  assert (Nf' : forall o' f' vs' p0, subnode (NExpr o' f' vs' p0) (NExpr o f vs p) -> f' <> []) by (intros ? ? ? ? S1; inversion S1; subst; exact Nf).
  destruct (C24_meaning O q' _ d' _ P' D' (object_safe (NExpr o (key :: f) vs' p') ms' ltac:(intros ? ? ? ? S1; inversion S1; subst; discriminate))) as [B1 _]. rewrite B1. clear B1.
  transitivity (holds O (NExpr o (key :: f) vs p') (JObj ms')); [split; apply values_holds; [now apply same_values_sym|exact Sv]|]. clear Sv.
  assert (R : forall v, resolves (key :: f) (JObj ms') v <-> exists e, In e els /\ resolves f e v).
  { intros v. rewrite (resolves_under key f _ _ v Nf M). split.
    - intros [H|(els' & e & [= <-] & Ie & H)]; [destruct (resolves_object _ _ _ H); discriminate|eauto].
    - intros (e & Ie & H). right. eauto. }
  assert (T : forall s, tested (key :: f) (JObj ms') s <-> exists e, In e els /\ tested f e s).
  { intros s. unfold tested. split.
    - intros (Sc & [H|(l & H & Ie)]); apply R in H as (e & Ie' & H); exists e; (split; [exact Ie'|]); (split; [exact Sc|]); eauto.
    - intros (e & Ie & Sc & [H|(l & H & Il)]); (split; [exact Sc|]); [left|right; exists l; split; [|exact Il]]; apply R; eauto. }
  assert (H : holds O (NExpr o (key :: f) vs p') (JObj ms') <-> exists e, In e els /\ holds O (NExpr o f vs p) e).
  { destruct o; try (now destruct No); cbn [holds];
      try (split; [intros (v & s & A & B & E); apply T in B as (e & Ie & B); eauto 8|intros (e & Ie & v & s & A & B & E); exists v, s; (split; [exact A|]); (split; [apply T; eauto|exact E])]).
    - split; [intros (v & w & s & A & B & E); apply T in B as (e & Ie & B); eauto 9|intros (e & Ie & v & w & s & A & B & E); exists v, w, s; (split; [exact A|]); (split; [apply T; eauto|exact E])].
    - split; [intros (v & B); apply R in B as (e & Ie & B); eauto|intros (e & Ie & v & B); exists v; apply R; eauto]. }
  rewrite H. clear H R T. split.
  - intros (e & Ie & H). assert (X : exists d, In d ds /\ document d e).
    { clear - Ds Ie. induction Ds as [|d e' ds els De Ds IH]; [destruct Ie|]. destruct Ie as [->|Ie]; [exists d; split; [now left|exact De]|].
      destruct (IH Ie) as (d0 & I0 & D0). exists d0. split; [now right|exact D0]. }
    destruct X as (d & Id & De).
    assert (Ob : exists ms, e = JObj ms).
    { destruct o; cbn [holds] in H; try (now destruct No);
        try (destruct H as (v & s & _ & (_ & [R|(l & R & _)]) & _); exact (resolves_object _ _ _ R)).
      - destruct H as (v & w & s & _ & (_ & [R|(l & R & _)]) & _); exact (resolves_object _ _ _ R).
      - destruct H as (v & R). exact (resolves_object _ _ _ R). }
    destruct Ob as (ms & ->). exists d, ms. split; [exact Id|]. split; [exact De|]. now apply (C24_meaning O q _ d _ P De (object_safe _ ms Nf')).
  - intros (d & ms & Id & De & A). apply (C24_meaning O q _ d _ P De (object_safe _ ms Nf')) in A. exists (JObj ms). split; [|exact A].
    clear - Ds Id De. induction Ds as [|d1 e1 ds els D1 Ds IH]; [destruct Id|]. destruct Id as [->|Id]; [left|right; auto].
    apply parse_json_spec in D1, De. congruence.
Qed.
Print Assumptions C125_array.
(** Comparisons joined by AND need not hold for the same element. *)
Theorem C125_and_refuted : exists q q' key els ds d' ms' t t', forall O,
  parse_plain O q = QOk t /\ parse_plain O q' = QOk t' /\ under key t t' /\ document d' (JObj ms') /\ member key (JObj ms') (JArr els) /\ Forall2 document ds els /\
  answers O q' d' (Some true) /\ forall d, In d ds -> answers O q d (Some false).
Proof.
  exists (b "x:exists AND y:exists"), (b "a.x:exists AND a.y:exists"), (b "a"), [JObj [(b "x", JNum (b "1"))]; JObj [(b "y", JNum (b "2"))]],
    [b "{""x"":1}"; b "{""y"":2}"], (b "{""a"":[{""x"":1},{""y"":2}]}").
  do 3 eexists. intros O. split; [vm_compute; reflexivity|]. split; [vm_compute; reflexivity|]. split; [repeat constructor|].
  split; [apply parse_json_spec; vm_compute; reflexivity|]. split; [apply lookup_member; vm_compute; reflexivity|].
  split; [constructor; [apply parse_json_spec; vm_compute; reflexivity|constructor; [apply parse_json_spec; vm_compute; reflexivity|constructor]]|].
  split; [do 3 eexists; split; [vm_compute; reflexivity|]; split; [apply af_none|]; vm_compute; reflexivity|].
  intros d [<-|[<-|[]]]; (do 3 eexists; split; [vm_compute; reflexivity|]; split; [apply af_none|]; vm_compute; reflexivity).
Qed.
Print Assumptions C125_and_refuted.
Example C125_hypotheses : exists t t' ms ms', parse_plain test_oracle (b "x:>3 AND !y:exists") = QOk t /\ parse_plain test_oracle (b "a.x:>3 AND !a.y:exists") = QOk t' /\
  under (b "a") t t' /\ document (b "{""x"":[1,5]}") (JObj ms) /\ document (b "{""b"":0,""a"":{""x"":[1,5]}}") (JObj ms') /\ member (b "a") (JObj ms') (JObj ms) /\
  (forall o f vs p, subnode (NExpr o f vs p) t -> f <> []).
Proof.
  do 4 eexists. split; [vm_compute; reflexivity|]. split; [vm_compute; reflexivity|]. split; [repeat constructor|].
  split; [apply parse_json_spec; vm_compute; reflexivity|]. split; [apply parse_json_spec; vm_compute; reflexivity|].
  split; [apply lookup_member; vm_compute; reflexivity|].
  intros o f vs p H. repeat match goal with H : subnode _ _ |- _ => inversion H; clear H; subst end; discriminate.
Qed.
Example C125_array_hypotheses : exists vs vs' p p' els ms', parse_plain test_oracle (b "x:>3") = QOk (NExpr GT [b "x"] vs p) /\
  parse_plain test_oracle (b "a.x:>3") = QOk (NExpr GT [b "a"; b "x"] vs' p') /\ Forall2 same_value vs vs' /\ vs <> vs' /\
  document (b "{""a"":[{""x"":2},{""x"":[1,5]}]}") (JObj ms') /\ member (b "a") (JObj ms') (JArr els) /\ Forall2 document [b "{""x"":2}"; b "{""x"":[1,5]}"] els.
Proof.
  do 6 eexists. split; [vm_compute; reflexivity|]. split; [vm_compute; reflexivity|]. split; [repeat constructor|]. split; [discriminate|].
  split; [apply parse_json_spec; vm_compute; reflexivity|]. split; [apply lookup_member; vm_compute; reflexivity|].
  constructor; [apply parse_json_spec; vm_compute; reflexivity|constructor; [apply parse_json_spec; vm_compute; reflexivity|constructor]].
Qed.
Example C125_example : answers test_oracle (b "x:>3 AND !y:exists") (b "{""x"":[1,5]}") (Some true) /\
  answers test_oracle (b "a.x:>3 AND !a.y:exists") (b "{""b"":0,""a"":{""x"":[1,5]}}") (Some true) /\
  answers test_oracle (b "a.x:>3") (b "{""a"":[{""x"":2},{""x"":[1,5]}]}") (Some true).
Proof. repeat split; (do 3 eexists; split; [vm_compute; reflexivity|]; split; [apply af_none|]; vm_compute; reflexivity). Qed.
