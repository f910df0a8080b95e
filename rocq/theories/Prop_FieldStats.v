(** C63, C87, C88: statistics about the values of a field. *)
From Verif Require Import Bytes Json Values JsonParser FieldStats.
From Coq Require Import ZifyBool ZifyN ZifyNat Permutation.

Definition add_all (xs : list bytes) (el : example_list) : example_list := fold_left (fun el x => add_example x el) xs el.
(** The last [n] of a list. *)
Definition lastn {A} (n : nat) (l : list A) : list A := skipn (length l - n) l.

(** ** C63 *)
Theorem C63_get_refuted : exists x, x <> [] /\ get_examples (add_example x empty_examples) = [] /\ lastn 10 [x] = [x].
Proof. exists (b "x"). repeat split; try discriminate. Qed.
Print Assumptions C63_get_refuted.

(** ** C87: what Get returns *)

(** The slot an addition goes to, counting additions from 1. *)
Lemma set_nth_length {A} n (x : A) l : length (set_nth n x l) = length l.
Proof. revert n. induction l; intros [|n]; cbn; auto. Qed.
Lemma nth_set_nth {A} n m (x d : A) l : (n < length l)%nat -> nth m (set_nth n x l) d = if Nat.eqb m n then x else nth m l d.
Proof.
  revert n m. induction l as [|y l IH]; intros [|n] [|m] H; cbn in *; try lia; auto. apply IH. lia.
Qed.

Lemma add_slots xs : let el := add_all xs empty_examples in
  length (el_examples el) = 10%nat /\ el_idx el = (length xs mod 10)%nat /\
  forall i, (i < 10)%nat -> nth i (el_examples el) [] =
    match (if Nat.leb i (length xs mod 10) then length xs / 10 * 10 + i else (length xs / 10 - 1) * 10 + i)%nat with
    | O => []
    | S a => if (length xs <? 10)%nat && Nat.ltb (length xs mod 10) i then [] else nth a xs []
    end.
Proof.
  unfold add_all. induction xs as [|x xs IH] using rev_ind.
  - cbn. repeat split; auto. intros i H. do 10 (destruct i as [|i]; [reflexivity|]). lia.
  - rewrite fold_left_app. cbn [fold_left]. destruct IH as (L & I & Sl). set (el := fold_left _ xs _) in *. unfold add_example.
    rewrite app_length. cbn [length]. rewrite L, I. set (n := length xs) in *.
    assert (Hm : (n mod 10 < 10)%nat) by (apply Nat.mod_upper_bound; lia).
    assert (Ei : (if Nat.eqb (S (n mod 10)) 10 then 0 else S (n mod 10))%nat = ((n + 1) mod 10)%nat).
    { destruct (Nat.eqb_spec (S (n mod 10)) 10) as [E|E].
      - replace (n + 1)%nat with ((n / 10 + 1) * 10)%nat by (pose proof (Nat.div_mod n 10); lia). now rewrite Nat.mod_mul.
      - apply Nat.mod_unique with (n / 10)%nat; pose proof (Nat.div_mod n 10); lia. }
    rewrite Ei. cbn [el_examples el_idx]. split; [now rewrite set_nth_length|]. split; [reflexivity|]. intros i Hi.
    assert (Hm' : ((n + 1) mod 10 < 10)%nat) by (apply Nat.mod_upper_bound; lia).
    rewrite nth_set_nth by (rewrite L; exact Hm').
    pose proof (Nat.div_mod n 10 ltac:(lia)) as D1. pose proof (Nat.div_mod (n + 1) 10 ltac:(lia)) as D2.
    set (q := (n / 10)%nat) in *. set (q' := ((n + 1) / 10)%nat) in *. set (r := (n mod 10)%nat) in *. set (r' := ((n + 1) mod 10)%nat) in *.
    assert (Cases : ((r < 9 /\ r' = r + 1 /\ q' = q) \/ (r = 9 /\ r' = 0 /\ q' = q + 1))%nat) by lia. clearbody q q' r r'. clear Ei.
    destruct (Nat.eqb_spec i r') as [->|Ni].
    + rewrite Nat.leb_refl. replace (q' * 10 + r')%nat with (S n) by lia. replace (Nat.ltb r' r') with false by lia. rewrite andb_false_r.
      rewrite app_nth2 by (unfold n; lia). now replace (n - length xs)%nat with 0%nat by (unfold n; lia).
    + rewrite Sl by exact Hi.
      assert (App : forall a, (a < n)%nat -> nth a (xs ++ [x]) [] = nth a xs []) by (intros a Ha; apply app_nth1; exact Ha).
      destruct Cases as [(C1 & C2 & C3)|(C1 & C2 & C3)]; subst q'.
      * replace (i <=? r')%nat with (i <=? r)%nat by lia. destruct (Nat.leb_spec i r) as [Li|Li].
        -- destruct (q * 10 + i)%nat as [|a] eqn:Ea; [reflexivity|]. replace (Nat.ltb r i) with false by lia. replace (Nat.ltb r' i) with false by lia.
           rewrite !andb_false_r. rewrite App by lia. reflexivity.
        -- destruct ((q - 1) * 10 + i)%nat as [|a] eqn:Ea; [reflexivity|]. replace (Nat.ltb r i) with true by lia. replace (Nat.ltb r' i) with true by lia.
           rewrite !andb_true_r. destruct (Nat.ltb_spec n 10).
           ++ now replace (n + 1 <? 10)%nat with true by lia.
           ++ replace (n + 1 <? 10)%nat with false by lia. rewrite App by lia. reflexivity.
      * replace (i <=? r)%nat with true by lia. replace (i <=? r')%nat with false by lia. replace (q + 1 - 1)%nat with q by lia.
        replace (Nat.ltb r i) with false by lia. destruct (q * 10 + i)%nat as [|a] eqn:Ea; [reflexivity|].
        rewrite andb_false_r. replace (n + 1 <? 10)%nat with false by lia. cbn [andb]. rewrite App by lia. reflexivity.
Qed.

Lemma leading_all l : Forall (fun x => x <> []) l -> leading l = l.
Proof. induction 1 as [|[|c x] l Hx _ IH]; cbn; [reflexivity|congruence|now rewrite IH]. Qed.

Lemma nth_skipn' k : forall j (l : list bytes), nth j (skipn k l) [] = nth (k + j) l [].
Proof. induction k as [|k IH]; intros j l; [reflexivity|]. destruct l; [now destruct j|]. cbn. apply IH. Qed.

(** Nothing until the tenth addition, afterwards the last ten in some order. *)
Theorem C87_get (xs : list bytes) : Forall (fun x => x <> []) xs ->
  ((length xs < 10)%nat -> get_examples (add_all xs empty_examples) = []) /\
  ((10 <= length xs)%nat -> Permutation (get_examples (add_all xs empty_examples)) (lastn 10 xs)).
Proof.
  intros F. destruct (add_slots xs) as (L & _ & Sl). set (el := add_all xs empty_examples) in *. unfold get_examples. split.
  - intros H. specialize (Sl 0%nat ltac:(lia)). rewrite Nat.mod_small, Nat.div_small in Sl by exact H. cbn in Sl.
    destruct (el_examples el) as [|y r]; [reflexivity|]. cbn in Sl. now subst y.
  - intros H. set (n := length xs) in *. pose proof (Nat.div_mod n 10 ltac:(lia)) as D. pose proof (Nat.mod_upper_bound n 10 ltac:(lia)) as Hm.
    set (q := (n / 10)%nat) in *. set (r := (n mod 10)%nat) in *. clearbody q r.
    assert (Sl' : forall i, (i < 10)%nat -> nth i (el_examples el) [] = nth ((if Nat.leb i r then q * 10 + i else (q - 1) * 10 + i) - 1) xs []).
    { intros i Hi. rewrite Sl by exact Hi. replace (n <? 10)%nat with false by lia. cbn [andb].
      destruct (Nat.leb_spec i r); [destruct (q * 10 + i)%nat eqn:E|destruct ((q - 1) * 10 + i)%nat eqn:E]; try lia; f_equal; lia. }
    assert (Ln : length (lastn 10 xs) = 10%nat) by (unfold lastn; rewrite skipn_length; fold n; lia).
    assert (Ls : forall k, (k < 10)%nat -> nth k (lastn 10 xs) [] = nth (n - 10 + k) xs []).
    { intros k Hk. unfold lastn. fold n. apply nth_skipn'. }
    (* slots 1 + r .. 9 hold the older ones, slots 0 .. r the newer ones *)
    assert (E : el_examples el = skipn (9 - r) (lastn 10 xs) ++ firstn (9 - r) (lastn 10 xs)).
    { apply nth_ext with [] []; [rewrite app_length, skipn_length, firstn_length, Ln, L; lia|]. rewrite L. intros i Hi. rewrite Sl' by exact Hi.
      destruct (Nat.leb_spec i r) as [Li|Li].
      - rewrite app_nth1 by (rewrite skipn_length, Ln; lia).
        rewrite nth_skipn', Ls by lia. f_equal. lia.
      - rewrite app_nth2 by (rewrite skipn_length, Ln; lia). rewrite skipn_length, Ln.
        assert (Fn : forall k j (l : list bytes), (j < k)%nat -> nth j (firstn k l) [] = nth j l []).
        { clear. intros k. induction k as [|k IH]; intros j l Hj; [lia|]. destruct l; [reflexivity|]. destruct j; [reflexivity|]. cbn. apply IH. lia. }
        rewrite Fn, Ls by lia. f_equal. lia. }
    assert (P : Permutation (el_examples el) (lastn 10 xs)).
    { rewrite E. rewrite Permutation_app_comm. now rewrite firstn_skipn. }
    rewrite leading_all; [exact P|]. eapply Permutation_Forall; [symmetry; exact P|]. unfold lastn.
    rewrite <- (firstn_skipn (length xs - 10) xs) in F. now apply Forall_app in F as [_ F].
Qed.
Print Assumptions C87_get.
Example C87_example : get_examples (add_all (map (fun n => [N.of_nat n]) (seq 1 13)) empty_examples) =
  [[10]; [11]; [12]; [13]; [4]; [5]; [6]; [7]; [8]; [9]].
Proof. reflexivity. Qed.

(** ** C88 *)
(** Calls of mark: the values and whether they were elements of an array. *)
Inductive marked : field_stats -> list (list jvalue * bool) -> field_stats -> Prop :=
| mk_none fs : marked fs [] fs
| mk_more fs vs a idx fs1 cs fs2 : mark fs vs idx a = Ok fs1 -> marked fs1 cs fs2 -> marked fs ((vs, a) :: cs) fs2.
Definition seen (fs : field_stats) (t : vtype) (a : bool) : N :=
  match nth_error (fs_types fs) (which t a) with Some e => en_seen e | None => 0 end.
Definition vtype_dec (x y : vtype) : {x = y} + {x <> y}.
Proof. decide equality. Defined.
Definition occurrences (t : vtype) (a : bool) (cs : list (list jvalue * bool)) : nat :=
  fold_right (fun c n => (if Bool.eqb (snd c) a then count_occ vtype_dec (map snd (fst c)) t else 0) + n)%nat 0%nat cs.

Lemma which_inj t a t' a' : which t a = which t' a' -> t = t' /\ a = a'.
Proof. destruct t, a, t', a'; cbn; intros; try lia; auto. Qed.
Lemma which_lt t a : (which t a < 12)%nat.
Proof. destruct t, a; cbn; lia. Qed.
Lemma nth_error_set {A} n m (x : A) l : (n < length l)%nat -> nth_error (set_nth n x l) m = if Nat.eqb m n then Some x else nth_error l m.
Proof. revert n m. induction l as [|y l IH]; intros [|n] [|m] H; cbn in *; try lia; auto. apply IH. lia. Qed.

(** The state between calls: all lists missing, twelve types, no matches. *)
Definition bare (fs : field_stats) : Prop :=
  length (fs_types fs) = 12%nat /\ Forall (fun e => en_examples e = None /\ en_matched e = 0) (fs_types fs).
Lemma Forall_set {A} (P : A -> Prop) n x l : P x -> Forall P l -> Forall P (set_nth n x l).
Proof. intros Hx F. revert n. induction F; intros [|n]; cbn; constructor; auto. Qed.

Lemma mark_value_bare a fs (v : jvalue) : bare fs ->
  (snd v = TBoolean \/ snd v = TArray \/ snd v = TNull \/ fs_sampled fs mod 1000 <> 0 ->
   exists fs', mark_value a fs v = Ok fs' /\ bare fs' /\ fs_sampled fs' = fs_sampled fs /\
     forall t a', seen fs' t a' = seen fs t a' + if vtype_dec (snd v) t then if Bool.eqb a a' then 1 else 0 else 0) /\
  ((snd v = TString \/ snd v = TNumber \/ snd v = TObject) -> fs_sampled fs mod 1000 = 0 -> mark_value a fs v = Panic).
Proof.
  intros [L F]. unfold mark_value, field_mark_window. pose proof (which_lt (snd v) a) as Hw.
  destruct (nth_error (fs_types fs) (which (snd v) a)) as [e|] eqn:E; [|apply nth_error_None in E; lia].
  assert (He : en_examples e = None /\ en_matched e = 0) by (apply nth_error_In in E; rewrite Forall_forall in F; auto).
  cbn [en_examples en_seen en_matched]. destruct He as [He Hm]. rewrite He. split.
  - intros H. replace ((which (snd v) a <? 6)%nat && (fs_sampled fs mod 1000 =? 0)) with false.
    + eexists. split; [reflexivity|]. cbn [fs_sampled fs_types]. split; [|split; [reflexivity|]].
      * split; [cbn; now rewrite set_nth_length|]. apply Forall_set; [now split|exact F].
      * intros t a'. unfold seen. cbn [fs_types]. rewrite nth_error_set by lia.
        destruct (Nat.eqb_spec (which t a') (which (snd v) a)) as [W|W].
        -- apply which_inj in W as [-> ->]. destruct (vtype_dec (snd v) (snd v)); [|congruence]. rewrite E. destruct a; cbn; lia.
        -- destruct (vtype_dec (snd v) t) as [Et|]; [subst t|lia]. destruct (Bool.eqb a a') eqn:Ea; [|lia]. apply Bool.eqb_prop in Ea as ->. now destruct W.
    + symmetry. apply andb_false_iff. destruct H as [H|[H|[H|H]]]; [left|left|left|right; lia]; rewrite H; destruct a; reflexivity.
  - intros H Z0. replace ((which (snd v) a <? 6)%nat && (fs_sampled fs mod 1000 =? 0)) with true; [reflexivity|].
    symmetry. apply andb_true_iff. split; [destruct H as [H|[H|H]]; rewrite H; destruct a; reflexivity|lia].
Qed.

Lemma mark_values_bare a vs : forall fs, bare fs -> fs_sampled fs mod 1000 <> 0 ->
  exists fs', mark_values a fs vs = Ok fs' /\ bare fs' /\ fs_sampled fs' = fs_sampled fs /\
    forall t a', seen fs' t a' = seen fs t a' + N.of_nat (if Bool.eqb a a' then count_occ vtype_dec (map snd vs) t else 0).
Proof.
  induction vs as [|v vs IH]; intros fs B M.
  - exists fs. repeat split; try apply B. intros t a'. cbn. destruct (Bool.eqb a a'); lia.
  - destruct (proj1 (mark_value_bare a fs v B)) as (fs1 & E1 & B1 & S1 & C1); [tauto|].
    destruct (IH fs1 B1) as (fs2 & E2 & B2 & S2 & C2); [congruence|]. exists fs2. cbn [mark_values]. rewrite E1. cbn [bind]. split; [exact E2|].
    split; [exact B2|]. split; [congruence|]. intros t a'. rewrite C2, C1. cbn [map count_occ]. destruct (vtype_dec (snd v) t), (Bool.eqb a a'); lia.
Qed.

Lemma bare_new : bare new_field_stats.
Proof. split; [reflexivity|]. repeat constructor. Qed.

(** For fewer than 1000 calls the counts are exact: what MarshalJson reports under the name of a
    type. *)
Definition type_word (t : vtype) : bytes :=
  match t with
  | TString => b "string" | TNumber => b "number" | TObject => b "object" | TArray => b "array" | TBoolean => b "boolean" | TNull => b "null"
  end.
Definition heading (t : vtype) (a : bool) : bytes := type_word t ++ if a then b " (in array)" else [].
Lemma in_combine_nth {A B} (l : list A) : forall (l' : list B) x y, In (x, y) (combine l l') <-> exists i, nth_error l i = Some x /\ nth_error l' i = Some y.
Proof.
  induction l as [|z l IH]; intros l' x y.
  - cbn. split; [intros []|intros ([|i] & H & _); discriminate].
  - destruct l' as [|w l']; cbn [combine In].
    + split; [intros []|intros ([|i] & _ & H); discriminate].
    + rewrite IH. split.
      * intros [[= -> ->]|(i & H1 & H2)]; [now exists 0%nat|now exists (S i)].
      * intros ([|i] & H1 & H2); cbn in *; [left; congruence|right; eauto].
Qed.
Lemma heading_at t a : nth_error encountered_name (which t a) = Some (heading t a).
Proof. destruct t, a; reflexivity. Qed.
Lemma heading_only t a i : nth_error encountered_name i = Some (heading t a) -> i = which t a.
Proof. do 12 (destruct i as [|i]; [destruct t, a; cbn; try reflexivity; discriminate|]). destruct i; discriminate. Qed.
Lemma shown_seen fs t a n m : bare fs -> In (heading t a, (n, m)) (shown_counts fs) <-> n <> 0 /\ n = seen fs t a /\ m = 0.
Proof.
  intros [L F]. unfold shown_counts, seen. rewrite in_map_iff. split.
  - intros ([x e] & E & J). cbn [fst snd] in *. assert (x = heading t a /\ n = en_seen e /\ m = en_matched e) as (-> & -> & ->) by (repeat split; congruence).
    apply filter_In in J as [J Nz]. cbn [snd] in Nz. apply in_combine_nth in J as (i & H1 & H2). apply heading_only in H1 as ->. rewrite H2.
    apply nth_error_In in H2. rewrite Forall_forall in F. apply F in H2 as [_ H2]. repeat split; [|exact H2]. lia.
  - intros (Nz & -> & ->). destruct (nth_error (fs_types fs) (which t a)) as [e|] eqn:E; [|congruence]. exists (heading t a, e). cbn [fst snd]. split.
    + apply nth_error_In in E. rewrite Forall_forall in F. apply F in E as [_ E]. now rewrite E.
    + apply filter_In. split; [|cbn [snd]; lia]. apply in_combine_nth. exists (which t a). split; [apply heading_at|exact E].
Qed.
Theorem C88_counts cs : (length cs < 1000)%nat -> exists fs, marked new_field_stats cs fs /\
  fs_sampled fs = N.of_nat (length cs) /\
  forall t a n m, In (heading t a, (n, m)) (shown_counts fs) <-> n <> 0 /\ n = N.of_nat (occurrences t a cs) /\ m = 0.
Proof.
  intros H.
  assert (G : forall cs fs, bare fs -> fs_sampled fs + N.of_nat (length cs) < 1000 -> exists fs', marked fs cs fs' /\ bare fs' /\
    fs_sampled fs' = fs_sampled fs + N.of_nat (length cs) /\ forall t a, seen fs' t a = seen fs t a + N.of_nat (occurrences t a cs)).
  { clear. induction cs as [|[vs a] cs IH]; intros fs B L; cbn [length] in L.
    - exists fs. split; [constructor|]. split; [exact B|]. split; [cbn; lia|]. intros. cbn. lia.
    - destruct (mark_values_bare a vs {| fs_sampled := fs_sampled fs + 1; fs_types := fs_types fs |}) as (fs1 & E1 & B1 & S1 & C1).
      + exact B.
      + cbn [fs_sampled]. rewrite N.mod_small by lia. lia.
      + cbn [fs_sampled] in S1. destruct (IH fs1 B1) as (fs2 & M2 & B2 & S2 & C2); [lia|]. exists fs2.
        split; [eapply (mk_more fs vs a 0%Z); [exact E1|exact M2]|]. split; [exact B2|]. cbn [length]. split; [lia|].
        intros t a'. rewrite C2, C1. cbn [occurrences fold_right fst snd]. fold (occurrences t a' cs). unfold seen. cbn [fs_types]. lia. }
  destruct (G cs new_field_stats bare_new) as (fs & M & B & S & C); [cbn; lia|]. exists fs. split; [exact M|]. split; [exact S|].
  intros t a n m. rewrite (shown_seen fs t a n m B), C. replace (seen new_field_stats t a) with 0 by (destruct t, a; reflexivity). reflexivity.
Qed.
Print Assumptions C88_counts.

(** The call number 1000 panics if it is given a string, a number or an object; so does
    MarshalJson as soon as any value was seen. *)
Theorem C88_thousandth cs fs (v : jvalue) vs idx a : length cs = 999%nat -> marked new_field_stats cs fs ->
  snd v = TString \/ snd v = TNumber \/ snd v = TObject -> mark fs (v :: vs) idx a = Panic.
Proof.
  intros L M T.
  assert (G : forall cs fs0 fs, marked fs0 cs fs -> bare fs0 -> fs_sampled fs0 + N.of_nat (length cs) < 1000 ->
    bare fs /\ fs_sampled fs = fs_sampled fs0 + N.of_nat (length cs)).
  { clear. induction 1 as [fs|fs vs a idx fs1 cs fs2 E M IH]; intros B L; cbn [length] in *; [split; [exact B|lia]|].
    destruct (mark_values_bare a vs {| fs_sampled := fs_sampled fs + 1; fs_types := fs_types fs |} B) as (fs1' & E1 & B1 & S1 & C1).
    - cbn [fs_sampled]. rewrite N.mod_small by lia. lia.
    - unfold mark in E. rewrite E in E1. injection E1 as <-. cbn [fs_sampled] in S1. destruct (IH B1) as [B2 S2]; [lia|]. split; [exact B2|lia]. }
  destruct (G _ _ _ M bare_new) as [B S]; [cbn; lia|]. unfold mark. cbn [mark_values].
  rewrite (proj2 (mark_value_bare a {| fs_sampled := fs_sampled fs + 1; fs_types := fs_types fs |} v B) T); [reflexivity|].
  cbn [fs_sampled]. rewrite S, L. reflexivity.
Qed.
Print Assumptions C88_thousandth.
Theorem C88_survives_refuted : exists cs fs (v : jvalue), length cs = 999%nat /\ marked new_field_stats cs fs /\ mark fs [v] 0 false = Panic.
Proof.
  pose (cs := repeat ([(b "true", TBoolean)], false) 999). destruct (C88_counts cs) as (fs & M & _); [vm_compute; lia|].
  exists cs, fs, (b "1", TNumber). split; [reflexivity|]. split; [exact M|].
  apply (C88_thousandth cs fs (b "1", TNumber) [] 0 false); [reflexivity|exact M|now right; left].
Qed.
Print Assumptions C88_survives_refuted.
Theorem C88_marshal_refuted : exists fs, mark new_field_stats [(b "1", TNumber)] 0 false = Ok fs /\ marshal_examples fs = Panic.
Proof. eexists. split; reflexivity. Qed.
Print Assumptions C88_marshal_refuted.
Example C88_example : exists fs, marked new_field_stats [([(b "1", TNumber); (b "x", TString)], false); ([(b "2", TNumber)], true)] fs /\
  shown_counts fs = [(b "string", (1, 0)); (b "number", (1, 0)); (b "number (in array)", (1, 0))].
Proof. eexists. split; [repeat (eapply (mk_more _ _ _ 0%Z); [reflexivity|]); constructor|]. reflexivity. Qed.
