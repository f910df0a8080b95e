(** C149: the JSON of the statistics. *)
From Coq Require Import String List.
From Verif Require Import Bytes Utf8 Utf8Proofs Json JsonSpec JsonProofs DecodeSpec Values JsonParser FieldStats Prop_FieldStats Prop_FieldExamples
  Marshal MarshalSpec MarshalProofs Prop_MessageJson Matcher CmdTest FieldJson.
From Coq Require Import ZifyBool ZifyN ZifyNat.
Local Open Scope list_scope.

(** ** What is read off the members *)
Lemma key_utf8 s v : forallb (fun c => c <? 128) (b s) = true -> utf8_tree v -> is_utf8 (b (fst (s, v))) /\ utf8_tree (snd (s, v)).
Proof. intros H V. split; [|exact V]. apply name_utf8, Forall_forall. intros c I. rewrite forallb_forall in H. specialize (H c I). lia. Qed.
Definition utf8_names (l : option (list bytes)) : Prop := match l with Some l => Forall is_utf8 l | None => True end.
Lemma strings_utf8 l : utf8_names l -> utf8_tree (strings_tree l).
Proof. destruct l as [l|]; cbn; [|constructor]. intros U. constructor. rewrite Forall_map. eapply Forall_impl; [|exact U]. intros s Us. now constructor. Qed.
Lemma strings_levels l : (levels (strings_tree l) <= 1)%nat.
Proof. destruct l as [l|]; cbn -[Nat.max]; [|lia]. induction l as [|x l IH]; cbn -[Nat.max] in *; lia. Qed.
Lemma counter_utf8 a n : utf8_tree (counter_tree a n).
Proof. destruct a; repeat constructor. Qed.
Lemma counter_levels a n : (levels (counter_tree a n) <= 1)%nat.
Proof. destruct a; cbn; lia. Qed.
Lemma encountered_utf8 a e : utf8_tree (encountered_tree a e).
Proof.
  unfold encountered_tree. constructor. apply Forall_app. split.
  - repeat constructor; apply key_utf8; try reflexivity; apply counter_utf8.
  - destruct (en_examples e); repeat constructor; apply key_utf8; try reflexivity; repeat constructor.
Qed.
Lemma encountered_levels a e : (levels (encountered_tree a e) <= 2)%nat.
Proof.
  pose proof (counter_levels a (en_seen e)). pose proof (counter_levels a (en_matched e)).
  unfold encountered_tree. destruct (en_examples e); cbn -[Nat.max counter_tree]; lia.
Qed.
Lemma field_utf8 a x fs : utf8_names x -> utf8_tree (field_tree a x fs).
Proof.
  intros U. unfold field_tree. constructor. constructor; [|constructor; [|constructor; [|constructor]]]; apply key_utf8; try reflexivity.
  - now apply strings_utf8.
  - apply counter_utf8.
  - constructor. rewrite Forall_map. apply Forall_forall. intros e _. apply encountered_utf8.
Qed.
Lemma field_levels a x fs : (levels (field_tree a x fs) <= 4)%nat.
Proof.
  pose proof (strings_levels x). pose proof (counter_levels a (fs_sampled fs)). unfold field_tree. cbn -[Nat.max counter_tree strings_tree].
  assert (H1 : (fold_right (fun v n => Nat.max (levels v) n) 0 (map (encountered_tree a) (fs_types fs)) <= 2)%nat); [|lia].
  induction (fs_types fs) as [|e l IH]; cbn -[Nat.max encountered_tree]; [lia|]. pose proof (encountered_levels a e). lia.
Qed.

(** ** The counters *)
Lemma marked_fun fs cs f1 : marked fs cs f1 -> forall f2, marked fs cs f2 -> f1 = f2.
Proof.
  induction 1 as [fs|fs vs a idx fs1 cs fs2 E M IH]; intros f2 M2; [now inversion M2|].
  inversion M2 as [|g vs' a' idx' g1 cs' g2 E2 M2']; subst. change (FieldStats.mark fs vs idx' a) with (FieldStats.mark fs vs idx a) in E2. assert (g1 = fs1) as -> by congruence. now apply IH.
Qed.
Lemma marked_bare cs : forall fs, bare fs -> fs_sampled fs + N.of_nat (length cs) < 1000 -> exists fs', marked fs cs fs' /\ bare fs' /\
    fs_sampled fs' = fs_sampled fs + N.of_nat (length cs) /\ forall t a, seen fs' t a = seen fs t a + N.of_nat (occurrences t a cs).
Proof.
  induction cs as [|[vs a] cs IH]; intros fs B L; cbn [length] in L.
  - exists fs. split; [constructor|]. split; [exact B|]. split; [cbn; lia|]. intros. cbn. lia.
  - destruct (mark_values_bare a vs {| fs_sampled := fs_sampled fs + 1; fs_types := fs_types fs |}) as (fs1 & E1 & B1 & S1 & C1).
    + exact B.
    + cbn [fs_sampled]. rewrite N.mod_small by lia. lia.
    + cbn [fs_sampled] in S1. destruct (IH fs1 B1) as (fs2 & M2 & B2 & S2 & C2); [lia|]. exists fs2.
      split; [eapply (mk_more fs vs a 0%Z); [exact E1|exact M2]|]. split; [exact B2|]. cbn [length]. split; [lia|].
      intros t a'. rewrite C2, C1. cbn [occurrences fold_right fst snd]. fold (occurrences t a' cs). unfold seen. cbn [fs_types]. lia.
Qed.

(** The order of the twelve entries. *)
Definition order : list (vtype * bool) :=
  [(TString, false); (TString, true); (TNumber, false); (TNumber, true); (TObject, false); (TObject, true);
   (TBoolean, false); (TBoolean, true); (TArray, false); (TArray, true); (JsonParser.TNull, false); (JsonParser.TNull, true)].
Lemma by_order (fs : field_stats) : length (fs_types fs) = 12%nat ->
  map (fun p => nth_error (fs_types fs) (which (fst p) (snd p))) order = map Some (fs_types fs).
Proof. destruct (fs_types fs) as [|e0 [|e1 [|e2 [|e3 [|e4 [|e5 [|e6 [|e7 [|e8 [|e9 [|e10 [|e11 [|e12 l]]]]]]]]]]]]]; try discriminate. reflexivity. Qed.
Definition entry (n : nat) : jtree := TObj [("times_seen", TInt (Z.of_nat n)); ("times_matched", TInt 0)]%string.

(** The JSON of statistics reached through their pointer, as NewFieldStats returns it, is a document with the exact
    number of calls and the exact number of values of each type, these in a fixed order and without the name of the
    type; no value is ever counted as matched. *)
Theorem C149_counts x cs fs : utf8_names x -> (length cs < 1000)%nat -> marked new_field_stats cs fs ->
  exists j, document (marshal (field_tree true x fs)) j /\
    shows (TObj [("expecting", match x with Some l => TList (map TStr l) | None => TNull end); ("times_sampled", TInt (Z.of_nat (length cs)));
                 ("types_encountered", TList (map (fun p => entry (occurrences (fst p) (snd p) cs)) order))]%string) j.
Proof.
  intros U L M. exists (json_of (field_tree true x fs)). split; [apply marshal_doc; pose proof (field_levels true x fs); lia|].
  destruct (marked_bare cs new_field_stats bare_new) as (fs' & M' & [Len B] & Sn & C); [cbn; lia|]. rewrite (marked_fun _ _ _ M _ M') in *. clear M M'.
  match goal with |- shows ?t _ => replace t with (field_tree true x fs') end; [now apply json_of_shows, field_utf8|].
  unfold field_tree. cbn [counter_tree]. rewrite Sn. cbn [fs_sampled new_field_stats].
  replace (Z.of_N (0 + N.of_nat (length cs))) with (Z.of_nat (length cs)) by lia.
  replace (map (encountered_tree true) (fs_types fs')) with (map (fun p => entry (occurrences (fst p) (snd p) cs)) order); [reflexivity|].
  pose proof (by_order fs' Len) as O. apply (f_equal (map (fun o => match o with Some e => encountered_tree true e | None => TNull end))) in O.
  rewrite !map_map in O. change (map (encountered_tree true) (fs_types fs')) with (map (fun e => encountered_tree true e) (fs_types fs')). etransitivity; [|exact O]. apply map_ext_in. intros [t a] I. cbn [fst snd]. specialize (C t a).
  replace (seen new_field_stats t a) with 0 in C by (destruct t, a; reflexivity). unfold seen in C.
  destruct (nth_error (fs_types fs') (which t a)) as [e|] eqn:E.
  - rewrite Forall_forall in B. destruct (B e (nth_error_In _ _ E)) as [B1 B2]. unfold encountered_tree, entry. rewrite B1, B2, C. cbn [counter_tree app]. do 5 f_equal. lia.
  - apply nth_error_None in E. pose proof (which_lt t a). lia.
Qed.
Print Assumptions C149_counts.

Lemma counters_one e e' : encountered_tree true e = encountered_tree true e' -> (en_seen e, en_matched e) = (en_seen e', en_matched e').
Proof.
  unfold encountered_tree. cbn [counter_tree]. intros E. injection E as E1 E2 _. assert (en_seen e = en_seen e') by lia. assert (en_matched e = en_matched e') by lia. congruence.
Qed.
(** It tells all counters apart, *)
Theorem C149_injective x fs x' fs' : utf8_names x -> utf8_names x' -> marshal (field_tree true x fs) = marshal (field_tree true x' fs') ->
  x = x' /\ fs_sampled fs = fs_sampled fs' /\ map (fun e => (en_seen e, en_matched e)) (fs_types fs) = map (fun e => (en_seen e, en_matched e)) (fs_types fs').
Proof.
  intros U U' E. apply marshal_one in E; try (now apply field_utf8); try (pose proof (field_levels true x fs); pose proof (field_levels true x' fs'); lia).
  unfold field_tree in E. cbn [counter_tree] in E. injection E as E1 E2 E3. split; [|split; [lia|]].
  - destruct x as [l|], x' as [l'|]; try discriminate; [|reflexivity]. f_equal. cbn in E1. injection E1 as E1. clear -E1. revert l' E1.
    induction l as [|s l IH]; intros [|s' l'] E; try discriminate; [reflexivity|]. cbn in E. injection E as -> E. f_equal. now apply IH.
  - revert E3. generalize (fs_types fs'). induction (fs_types fs) as [|e l IH]; intros [|e' l'] E; try discriminate; [reflexivity|].
    cbn [map] in *. injection E as E1' E. f_equal; [|now apply IH]. apply counters_one. unfold encountered_tree. cbn [counter_tree]. congruence.
Qed.
Print Assumptions C149_injective.

(** but no example, not even when there are some, *)
Theorem C149_examples_refuted : exists cs cs' fs fs' el el', marked with_lists cs fs /\ marked with_lists cs' fs' /\
  list_at fs TNumber false = Some el /\ list_at fs' TNumber false = Some el' /\ get_examples el <> get_examples el' /\ length (get_examples el) = 10%nat /\
  forall a x, marshal (field_tree a x fs) = marshal (field_tree a x fs').
Proof.
  pose (first := repeat ([] : list jvalue, false) 999). pose (cs d := first ++ [(repeat ([d], TNumber) 10, false)]).
  assert (G : forall d, exists fs, marked with_lists (cs d) fs /\
    fs = {| fs_sampled := 1000; fs_types := set_nth 2 {| en_seen := 10; en_matched := 0; en_examples := Some {| el_examples := repeat [d] 10; el_idx := 0 |} |} (fs_types with_lists) |}).
  { intros d. eexists. split; [|reflexivity]. unfold cs.
    assert (A : forall n fs c fs', marked {| fs_sampled := fs_sampled fs + N.of_nat n; fs_types := fs_types fs |} c fs' -> marked fs (repeat ([] : list jvalue, false) n ++ c) fs').
    { induction n as [|n IH]; intros fs c fs' M; cbn [repeat app].
      - replace (fs_sampled fs + N.of_nat 0) with (fs_sampled fs) in M by lia. destruct fs; exact M.
      - eapply (mk_more _ _ _ 0%Z); [reflexivity|]. apply IH. cbn [fs_sampled fs_types]. replace (fs_sampled fs + 1 + N.of_nat n) with (fs_sampled fs + N.of_nat (S n)) by lia. exact M. }
    unfold first. apply A. eapply (mk_more _ _ _ 0%Z); [|constructor]. cbn [fs_sampled with_lists]. change (0 + N.of_nat 999) with 999. reflexivity. }
  destruct (G 49) as (fs & M & E), (G 50) as (fs' & M' & E').
  exists (cs 49), (cs 50), fs, fs'. rewrite E in *. rewrite E' in *. do 2 eexists. split; [exact M|]. split; [exact M'|]. split; [reflexivity|]. split; [reflexivity|].
  split; [vm_compute; discriminate|]. split; [reflexivity|]. intros a x. reflexivity.
Qed.
Print Assumptions C149_examples_refuted.
(** and of a copy of the statistics no counter either. *)
Theorem C149_copy x fs fs' : Forall2 (fun e e' => en_examples e = None <-> en_examples e' = None) (fs_types fs) (fs_types fs') ->
  marshal (field_tree false x fs) = marshal (field_tree false x fs').
Proof.
  intros F. unfold field_tree. cbn [counter_tree]. replace (map (encountered_tree false) (fs_types fs')) with (map (encountered_tree false) (fs_types fs)); [reflexivity|].
  induction F as [|e e' l l' H F IH]; [reflexivity|]. cbn [map]. f_equal; [|exact IH]. unfold encountered_tree. cbn [counter_tree].
  destruct (en_examples e), (en_examples e'); try reflexivity; exfalso; [destruct H as [_ H]; specialize (H eq_refl)|destruct H as [H _]; specialize (H eq_refl)]; discriminate.
Qed.
Print Assumptions C149_copy.

(** ** MarshalJson *)
Lemma put_sorted_in m l y : In y (put_sorted m l) <-> y = m \/ In y l.
Proof. induction l as [|x l IH]; cbn [put_sorted]; [cbn; intuition|]. destruct (String.leb _ _); cbn [In]; [intuition|]. rewrite IH. intuition. Qed.
Lemma map_tree_in l y : In y (fold_right put_sorted [] l) <-> In y l.
Proof. induction l as [|x l IH]; [reflexivity|]. cbn [fold_right In]. rewrite put_sorted_in, IH. intuition. Qed.

(** The text MarshalJson returns is never that of json.Marshal: the method is not the one encoding/json calls. *)
Theorem C149_method a x fs t : marshal_json x fs = Ok t -> marshal (field_tree a x fs) <> marshal t.
Proof.
  unfold marshal_json. destruct (encountered_map _) as [l|] eqn:E; cbn [bind]; [|discriminate]. intros [= <-]. destruct l as [|y l].
  - unfold map_tree, field_tree. cbn [app fold_right put_sorted]. change (String.leb (fst ("expecting"%string, strings_tree x)) (fst ("times_seen"%string, TInt (Z.of_N (fs_sampled fs))))) with true. cbn [marshal map Ast.join snd].
    cbn [fst]. intros H. apply app_inv_head in H. apply app_inv_tail in H. rewrite <- !app_assoc in H. apply app_inv_head in H. apply app_inv_head in H. apply app_inv_head in H. discriminate H.
  - unfold map_tree at 1, field_tree. cbn [app fold_right put_sorted].
    generalize (map_tree (y :: l)) as m. intros m. cbn [put_sorted fst].
    change (String.leb "times_seen" "encountered") with false. cbn iota. cbn [put_sorted fst]. change (String.leb "expecting" "encountered") with false. cbn iota. cbn [put_sorted fst].
    change (String.leb "expecting" "times_seen") with true. cbn iota. cbn [marshal map Ast.join fst]. discriminate.
Qed.
Print Assumptions C149_method.
Theorem C149_method_refuted : exists x cs fs t, marked with_lists cs fs /\ marshal_json x fs = Ok t /\ marshal (field_tree true x fs) <> marshal t.
Proof.
  exists None, []. do 2 eexists. split; [constructor|]. split; [reflexivity|]. apply (C149_method true None with_lists). reflexivity.
Qed.
Print Assumptions C149_method_refuted.

(** If the example lists were there, as NewFieldStats means to make them, MarshalJson would return, whatever the calls of
    mark, the number of calls and, under the name of each type met, the number of its values and the examples kept. *)
Definition type_name (t : vtype) (a : bool) : string :=
  (match t with TString => "string" | TNumber => "number" | TObject => "object" | TArray => "array" | TBoolean => "boolean" | JsonParser.TNull => "null" end
   ++ if a then " (in array)" else "")%string.
Lemma type_name_at t a : nth_error encountered_key (which t a) = Some (type_name t a).
Proof. destruct t, a; reflexivity. Qed.
Lemma type_name_only t a i : nth_error encountered_key i = Some (type_name t a) -> i = which t a.
Proof.
  intros E. assert (L : (i < length encountered_key)%nat) by (apply nth_error_Some; congruence). change (length encountered_key) with 12%nat in L.
  destruct i as [|[|[|[|[|[|[|[|[|[|[|[|i]]]]]]]]]]]]; [..|lia]; destruct t, a; first [reflexivity|discriminate E].
Qed.
Definition seen_tree (n : N) (m : N) (el : example_list) : jtree :=
  TObj [("examples", TList (map TStr (get_examples el))); ("times_matched", TInt (Z.of_N m)); ("times_seen", TInt (Z.of_N n))]%string.
Lemma encountered_map_in l : Forall (fun p => en_examples (snd p) <> None) l -> exists r, encountered_map l = Ok r /\
  forall name v, In (name, v) r <-> exists e el, In (name, e) l /\ en_seen e <> 0 /\ en_examples e = Some el /\ v = seen_tree (en_seen e) (en_matched e) el.
Proof.
  induction 1 as [|[name e] l H F (r & E & I)]; [exists []; split; [reflexivity|]; intros name v; split; [intros []|intros (e & el & [] & _)]|].
  cbn [encountered_map snd] in *. destruct (N.eqb_spec (en_seen e) 0) as [Z0|Nz].
  - exists r. split; [exact E|]. intros n v. rewrite I. split; intros (e' & el & In' & R); exists e', el.
    + split; [now right|exact R].
    + destruct In' as [[= <- <-]|In']; [destruct R; congruence|]. split; [exact In'|exact R].
  - destruct (en_examples e) as [el|] eqn:Ex; [|congruence]. rewrite E. cbn [bind]. eexists. split; [reflexivity|]. intros n v. cbn [In]. rewrite I. split.
    + intros [[= <- <-]|(e' & el' & In' & R)]; [|exists e', el'; split; [now right|exact R]]. exists e, el. split; [now left|]. repeat (split; [assumption|]). reflexivity.
    + intros (e' & el' & [[= <- <-]|In'] & N' & Ex' & ->); [|right; exists e', el'; auto]. left. rewrite Ex in Ex'. injection Ex' as <-. reflexivity.
Qed.
Theorem C149_report x cs : exists fs ms, marked with_lists cs fs /\ marshal_json x fs = Ok (TObj ms) /\
  In ("expecting"%string, match x with Some l => TList (map TStr l) | None => TNull end) ms /\ In ("times_seen"%string, TInt (Z.of_nat (length cs))) ms /\
  forall t a v, (exists l, In ("encountered"%string, TObj l) ms /\ In (type_name t a, v) l) <->
    occurrences t a cs <> 0%nat /\ exists el, list_at fs t a = Some el /\ v = seen_tree (N.of_nat (occurrences t a cs)) 0 el.
Proof.
  destruct (marked_full cs with_lists 0 full_new eq_refl) as (fs & M & [Len B] & Sn & C & _). exists fs. unfold marshal_json.
  destruct (encountered_map_in (combine encountered_key (fs_types fs))) as (r & E & I).
  { apply Forall_forall. intros [n e] Ie. apply in_combine_r in Ie. rewrite Forall_forall in B. exact (proj1 (B e Ie)). }
  rewrite E. cbn [bind]. unfold map_tree at 1. eexists. split; [exact M|]. split; [reflexivity|].
  split; [apply map_tree_in, in_or_app; left; now left|]. split; [apply map_tree_in, in_or_app; left; right; left; rewrite Sn; do 2 f_equal; lia|].
  assert (One : forall t a v, In (type_name t a, v) r <-> occurrences t a cs <> 0%nat /\ exists el, list_at fs t a = Some el /\ v = seen_tree (N.of_nat (occurrences t a cs)) 0 el).
  { intros t a v. rewrite I. specialize (C t a). replace (seen with_lists t a) with 0 in C by (destruct t, a; reflexivity). unfold seen in C. unfold list_at. split.
    - intros (e & el & Ie & Nz & Ex & ->). apply in_combine_nth in Ie as (i & I1 & I2). apply type_name_only in I1 as ->. rewrite I2 in C |- *. split; [lia|].
      exists el. split; [exact Ex|]. f_equal; [lia|]. rewrite Forall_forall in B. exact (proj2 (B e (nth_error_In _ _ I2))).
    - intros (Nz & el & L & ->). destruct (nth_error (fs_types fs) (which t a)) as [e|] eqn:I2; [|discriminate]. exists e, el.
      split; [apply in_combine_nth; exists (which t a); split; [apply type_name_at|exact I2]|]. split; [lia|]. split; [exact L|]. f_equal; [lia|].
      symmetry. rewrite Forall_forall in B. exact (proj2 (B e (nth_error_In _ _ I2))). }
  intros t a v. rewrite <- One. split.
  - intros (l & Il & Iv). apply (proj1 (map_tree_in _ _)) in Il. apply in_app_or in Il as [[H|[H|[]]]|Il]; [discriminate H|discriminate H|].
    destruct r as [|y r]; [destruct Il|]. destruct Il as [[= <-]|[]]. exact (proj1 (map_tree_in (y :: r) _) Iv).
  - intros Iv. destruct r as [|y r]; [destruct Iv|]. eexists. split; [apply map_tree_in, in_or_app; right; now left|]. now apply map_tree_in.
Qed.
Print Assumptions C149_report.

(** ** The statistics of a matcher *)
Fixpoint height (s : match_stats) : nat := match s with MatchStats _ _ _ l => S (fold_right (fun c n => Nat.max (height c) n) 0%nat l) end.
Inductive utf8_stats : match_stats -> Prop :=
| us_node name c m l : is_utf8 name -> Forall utf8_stats l -> utf8_stats (MatchStats name c m l).
Lemma stats_ind' (P : match_stats -> Prop) : (forall n c m l, Forall P l -> P (MatchStats n c m l)) -> forall s, P s.
Proof. intros H. fix IH 1. intros [n c m l]. apply H. induction l as [|x l IHl]; constructor; [apply IH|exact IHl]. Qed.
Lemma stats_levels s : (levels (tree_of_stats s) <= 2 * height s)%nat.
Proof.
  induction s as [n c m l IH] using stats_ind'. destruct l as [|x l]; [cbn; lia|]. set (k := x :: l) in *.
  assert (H : (fold_right (fun v n => Nat.max (levels v) n) 0 (map tree_of_stats k) <= 2 * fold_right (fun c n => Nat.max (height c) n) 0 k)%nat).
  { induction IH as [|y l' Hy F IHF]; cbn -[Nat.max Nat.mul]; [lia|]. lia. }
  cbn [height]. unfold tree_of_stats. fold tree_of_stats. unfold k at 1. fold k. cbn [app levels fold_right snd]. lia.
Qed.
Lemma stats_utf8 s : utf8_stats s -> utf8_tree (tree_of_stats s).
Proof.
  induction s as [n c m l IH] using stats_ind'. intros U. inversion U as [n' c' m' l' Un Ul]; subst. cbn [tree_of_stats]. constructor. apply Forall_app. split.
  - constructor; [|constructor; [|constructor; [|constructor]]]; apply key_utf8; try reflexivity; constructor. exact Un.
  - destruct l as [|x l]; constructor; [|constructor]. apply key_utf8; [reflexivity|]. constructor. rewrite Forall_map.
    rewrite Forall_forall in *. auto.
Qed.
Lemma stats_tree_inj s : forall s', tree_of_stats s = tree_of_stats s' -> s = s'.
Proof.
  induction s as [n c m l IH] using stats_ind'. intros [n' c' m' l'] E. cbn [tree_of_stats] in E. injection E as -> -> -> E. f_equal.
  assert (E' : map tree_of_stats l = map tree_of_stats l') by (destruct l, l'; try discriminate E; [reflexivity|]; injection E as E E'; cbn [map]; congruence). clear E.
  revert l' E'. induction IH as [|x l Hx F IHF]; intros [|x' l'] E; try discriminate E; [reflexivity|]. cbn in E. injection E as E1 E2. f_equal; auto.
Qed.
(** The JSON of a MatchStats, whatever its children, tells everything in it. *)
Theorem C149_match_stats s s' : utf8_stats s -> utf8_stats s' -> (height s <= 5000)%nat -> (height s' <= 5000)%nat ->
  (exists j, document (marshal (tree_of_stats s)) j) /\ (marshal (tree_of_stats s) = marshal (tree_of_stats s') -> s = s').
Proof.
  intros U U' H H'. pose proof (stats_levels s). pose proof (stats_levels s'). split; [exists (json_of (tree_of_stats s)); apply marshal_doc; lia|].
  intros E. apply stats_tree_inj, marshal_one; try (now apply stats_utf8); try lia. exact E.
Qed.
Print Assumptions C149_match_stats.

Example C149_example : exists fs, marked new_field_stats [([(b "1", TNumber); (b "x", TString)], false); ([(b "2", TNumber)], true)] fs /\
  marshal (field_tree true (Some [b "<exists>"]) fs) = b ("{""expecting"":[""\u003cexists\u003e""],""times_sampled"":2,""types_encountered"":[" ++
    "{""times_seen"":1,""times_matched"":0},{""times_seen"":0,""times_matched"":0},{""times_seen"":1,""times_matched"":0},{""times_seen"":1,""times_matched"":0}," ++
    "{""times_seen"":0,""times_matched"":0},{""times_seen"":0,""times_matched"":0},{""times_seen"":0,""times_matched"":0},{""times_seen"":0,""times_matched"":0}," ++
    "{""times_seen"":0,""times_matched"":0},{""times_seen"":0,""times_matched"":0},{""times_seen"":0,""times_matched"":0},{""times_seen"":0,""times_matched"":0}]}")%string /\
  utf8_names (Some [b "<exists>"]) /\ marshal_json (Some [b "<exists>"]) fs = Panic.
Proof.
  eexists. split; [repeat (eapply (mk_more _ _ _ 0%Z); [reflexivity|]); constructor|]. split; [vm_compute; reflexivity|].
  split; [|reflexivity]. change (Forall is_utf8 [b "<exists>"%string]). constructor; [|constructor]. apply name_utf8. repeat constructor.
Qed.
Example C149_copy_example : exists fs, marked new_field_stats [([(b "1", TNumber)], false)] fs /\ fs <> new_field_stats /\
  Forall2 (fun e e' => en_examples e = None <-> en_examples e' = None) (fs_types fs) (fs_types new_field_stats) /\
  exists rest, marshal (field_tree false None fs) = b "{""expecting"":null,""times_sampled"":{},""types_encountered"":[{""times_seen"":{},""times_matched"":{}}," ++ rest.
Proof.
  eexists. split; [eapply (mk_more _ _ _ 0%Z); [reflexivity|constructor]|]. split; [discriminate|]. split; [repeat constructor|].
  eexists. vm_compute. reflexivity.
Qed.
Example C149_report_example : exists fs t, marked with_lists [([(b "true", TBoolean); (b "x", TString)], false); ([(b "2", TNumber)], true)] fs /\ marshal_json None fs = Ok t /\
  marshal t = b ("{""encountered"":{""boolean"":{""examples"":[],""times_matched"":0,""times_seen"":1},""number (in array)"":{""examples"":[],""times_matched"":0,""times_seen"":1}," ++
    """string"":{""examples"":[],""times_matched"":0,""times_seen"":1}},""expecting"":null,""times_seen"":2}")%string.
Proof. do 2 eexists. split; [repeat (eapply (mk_more _ _ _ 0%Z); [reflexivity|]); constructor|]. split; [reflexivity|vm_compute; reflexivity]. Qed.
Example C149_match_example : let s := MatchStats (b "AND") 2 1 [MatchStats (b "a:1") 2 1 []; MatchStats (b "b:2") 1 1 []] in utf8_stats s /\ (height s <= 5000)%nat /\
  marshal (tree_of_stats s) = b ("{""node_name"":""AND"",""times_checked"":2,""times_matched"":1,""children"":[{""node_name"":""a:1"",""times_checked"":2,""times_matched"":1}," ++
    "{""node_name"":""b:2"",""times_checked"":1,""times_matched"":1}]}")%string.
Proof.
  cbv zeta. split; [|split; [cbn; lia|vm_compute; reflexivity]].
  constructor; [apply name_utf8; repeat constructor|]. repeat constructor; apply name_utf8; repeat constructor.
Qed.
