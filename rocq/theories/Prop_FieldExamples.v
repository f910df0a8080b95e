(** C139, C140: the examples recorded among the statistics about a field, jsonmatcher/field_stats.go,
    when the example lists are there. *)
From Verif Require Import Bytes GoStrconv Json JsonSpec JsonProofs Values JsonParser JsonParserProofs DecodeSpec Prop_Decode
  FieldStats Prop_FieldStats.
From Coq Require Import ZifyBool ZifyN ZifyNat Permutation.

(** ** What the example of a value should be *)

Fixpoint list_of_names (names : list bytes) : bytes :=
  match names with
  | [] => []
  | n :: names' => b """" ++ n ++ b """" ++ match names' with [] => [] | _ => b "," ++ list_of_names names' end
  end.

(** A string: its text, if it does not end with half a surrogate pair; a number: as it is written; an object: the first eleven of its names (see
    C140).  The names of the object have no backslash once decoded (see C140). *)
Inductive example : jvalue -> bytes -> Prop :=
| ex_empty raw : decodes raw [] -> example (raw, TString) (b "empty string")
| ex_string raw t : decodes raw t -> t <> [] -> example (raw, TString) t
| ex_half raw t h1 h2 h3 h4 hi : decodes raw t -> four h1 h2 h3 h4 hi -> 55296 <= hi < 57344 ->
    example (raw ++ [92; 117; h1; h2; h3; h4], TString) (b "invalid string")
| ex_number raw : raw <> [] -> example (raw, TNumber) raw
| ex_object s ms names : value_text s (JObj ms) -> Forall2 (fun m n => decodes (fst m) n) ms names ->
    Forall (fun n => ~ In 92 n) names ->
    example (s, TObject) (b "<object with keys: " ++ list_of_names (firstn 11 names) ++ b ">").

Lemma decoded_names ms names : Forall2 (fun m n => decodes (fst m) n) ms names -> map fst (fst (decoded ms)) = names.
Proof.
  induction 1 as [|[k v] n ms names D F IH]; [reflexivity|]. cbn [fst] in D. cbn [decoded]. rewrite (C77_decoding k n D).
  destruct (decoded ms) as [l ok]. cbn [fst map] in *. now rewrite IH.
Qed.
Lemma shown_names l ms : Forall2 shows_member l ms -> map fst l = map fst ms.
Proof. induction 1 as [|x m l ms [E _] F IH]; cbn; [reflexivity|]. now rewrite E, IH. Qed.
Lemma key_shown_plain n : ~ In 92 n -> key_shown n = b """" ++ n ++ b """".
Proof.
  intros H. unfold key_shown. rewrite unescape_plain; [reflexivity|]. unfold has_byte. apply not_true_is_false. intros E.
  apply existsb_exists in E as (c & I & E). apply N.eqb_eq in E as <-. contradiction.
Qed.
Lemma commas_names names : Forall (fun n => ~ In 92 n) names -> commas (map key_shown names) = list_of_names names.
Proof.
  induction 1 as [|n names H F IH]; [reflexivity|]. cbn [map list_of_names]. rewrite (key_shown_plain n H). destruct names as [|m names].
  - cbn [map commas]. now rewrite app_nil_r.
  - rewrite <- IH. cbn [map commas]. now rewrite <- !app_assoc.
Qed.
Lemma Forall_firstn {A} (P : A -> Prop) n : forall l, Forall P l -> Forall P (firstn n l).
Proof. induction n as [|n IH]; intros l F; [constructor|]. destruct F; cbn; constructor; auto. Qed.
Lemma example_of_object s ms names : value_text s (JObj ms) -> Forall2 (fun m n => decodes (fst m) n) ms names ->
  example_of (s, TObject) = b "<object with keys: " ++ commas (map key_shown (firstn 11 names)) ++ b ">".
Proof.
  intros V D. destruct (object_each_value [] s ms [] (Forall_nil _) V) as (l & E & F). rewrite app_nil_r in E. cbn [app] in E.
  unfold example_of. cbn [fst snd]. rewrite E. cbn [fst]. unfold field_map_max_keys.
  apply shown_names in F. rewrite (decoded_names ms names D) in F. now rewrite <- F, firstn_map, map_map.
Qed.

Lemma unescape_after raw t : decodes raw t -> forall x, unescape x = None -> unescape (raw ++ x) = None.
Proof.
  induction 1 as [|c r t L Q B _ IH|e c r t I _ IH|h1 h2 h3 h4 c u r t F Ns U _ IH|h1 h2 h3 h4 g1 g2 g3 g4 hi lo u r t F G Hi Lo U _ IH]; intros x H; cbn [app].
  - exact H.
  - cbn [unescape]. replace (c =? 92) with false by lia. now rewrite IH.
  - cbn [unescape]. change (92 =? 92) with true. cbv iota. cbn in I.
    destruct I as [E|[E|[E|[E|[E|[E|[E|[E|[]]]]]]]]]; injection E as <- <-; cbn -[unescape]; now rewrite IH.
  - cbn [unescape]. change (92 =? 92) with true. change (117 =? 117) with true. change (esc_byte 117) with (@None N). cbv iota.
    rewrite (four_val _ _ _ _ _ F). replace (is_utf16 c) with false by (unfold is_utf16; lia). cbn [negb]. now rewrite IH.
  - cbn [unescape]. change (92 =? 92) with true. change (117 =? 117) with true. change (esc_byte 117) with (@None N). cbv iota.
    rewrite (four_val _ _ _ _ _ F), (four_val _ _ _ _ _ G). replace (is_utf16 hi) with true by (unfold is_utf16; lia). cbn [negb].
    replace (lo <? 56320) with false by lia. now rewrite IH.
Qed.
Lemma unescape_half h1 h2 h3 h4 hi : four h1 h2 h3 h4 hi -> 55296 <= hi < 57344 -> unescape [92; 117; h1; h2; h3; h4] = None.
Proof.
  intros F H. cbn [unescape]. change (92 =? 92) with true. change (117 =? 117) with true. change (esc_byte 117) with (@None N). cbv iota.
  rewrite (four_val _ _ _ _ _ F). now replace (is_utf16 hi) with true by (unfold is_utf16; lia).
Qed.
Lemma example_of_value v x : example v x -> example_of v = x.
Proof.
  intros [raw D|raw t D Ne|raw t h1 h2 h3 h4 hi D Hf Hi|raw Ne|s ms names V D F].
  - unfold example_of. cbn [fst snd]. now rewrite (C77_decoding raw [] D).
  - unfold example_of. cbn [fst snd]. rewrite (C77_decoding raw t D). destruct t; [congruence|reflexivity].
  - unfold example_of. cbn [fst snd]. now rewrite (unescape_after raw t D _ (unescape_half _ _ _ _ _ Hf Hi)).
  - reflexivity.
  - rewrite (example_of_object s ms names V D), commas_names; [reflexivity|]. now apply Forall_firstn.
Qed.
Lemma example_nonempty v x : example v x -> x <> [].
Proof. intros [raw D|raw t D Ne|raw t h1 h2 h3 h4 hi D Hf Hi|raw Ne|s ms names V D F]; try assumption; discriminate. Qed.

(** ** C139 *)

(** Statistics whose example lists are there, all empty, as NewFieldStats (67-77) means to make. *)
Definition with_lists : field_stats :=
  {| fs_sampled := 0; fs_types := repeat {| en_seen := 0; en_matched := 0; en_examples := Some empty_examples |} 12 |}.

(** The values of one type, in an array or not, of one call. *)
Definition of_type (t : vtype) (a : bool) (c : list jvalue * bool) : list jvalue :=
  if Bool.eqb (snd c) a then filter (fun v => if vtype_dec (snd v) t then true else false) (fst c) else [].
(** The calls whose number, counted from [n + 1], is a multiple of 1000. *)
Fixpoint thousandths (n : nat) (cs : list (list jvalue * bool)) : list (list jvalue * bool) :=
  match cs with
  | [] => []
  | c :: cs' => (if Nat.eqb (S n mod 1000) 0 then [c] else []) ++ thousandths (S n) cs'
  end.
Definition list_at (fs : field_stats) (t : vtype) (a : bool) : option example_list :=
  match nth_error (fs_types fs) (which t a) with Some e => en_examples e | None => None end.
Definition has_example (t : vtype) : Prop := t = TString \/ t = TNumber \/ t = TObject.
Definition full (fs : field_stats) : Prop :=
  length (fs_types fs) = 12%nat /\ Forall (fun e => en_examples e <> None /\ en_matched e = 0) (fs_types fs).

Lemma add_all_app xs ys el : add_all (xs ++ ys) el = add_all ys (add_all xs el).
Proof. apply fold_left_app. Qed.

(** What one value does. *)
Definition sampled_now (fs : field_stats) (v : jvalue) : bool := (which (snd v) false <? 6)%nat && (fs_sampled fs mod 1000 =? 0).
Lemma mark_value_full a fs (v : jvalue) : full fs -> exists fs', mark_value a fs v = Ok fs' /\ full fs' /\ fs_sampled fs' = fs_sampled fs /\
  (forall t a', seen fs' t a' = seen fs t a' + if vtype_dec (snd v) t then if Bool.eqb a a' then 1 else 0 else 0) /\
  (forall t a', list_at fs' t a' = if vtype_dec (snd v) t then if Bool.eqb a a' then if sampled_now fs v then option_map (add_example (example_of v)) (list_at fs t a')
     else list_at fs t a' else list_at fs t a' else list_at fs t a').
Proof.
  intros [L F]. unfold mark_value, field_mark_window, sampled_now. pose proof (which_lt (snd v) a) as Hw.
  replace (which (snd v) a <? 6)%nat with (which (snd v) false <? 6)%nat by (destruct (snd v), a; reflexivity).
  destruct (nth_error (fs_types fs) (which (snd v) a)) as [e|] eqn:E; [|apply nth_error_None in E; lia].
  assert (He : en_examples e <> None /\ en_matched e = 0) by (apply nth_error_In in E; rewrite Forall_forall in F; auto).
  destruct He as [He Hm]. destruct (en_examples e) as [el|] eqn:Ee; [|congruence]. cbn [en_examples en_seen en_matched].
  assert (G : forall e', en_examples e' <> None -> en_matched e' = 0 -> en_seen e' = en_seen e + 1 ->
    full {| fs_sampled := fs_sampled fs; fs_types := set_nth (which (snd v) a) e' (fs_types fs) |} /\
    (forall t a', seen {| fs_sampled := fs_sampled fs; fs_types := set_nth (which (snd v) a) e' (fs_types fs) |} t a' =
       seen fs t a' + if vtype_dec (snd v) t then if Bool.eqb a a' then 1 else 0 else 0) /\
    (forall t a', list_at {| fs_sampled := fs_sampled fs; fs_types := set_nth (which (snd v) a) e' (fs_types fs) |} t a' =
       if vtype_dec (snd v) t then if Bool.eqb a a' then en_examples e' else list_at fs t a' else list_at fs t a')).
  { intros e' H1 H2 H3. split; [|split].
    - split; [cbn; now rewrite set_nth_length|]. apply Forall_set; [now split|exact F].
    - intros t a'. unfold seen. cbn [fs_types]. rewrite nth_error_set by lia.
      destruct (Nat.eqb_spec (which t a') (which (snd v) a)) as [W|W].
      + apply which_inj in W as [-> ->]. destruct (vtype_dec (snd v) (snd v)); [|congruence]. rewrite E. destruct a; cbn; lia.
      + destruct (vtype_dec (snd v) t) as [Et|]; [subst t|lia]. destruct (Bool.eqb a a') eqn:Ea; [|lia]. apply Bool.eqb_prop in Ea as ->. now destruct W.
    - intros t a'. unfold list_at. cbn [fs_types]. rewrite nth_error_set by lia.
      destruct (Nat.eqb_spec (which t a') (which (snd v) a)) as [W|W].
      + apply which_inj in W as [-> ->]. destruct (vtype_dec (snd v) (snd v)); [|congruence]. destruct a; reflexivity.
      + destruct (vtype_dec (snd v) t) as [Et|]; [subst t|reflexivity]. destruct (Bool.eqb a a') eqn:Ea; [|reflexivity]. apply Bool.eqb_prop in Ea as ->. now destruct W. }
  assert (At : forall t a', snd v = t -> Bool.eqb a a' = true -> list_at fs t a' = Some el).
  { intros t a' <- Ea. apply Bool.eqb_prop in Ea as <-. unfold list_at. now rewrite E. }
  destruct ((which (snd v) false <? 6)%nat && (fs_sampled fs mod 1000 =? 0)) eqn:Now.
  - eexists. split; [reflexivity|].
    destruct (G {| en_seen := en_seen e + 1; en_matched := en_matched e; en_examples := Some (add_example (example_of v) el) |}) as (G1 & G2 & G3); try assumption; try reflexivity; try discriminate.
    split; [exact G1|]. split; [reflexivity|]. split; [exact G2|]. intros t a'. rewrite G3. destruct (vtype_dec (snd v) t) as [Et|]; [|reflexivity].
    destruct (Bool.eqb a a') eqn:Ea; [|reflexivity]. now rewrite (At t a' Et Ea).
  - eexists. split; [reflexivity|].
    destruct (G {| en_seen := en_seen e + 1; en_matched := en_matched e; en_examples := Some el |}) as (G1 & G2 & G3); try assumption; try reflexivity; try discriminate.
    split; [exact G1|]. split; [reflexivity|]. split; [exact G2|]. intros t a'. rewrite G3. destruct (vtype_dec (snd v) t) as [Et|]; [|reflexivity].
    destruct (Bool.eqb a a') eqn:Ea; [|reflexivity]. now rewrite (At t a' Et Ea).
Qed.

Lemma mark_values_full a vs : forall fs, full fs -> exists fs', mark_values a fs vs = Ok fs' /\ full fs' /\ fs_sampled fs' = fs_sampled fs /\
  (forall t a', seen fs' t a' = seen fs t a' + N.of_nat (if Bool.eqb a a' then count_occ vtype_dec (map snd vs) t else 0)) /\
  (forall t a', has_example t -> list_at fs' t a' =
     option_map (add_all (if fs_sampled fs mod 1000 =? 0 then map example_of (of_type t a' (vs, a)) else [])) (list_at fs t a')).
Proof.
  induction vs as [|v vs IH]; intros fs Fu.
  - exists fs. repeat split; try apply Fu; [intros t a'; cbn; destruct (Bool.eqb a a'); lia|]. intros t a' _. unfold of_type. cbn [snd fst filter].
    destruct (fs_sampled fs mod 1000 =? 0), (Bool.eqb a a'), (list_at fs t a'); reflexivity.
  - destruct (mark_value_full a fs v Fu) as (fs1 & E1 & B1 & S1 & C1 & X1). destruct (IH fs1 B1) as (fs2 & E2 & B2 & S2 & C2 & X2).
    exists fs2. cbn [mark_values]. rewrite E1. cbn [bind]. split; [exact E2|]. split; [exact B2|]. split; [congruence|]. split.
    + intros t a'. rewrite C2, C1. cbn [map count_occ]. destruct (vtype_dec (snd v) t), (Bool.eqb a a'); lia.
    + intros t a' T. rewrite X2, X1 by exact T. rewrite S1. unfold of_type, sampled_now. cbn [snd fst filter].
      destruct (vtype_dec (snd v) t) as [Et|]; [|reflexivity]. destruct (Bool.eqb a a'); [|reflexivity].
      replace (which (snd v) false <? 6)%nat with true by (rewrite Et; destruct T as [-> |[-> | -> ]]; reflexivity). cbn [andb].
      destruct (fs_sampled fs mod 1000 =? 0); [|reflexivity]. destruct (list_at fs t a'); reflexivity.
Qed.

Lemma marked_full cs : forall fs n, full fs -> fs_sampled fs = N.of_nat n -> exists fs', marked fs cs fs' /\ full fs' /\
  fs_sampled fs' = N.of_nat (n + length cs) /\ (forall t a, seen fs' t a = seen fs t a + N.of_nat (occurrences t a cs)) /\
  (forall t a, has_example t -> list_at fs' t a = option_map (add_all (map example_of (flat_map (of_type t a) (thousandths n cs)))) (list_at fs t a)).
Proof.
  induction cs as [|[vs a] cs IH]; intros fs n Fu Sn; cbn [length].
  - exists fs. split; [constructor|]. split; [exact Fu|]. split; [rewrite Sn; f_equal; lia|]. split; [intros; cbn; lia|].
    intros t a _. cbn. now destruct (list_at fs t a).
  - destruct (mark_values_full a vs {| fs_sampled := fs_sampled fs + 1; fs_types := fs_types fs |}) as (fs1 & E1 & B1 & S1 & C1 & X1); [exact Fu|].
    cbn [fs_sampled] in S1, X1. destruct (IH fs1 (S n) B1) as (fs2 & M2 & B2 & S2 & C2 & X2); [lia|]. exists fs2.
    split; [eapply (mk_more fs vs a 0%Z); [exact E1|exact M2]|]. split; [exact B2|]. split; [rewrite S2; f_equal; lia|]. split.
    + intros t a'. rewrite C2, C1. cbn [occurrences fold_right fst snd]. fold (occurrences t a' cs). unfold seen. cbn [fs_types]. lia.
    + intros t a' T. rewrite X2, X1 by exact T. cbn [thousandths]. rewrite flat_map_app, map_app.
      replace (Nat.eqb (S n mod 1000) 0) with ((fs_sampled fs + 1) mod 1000 =? 0).
      2:{ rewrite Sn. replace (N.of_nat n + 1) with (N.of_nat (S n)) by lia. change 1000 with (N.of_nat 1000) at 1. rewrite <- Nat2N.inj_mod.
          destruct (Nat.eqb_spec (S n mod 1000) 0) as [Z0|Nz]; [rewrite Z0; reflexivity|]. apply N.eqb_neq. lia. }
      unfold list_at at 1. cbn [fs_types]. change (match nth_error (fs_types fs) (which t a') with Some e => en_examples e | None => None end) with (list_at fs t a').
      destruct (list_at fs t a') as [el|]; [|reflexivity]. cbn [option_map]. f_equal.
      destruct ((fs_sampled fs + 1) mod 1000 =? 0); cbn [flat_map app].
      * rewrite app_nil_r. now rewrite add_all_app.
      * reflexivity.
Qed.

Lemma full_new : full with_lists.
Proof. split; [reflexivity|]. repeat constructor; discriminate. Qed.

Lemma examples_map vs xs : Forall2 example vs xs -> map example_of vs = xs /\ Forall (fun x => x <> []) xs.
Proof.
  induction 1 as [|v x vs xs E F [IH1 IH2]]; [split; constructor|]. split; [cbn; now rewrite (example_of_value v x E), IH1|].
  constructor; [exact (example_nonempty v x E)|exact IH2].
Qed.

(** Whatever the calls, none panics, the counts are exact, and the examples Get gives of the strings, numbers or
    objects are those of the last ten of them in the calls number 1000, 2000, ...: none while there are fewer. *)
Theorem C139_examples cs : exists fs, marked with_lists cs fs /\ fs_sampled fs = N.of_nat (length cs) /\
  (forall t a, seen fs t a = N.of_nat (occurrences t a cs)) /\
  forall t a xs, has_example t -> Forall2 example (flat_map (of_type t a) (thousandths 0 cs)) xs ->
    exists el, list_at fs t a = Some el /\
      ((length xs < 10)%nat -> get_examples el = []) /\ ((10 <= length xs)%nat -> Permutation (get_examples el) (lastn 10 xs)).
Proof.
  destruct (marked_full cs with_lists 0 full_new eq_refl) as (fs & M & B & Sn & C & X). exists fs. split; [exact M|]. split; [exact Sn|]. split.
  - intros t a. rewrite C. replace (seen with_lists t a) with 0 by (destruct t, a; reflexivity). reflexivity.
  - intros t a xs T F. destruct (examples_map _ _ F) as [E Ne]. specialize (X t a T). rewrite E in X.
    replace (list_at with_lists t a) with (Some empty_examples) in X by (destruct t, a; reflexivity). cbn [option_map] in X.
    eexists. split; [exact X|]. exact (C87_get xs Ne).
Qed.
Print Assumptions C139_examples.
(** MarshalJson does not panic either: every list is there. *)
Theorem C139_marshal cs : exists fs, marked with_lists cs fs /\ marshal_examples fs = Ok tt.
Proof.
  destruct (marked_full cs with_lists 0 full_new eq_refl) as (fs & M & [_ B] & _). exists fs. split; [exact M|]. unfold marshal_examples.
  induction B as [|e l [He _] F IH]; [reflexivity|]. cbn [fold_right]. destruct (en_seen e =? 0), (en_examples e); [exact IH|exact IH|exact IH|congruence].
Qed.
Print Assumptions C139_marshal.

(** In 1000 calls of one number each, the last one of twelve: the last ten of those. *)
Definition digits_12 : list jvalue := map (fun d => ([48 + N.of_nat d], TNumber)) (seq 0 12).
Example C139_hypotheses : let cs := repeat ([(b "7", TNumber)], false) 999 ++ [(digits_12, false)] in
  Forall2 example (flat_map (of_type TNumber false) (thousandths 0 cs)) (map fst digits_12) /\ length (map fst digits_12) = 12%nat.
Proof.
  cbv zeta. split; [|reflexivity].
  assert (E : flat_map (of_type TNumber false) (thousandths 0 (repeat ([(b "7", TNumber)], false) 999 ++ [(digits_12, false)])) = digits_12) by (vm_compute; reflexivity).
  rewrite E. unfold digits_12. cbn. repeat (constructor; [apply ex_number; discriminate|]). constructor.
Qed.
Example C139_kinds : example (b "a\tb", TString) [97; 9; 98] /\ example ([], TString) (b "empty string") /\ example (b "1e3", TNumber) (b "1e3").
Proof.
  split; [|split].
  - apply ex_string; [|discriminate]. apply dc_char; try lia. apply (dc_esc 116 9); [cbn; tauto|]. apply dc_char; try lia. constructor.
  - apply ex_empty. constructor.
  - apply ex_number. discriminate.
Qed.

(** ** C140 *)

(** An object shows its first eleven names, not ten ... *)
Theorem C140_names s ms names : value_text s (JObj ms) -> Forall2 (fun m n => decodes (fst m) n) ms names ->
  Forall (fun n => ~ In 92 n) names ->
  example_of (s, TObject) = b "<object with keys: " ++ list_of_names (firstn 11 names) ++ b ">".
Proof. intros V D F. apply example_of_value. econstructor; eassumption. Qed.
Print Assumptions C140_names.

Lemma document_object s ms : parse_json s = Some (JObj ms) -> (exists r, s = 123 :: r) -> last s 0 = 125 -> value_text s (JObj ms).
Proof.
  intros P (r & ->) La. apply parse_json_spec in P as (w1 & t & w2 & E & W1 & V & W2 & _). destruct w1 as [|c w1].
  - cbn [app] in E. destruct w2 as [|c w2] using rev_ind; [rewrite app_nil_r in E; now rewrite E|]. rewrite E, app_assoc, last_last in La. subst c.
    apply Forall_app in W2 as [_ W2]. inversion W2 as [|? ? H _]; subst. destruct H as [H|[H|[H|H]]]; discriminate H.
  - cbn [app] in E. injection E as <- _. inversion W1 as [|? ? H _]; subst. destruct H as [H|[H|[H|H]]]; discriminate H.
Qed.

(** ... so more than the ten that are allowed. *)
Definition letters_12 : list bytes := map (fun d => [97 + N.of_nat d]) (seq 0 12).
Definition object_12 : bytes := b "{""a"":1,""b"":1,""c"":1,""d"":1,""e"":1,""f"":1,""g"":1,""h"":1,""i"":1,""j"":1,""k"":1,""l"":1}".
Theorem C140_ten_refuted : exists s ms, value_text s (JObj ms) /\ Forall2 (fun m n => decodes (fst m) n) ms letters_12 /\
  Forall (fun n => ~ In 92 n) letters_12 /\ length letters_12 = 12%nat /\
  example_of (s, TObject) = b "<object with keys: " ++ list_of_names (firstn 11 letters_12) ++ b ">" /\
  example_of (s, TObject) <> b "<object with keys: " ++ list_of_names (firstn 10 letters_12) ++ b ">".
Proof.
  exists object_12, (map (fun n => (n, JNum (b "1"))) letters_12).
  assert (V : value_text object_12 (JObj (map (fun n => (n, JNum (b "1"))) letters_12))).
  { apply document_object; [vm_compute; reflexivity|eexists; reflexivity|reflexivity]. }
  assert (D : Forall2 (fun m n => decodes (fst m) n) (map (fun n => (n, JNum (b "1"))) letters_12) letters_12).
  { cbn. repeat (constructor; [apply dc_char; [cbn; lia|cbn; lia|cbn; lia|constructor]|]). constructor. }
  assert (F : Forall (fun n => ~ In 92 n) letters_12) by (cbn; repeat (constructor; [cbn; lia|]); constructor).
  pose proof (C140_names _ _ _ V D F) as E. repeat (split; [assumption || reflexivity|]). rewrite E. vm_compute. discriminate.
Qed.
Print Assumptions C140_ten_refuted.

(** The names are decoded twice: two objects with different names, one of them the two characters
    backslash and n, the other the newline, have the same example. *)
Theorem C140_decoded_refuted : exists s ms names s' ms' names',
  value_text s (JObj ms) /\ Forall2 (fun m n => decodes (fst m) n) ms names /\
  value_text s' (JObj ms') /\ Forall2 (fun m n => decodes (fst m) n) ms' names' /\
  names <> names' /\ length names = 1%nat /\ length names' = 1%nat /\
  example_of (s, TObject) = example_of (s', TObject) /\
  example_of (s, TObject) <> b "<object with keys: " ++ list_of_names names ++ b ">".
Proof.
  exists (b "{""\\n"":1}"), [(b "\\n", JNum (b "1"))], [b "\n"], (b "{""\n"":1}"), [(b "\n", JNum (b "1"))], [[10]].
  split; [apply document_object; [vm_compute; reflexivity|eexists; reflexivity|reflexivity]|].
  split; [constructor; [|constructor]; apply (dc_esc 92 92); [cbn; tauto|]; apply dc_char; try (cbn; lia); constructor|].
  split; [apply document_object; [vm_compute; reflexivity|eexists; reflexivity|reflexivity]|].
  split; [constructor; [|constructor]; apply (dc_esc 110 10); [cbn; tauto|]; constructor|].
  split; [discriminate|]. split; [reflexivity|]. split; [reflexivity|]. split; [vm_compute; reflexivity|vm_compute; discriminate].
Qed.
Print Assumptions C140_decoded_refuted.
(** A name that cannot be decoded a second time, a backslash by itself, is not shown at all. *)
Theorem C140_shown_refuted : exists s ms names, value_text s (JObj ms) /\ Forall2 (fun m n => decodes (fst m) n) ms names /\
  names = [b "a"; b "\"] /\ example_of (s, TObject) = b "<object with keys: ""a"",""<invalid key>"">".
Proof.
  exists (b "{""a"":1,""\\"":1}"), [(b "a", JNum (b "1")); (b "\\", JNum (b "1"))], [b "a"; b "\"].
  split; [apply document_object; [vm_compute; reflexivity|eexists; reflexivity|reflexivity]|].
  split; [|split; [reflexivity|vm_compute; reflexivity]].
  constructor; [apply dc_char; try (cbn; lia); constructor|]. constructor; [|constructor]. apply (dc_esc 92 92); [cbn; tauto|constructor].
Qed.
Print Assumptions C140_shown_refuted.
