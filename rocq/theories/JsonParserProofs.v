(** The byte-level functions of JsonParser.v on valid JSON. *)
From Verif Require Import Bytes GoStrconv Json JsonSpec JsonProofs Values JsonParser.
From Coq Require Import ZifyBool ZifyN ZifyNat.

(** [x] is what jsonparser hands out for the value [j]. *)
Definition shows (x : jvalue) (j : json) : Prop :=
  match j with
  | JNull => x = (b "null", TNull)
  | JBool v => x = (if v then b "true" else b "false", TBoolean)
  | JNum s => x = (s, TNumber) /\ number_text s
  | JStr s => x = (s, TString) /\ string_text s
  | JArr _ => snd x = TArray /\ value_text (fst x) j
  | JObj _ => snd x = TObject /\ value_text (fst x) j
  end.

(** ** Strings *)
Lemma string_end_text k : string_text k -> forall e t,
  string_end false e (k ++ 34 :: t) = Some (k, e || has_byte 92 k, t).
Proof.
  assert (P : forall c s e t, c <> 34 -> c <> 92 ->
    string_end false e (c :: s ++ 34 :: t) =
    match string_end false e (s ++ 34 :: t) with Some (k, e', t') => Some (c :: k, e', t') | None => None end).
  { intros c s e t A B. cbn [string_end]. replace (c =? 34) with false by lia. now replace (c =? 92) with false by lia. }
  induction 1 as [|c s H1 H2 H3 _ IH|e s H _ IH|h1 h2 h3 h4 s H1 H2 H3 H4 _ IH]; intros e0 t.
  - cbn. now rewrite orb_false_r.
  - cbn [app]. rewrite P by assumption. rewrite IH. unfold has_byte. cbn [existsb].
    now replace (92 =? c) with false by lia.
  - replace (string_end false e0 ((92 :: e :: s) ++ 34 :: t)) with
      (match string_end false true (s ++ 34 :: t) with Some (k, e', t') => Some (92 :: e :: k, e', t') | None => None end).
    + rewrite IH. unfold has_byte. cbn. now rewrite orb_true_r.
    + cbn. destruct (e =? 34); [|destruct (e =? 92)]; cbn;
        now destruct (string_end false true (s ++ 34 :: t)) as [[[? ?] ?]|].
  - unfold hexdigit in *. cbn [app]. 
    change (string_end false e0 (92 :: 117 :: h1 :: h2 :: h3 :: h4 :: s ++ 34 :: t)) with
      (match (match string_end false true (h1 :: ([h2; h3; h4] ++ s) ++ 34 :: t) with Some (k, e', t') => Some (117 :: k, e', t') | None => None end)
       with Some (k, e', t') => Some (92 :: k, e', t') | None => None end).
    rewrite P by lia. cbn [app].
    change (h2 :: h3 :: h4 :: s ++ 34 :: t) with (h2 :: ([h3; h4] ++ s) ++ 34 :: t). rewrite P by lia. cbn [app].
    change (h3 :: h4 :: s ++ 34 :: t) with (h3 :: ([h4] ++ s) ++ 34 :: t). rewrite P by lia. cbn [app].
    rewrite P by lia. rewrite IH. unfold has_byte. cbn. now rewrite orb_true_r.
Qed.

Lemma unescape_plain k : has_byte 92 k = false -> unescape k = Some k.
Proof.
  induction k as [|c k IH]; [reflexivity|]. unfold has_byte. cbn [existsb]. intros H.
  apply orb_false_iff in H as [H1 H2]. cbn. replace (c =? 92) with false by lia.
  rewrite IH by exact H2. reflexivity.
Qed.

Lemma key_text k : (if has_byte 92 k then unescape k else Some k) = unescape k.
Proof. destruct (has_byte 92 k) eqn:E; [reflexivity|]. now rewrite unescape_plain. Qed.

(** ** Blocks *)
Definition prep (p : bytes) (x : option (bytes * bytes)) : option (bytes * bytes) :=
  match x with Some (k, t) => Some (p ++ k, t) | None => None end.

Lemma prep_app p q x : prep (p ++ q) x = prep p (prep q x).
Proof. destruct x as [[k t]|]; [|reflexivity]. cbn. now rewrite app_assoc. Qed.

Lemma prep_cons c x : match x with Some (k, t) => Some (c :: k, t) | None => None end = prep [c] x.
Proof. destruct x as [[k t]|]; reflexivity. Qed.

Definition brackets (op cl : N) : Prop := (op = 91 /\ cl = 93) \/ (op = 123 /\ cl = 125).

(** Bytes that no scanner of the package reacts to. *)
Definition dull (c : N) : Prop := c <> 34 /\ c <> 91 /\ c <> 93 /\ c <> 123 /\ c <> 125 /\ c <> 58.

Lemma ws_dull w : ws w -> Forall dull w.
Proof. apply Forall_impl. unfold ws_char, dull. intros; lia. Qed.

Lemma digits_dull w : Forall digit w -> Forall dull w.
Proof. apply Forall_impl. unfold digit, dull. intros; lia. Qed.

(** A number has no byte that ends a token. *)
Definition inner (c : N) : Prop := dull c /\ is_ws c = false /\ c <> 44.

Lemma number_inner s : number_text s -> Forall inner s.
Proof.
  assert (D : forall l, Forall digit l -> Forall inner l).
  { intros l. apply Forall_impl. unfold digit, inner, dull, is_ws. intros; lia. }
  intros [sg i f e Sg I0 F E].
  repeat (apply Forall_app; split).
  - destruct Sg as [->| ->]; [constructor|]. constructor; [unfold inner, dull, is_ws; lia|constructor].
  - destruct I0 as [|c ds C Ds]; [repeat constructor; unfold inner, dull, is_ws; lia|].
    constructor; [unfold inner, dull, is_ws; lia|now apply D].
  - destruct F as [|ds Ds _]; [constructor|]. constructor; [unfold inner, dull, is_ws; lia|now apply D].
  - destruct E as [|x sg' ds X Sg' Ds _]; [constructor|].
    constructor; [unfold inner, dull, is_ws; lia|]. apply Forall_app. split; [|now apply D].
    destruct Sg' as [->|[->| ->]]; [constructor| |]; constructor; try constructor; unfold dull, is_ws; lia.
Qed.

Lemma inner_dull s : Forall inner s -> Forall dull s.
Proof. apply Forall_impl. now intros c [H _]. Qed.

Section Block.
Context (op cl : N) (Br : brackets op cl).

Lemma block_dull w : Forall dull w -> forall l t,
  block_end op cl l None (w ++ t) = prep w (block_end op cl l None t).
Proof.
  induction 1 as [|c w H _ IH]; intros l t.
  - cbn. now destruct (block_end op cl l None t) as [[k u]|].
  - cbn [app block_end]. unfold dull in H. destruct Br as [[-> ->]|[-> ->]];
      (replace (c =? 34) with false by lia);
      [replace (c =? 91) with false by lia; replace (c =? 93) with false by lia
      |replace (c =? 123) with false by lia; replace (c =? 125) with false by lia];
      rewrite IH, prep_cons, <- prep_app; reflexivity.
Qed.

Lemma block_instring k : string_text k -> forall l t,
  block_end op cl l (Some false) (k ++ 34 :: t) = prep (k ++ [34]) (block_end op cl l None t).
Proof.
  assert (P : forall c s l t, c <> 34 -> c <> 92 ->
    block_end op cl l (Some false) (c :: s ++ 34 :: t) = prep [c] (block_end op cl l (Some false) (s ++ 34 :: t))).
  { intros c s l t A B. cbn. replace (c =? 34) with false by lia. replace (c =? 92) with false by lia.
    now rewrite prep_cons. }
  induction 1 as [|c s H1 H2 H3 _ IH|e s H _ IH|h1 h2 h3 h4 s H1 H2 H3 H4 _ IH]; intros l t.
  - cbn. now rewrite prep_cons.
  - cbn [app]. rewrite P by assumption. now rewrite IH, <- prep_app.
  - replace (block_end op cl l (Some false) ((92 :: e :: s) ++ 34 :: t)) with
      (prep [92; e] (block_end op cl l (Some false) (s ++ 34 :: t))).
    + now rewrite IH, <- prep_app.
    + cbn. destruct (e =? 34); [|destruct (e =? 92)]; cbn;
        now destruct (block_end op cl l (Some false) (s ++ 34 :: t)) as [[? ?]|].
  - unfold hexdigit in *. cbn [app].
    change (block_end op cl l (Some false) (92 :: 117 :: h1 :: h2 :: h3 :: h4 :: s ++ 34 :: t)) with
      (match (match block_end op cl l (Some false) (h1 :: ([h2; h3; h4] ++ s) ++ 34 :: t) with Some (k, t') => Some (117 :: k, t') | None => None end)
       with Some (k, t') => Some (92 :: k, t') | None => None end).
    rewrite P by lia. cbn [app].
    change (h2 :: h3 :: h4 :: s ++ 34 :: t) with (h2 :: ([h3; h4] ++ s) ++ 34 :: t). rewrite P by lia. cbn [app].
    change (h3 :: h4 :: s ++ 34 :: t) with (h3 :: ([h4] ++ s) ++ 34 :: t). rewrite P by lia. cbn [app].
    rewrite P by lia. rewrite IH. rewrite !prep_cons, <- !prep_app. reflexivity.
Qed.

Lemma block_quoted k l t : string_text k ->
  block_end op cl l None (34 :: k ++ 34 :: t) = prep (34 :: k ++ [34]) (block_end op cl l None t).
Proof.
  intros K. cbn [block_end]. change (34 =? 34) with true. cbv iota.
  rewrite block_instring by exact K. rewrite prep_cons, <- prep_app. reflexivity.
Qed.

(** Balanced text is passed over. *)
Definition passed (s : bytes) : Prop := forall l t,
  block_end op cl (S l) None (s ++ t) = prep s (block_end op cl (S l) None t).

Lemma passed_app s u : passed s -> passed u -> passed (s ++ u).
Proof. intros A B l t. now rewrite <- app_assoc, A, B, <- prep_app. Qed.

Lemma passed_dull s : Forall dull s -> passed s.
Proof. intros D l t. now apply block_dull. Qed.

Lemma passed_string k : string_text k -> passed (34 :: k ++ [34]).
Proof.
  intros K l t. replace ((34 :: k ++ [34]) ++ t) with (34 :: k ++ 34 :: t) by (cbn; now rewrite <- app_assoc).
  now apply block_quoted.
Qed.

Lemma passed_in s o c : brackets o c -> passed s -> passed (o :: s ++ [c]).
Proof.
  intros Bo P l t.
  replace ((o :: s ++ [c]) ++ t) with (o :: s ++ c :: t) by (cbn; now rewrite <- app_assoc).
  unfold passed in P. destruct Br as [[E1 E2]|[E1 E2]]; rewrite E1, E2 in P |- *;
    destruct Bo as [[-> ->]|[-> ->]]; cbn [block_end N.eqb Pos.eqb];
    rewrite P; cbn [block_end N.eqb Pos.eqb]; rewrite !prep_cons, <- !prep_app; reflexivity.
Qed.

Lemma values_passed :
  (forall s v, value_text s v -> passed s) /\
  (forall s vs, elements_text s vs -> passed s) /\
  (forall s ms, members_text s ms -> passed s).
Proof.
  assert (Dc : forall c, dull c -> passed [c]) by (intros c H; apply passed_dull; now constructor).
  assert (Dw : forall w, ws w -> passed w) by (intros w W; now apply passed_dull, ws_dull).
  assert (C44 : passed [44]) by (apply Dc; unfold dull; lia).
  assert (C58 : passed [58] \/ True) by now right.
  assert (C58' : passed [58]).
  { intros l t. destruct Br as [[-> ->]|[-> ->]]; cbn; now rewrite prep_cons. }
  apply json_ind.
  - apply passed_dull. repeat constructor; discriminate.
  - apply passed_dull. repeat constructor; discriminate.
  - apply passed_dull. repeat constructor; discriminate.
  - intros s H. apply passed_dull, inner_dull, number_inner, H.
  - intros s H. now apply passed_string.
  - intros w W. apply passed_in; [now left|auto].
  - intros s vs _ P. apply passed_in; [now left|exact P].
  - intros w W. apply passed_in; [now right|auto].
  - intros s ms _ P. apply passed_in; [now right|exact P].
  - intros w1 s w2 v W1 _ P W2. auto using passed_app.
  - intros w1 s w2 v t vs W1 _ P W2 _ P'. change (44 :: t) with ([44] ++ t). auto 10 using passed_app.
  - intros w1 k w2 w3 s w4 v W1 K W2 W3 _ P W4.
    replace (34 :: k ++ 34 :: w2 ++ 58 :: w3 ++ s ++ w4) with ((34 :: k ++ [34]) ++ w2 ++ [58] ++ w3 ++ s ++ w4)
      by (cbn; now rewrite <- app_assoc).
    auto 10 using passed_app, passed_string.
  - intros w1 k w2 w3 s w4 v t ms W1 K W2 W3 _ P W4 _ P'.
    replace (34 :: k ++ 34 :: w2 ++ 58 :: w3 ++ s ++ w4 ++ 44 :: t)
      with ((34 :: k ++ [34]) ++ w2 ++ [58] ++ w3 ++ s ++ w4 ++ [44] ++ t) by (cbn; now rewrite <- app_assoc).
    auto 15 using passed_app, passed_string.
Qed.

Lemma block_end_passed s t : passed s -> block_end op cl 0 None (op :: s ++ cl :: t) = Some (op :: s ++ [cl], t).
Proof.
  intros P. unfold passed in P. destruct Br as [[E1 E2]|[E1 E2]]; rewrite E1, E2 in P |- *; cbn [block_end N.eqb Pos.eqb];
    rewrite P; cbn [block_end N.eqb Pos.eqb]; reflexivity.
Qed.
End Block.

Lemma block_array s vs t : value_text s (JArr vs) -> block_end 91 93 0 None (s ++ t) = Some (s, t).
Proof.
  intros V.
  assert (B : brackets 91 93) by now left.
  inversion V as [| | | | |w W|s' vs' H| |]; subst.
  - replace ((91 :: w ++ [93]) ++ t) with (91 :: w ++ 93 :: t) by (cbn; now rewrite <- app_assoc).
    apply block_end_passed; [exact B|]. apply passed_dull; [exact B|]. now apply ws_dull.
  - replace ((91 :: s' ++ [93]) ++ t) with (91 :: s' ++ 93 :: t) by (cbn; now rewrite <- app_assoc).
    apply block_end_passed; [exact B|]. exact (proj1 (proj2 (values_passed _ _ B)) _ _ H).
Qed.

Lemma block_object s ms t : value_text s (JObj ms) -> block_end 123 125 0 None (s ++ t) = Some (s, t).
Proof.
  intros V.
  assert (B : brackets 123 125) by now right.
  inversion V as [| | | | | | |w W|s' ms' H]; subst.
  - replace ((123 :: w ++ [125]) ++ t) with (123 :: w ++ 125 :: t) by (cbn; now rewrite <- app_assoc).
    apply block_end_passed; [exact B|]. apply passed_dull; [exact B|]. now apply ws_dull.
  - replace ((123 :: s' ++ [125]) ++ t) with (123 :: s' ++ 125 :: t) by (cbn; now rewrite <- app_assoc).
    apply block_end_passed; [exact B|]. exact (proj2 (proj2 (values_passed _ _ B)) _ _ H).
Qed.

(** ** Get *)

(** What may follow a value. *)
Definition ends (t : bytes) : Prop :=
  match t with [] => True | c :: _ => is_ws c = true \/ c = 44 \/ c = 125 \/ c = 93 end.

Lemma ends_ws w : ws w -> ends w.
Proof. intros [|c w' H _]; [exact I|]. left. now apply is_ws_spec. Qed.

Lemma ends_after w c t : ws w -> c = 44 \/ c = 93 \/ c = 125 -> ends (w ++ c :: t).
Proof. intros [|d w' H _] C; cbn; [tauto|]. left. now apply is_ws_spec. Qed.

Lemma token_end_inner s t : Forall inner s -> ends t -> token_end (s ++ t) = (s, t).
Proof.
  intros F E. induction F as [|c s H _ IH]; cbn.
  - destruct t as [|c t]; [reflexivity|]. cbn in *.
    replace (is_ws c || (c =? 44) || (c =? 125) || (c =? 93)) with true; [reflexivity|].
    destruct (is_ws c); [reflexivity|]. destruct E as [E|E]; [discriminate|]. cbn. lia.
  - unfold inner, dull in H. destruct H as (H & W & N0). rewrite W.
    replace (c =? 44) with false by lia. replace (c =? 125) with false by lia.
    replace (c =? 93) with false by lia. cbn. now rewrite IH.
Qed.

Lemma get_type_value s j t : value_text s j -> ends t ->
  exists v ty, get_type (s ++ t) = Some (v, ty, t) /\ shows (v, ty) j.
Proof.
  intros V E.
  assert (In0 : forall w : bytes, Forall (fun c => 97 <= c <= 122) w -> Forall inner w).
  { intros w. apply Forall_impl. unfold inner, dull, is_ws. intros; lia. }
  destruct V as [| | |s H|s H|w W|s vs H|w W|s ms H].
  - exists (b "null"), TNull. split; [|reflexivity].
    pose proof (token_end_inner (b "null") t ltac:(apply In0; repeat constructor; discriminate) E) as T.
    change (b "null" ++ t) with (110 :: 117 :: 108 :: 108 :: t) in *.
    unfold get_type. cbn [N.eqb Pos.eqb]. now rewrite T.
  - exists (b "true"), TBoolean. split; [|reflexivity].
    pose proof (token_end_inner (b "true") t ltac:(apply In0; repeat constructor; discriminate) E) as T.
    change (b "true" ++ t) with (116 :: 114 :: 117 :: 101 :: t) in *.
    unfold get_type. cbn [N.eqb Pos.eqb]. now rewrite T.
  - exists (b "false"), TBoolean. split; [|reflexivity].
    pose proof (token_end_inner (b "false") t ltac:(apply In0; repeat constructor; discriminate) E) as T.
    change (b "false" ++ t) with (102 :: 97 :: 108 :: 115 :: 101 :: t) in *.
    unfold get_type. cbn [N.eqb Pos.eqb]. now rewrite T.
  - exists s, TNumber. split; [|now split].
    pose proof (token_end_inner s t (number_inner _ H) E) as T.
    destruct (number_head _ H) as (c & r & -> & D). cbn [app] in *. unfold get_type. rewrite T.
    unfold digit in D. unfold is_digit.
    replace (c =? 34) with false by lia. replace (c =? 91) with false by lia. replace (c =? 123) with false by lia.
    replace ((c =? 116) || (c =? 102)) with false by lia. replace ((c =? 117) || (c =? 110)) with false by lia.
    replace ((48 <=? c) && (c <=? 57) || (c =? 45)) with true by lia. reflexivity.
  - exists s, TString. split; [|now split]. cbn [app get_type]. change (34 =? 34) with true. cbv iota.
    rewrite <- app_assoc. cbn [app]. now rewrite string_end_text.
  - eexists _, TArray. pose proof (vt_arr0 _ W) as V. split; [|split; [reflexivity|exact V]].
    pose proof (block_array _ _ t V) as R. cbn [app] in *. unfold get_type.
    cbn [N.eqb Pos.eqb]. now rewrite R.
  - eexists _, TArray. pose proof (vt_arr _ _ H) as V. split; [|split; [reflexivity|exact V]].
    pose proof (block_array _ _ t V) as R. cbn [app] in *. unfold get_type.
    cbn [N.eqb Pos.eqb]. now rewrite R.
  - eexists _, TObject. pose proof (vt_obj0 _ W) as V. split; [|split; [reflexivity|exact V]].
    pose proof (block_object _ _ t V) as R. cbn [app] in *. unfold get_type.
    cbn [N.eqb Pos.eqb]. now rewrite R.
  - eexists _, TObject. pose proof (vt_obj _ _ H) as V. split; [|split; [reflexivity|exact V]].
    pose proof (block_object _ _ t V) as R. cbn [app] in *. unfold get_type.
    cbn [N.eqb Pos.eqb]. now rewrite R.
Qed.

Lemma next_token_value w s j t : ws w -> value_text s j -> next_token (w ++ s ++ t) = Some (s ++ t).
Proof.
  intros W V. unfold next_token. rewrite (skip_value _ _ _ _ W V).
  destruct (value_head _ _ V) as (c & r & -> & _). reflexivity.
Qed.

Lemma next_token_char w c t : ws w -> is_ws c = false -> next_token (w ++ c :: t) = Some (c :: t).
Proof. intros W C. unfold next_token. rewrite skip_ws_app by exact W. now rewrite skip_ws_stop. Qed.

Lemma next_token_ws w : ws w -> next_token w = None.
Proof. intros W. unfold next_token. now rewrite skip_ws_all. Qed.

Lemma get0_value w s j t : ws w -> value_text s j -> ends t ->
  exists v ty, get0 (w ++ s ++ t) = Some (v, ty, t) /\ shows (v, ty) j.
Proof.
  intros W V E. unfold get0. rewrite (next_token_value _ _ _ _ W V). now apply get_type_value.
Qed.

(** ** ArrayEach and ObjectEach *)
Lemma get0_skip s : get0 (skip_ws s) = get0 s.
Proof.
  unfold get0, next_token. destruct (skip_ws_split s) as (w & E & W).
  replace (skip_ws (skip_ws s)) with (skip_ws s); [reflexivity|].
  rewrite E at 1. now rewrite skip_ws_app.
Qed.

Lemma array_loop_skip f s : array_loop f (skip_ws s) = array_loop f s.
Proof. destruct f as [|f]; [reflexivity|]. cbn [array_loop]. now rewrite get0_skip. Qed.

Lemma array_loop_elements s els : elements_text s els -> forall f t, (length els <= f)%nat ->
  exists l, array_loop f (s ++ 93 :: t) = (l, true) /\ Forall2 shows l els.
Proof.
  induction 1 as [w1 s w2 v W1 V W2|w1 s w2 v u vs W1 V W2 _ IH]; intros f t L; (destruct f as [|f]; [cbn in L; lia|]).
  - rewrite <- !app_assoc. cbn [array_loop].
    destruct (get0_value w1 s v (w2 ++ 93 :: t) W1 V) as (x & ty & -> & Sh); [apply ends_after; auto|].
    rewrite next_token_char by auto. change (93 =? 93) with true. cbv iota. eexists; split; [reflexivity|auto].
  - replace ((w1 ++ s ++ w2 ++ 44 :: u) ++ 93 :: t) with (w1 ++ s ++ w2 ++ 44 :: u ++ 93 :: t)
      by (rewrite <- !app_assoc; reflexivity).
    cbn [array_loop].
    destruct (get0_value w1 s v (w2 ++ 44 :: u ++ 93 :: t) W1 V) as (x & ty & -> & Sh); [apply ends_after; auto|].
    rewrite next_token_char by auto. change (44 =? 93) with false. change (44 =? 44) with true. cbv iota.
    destruct (IH f t ltac:(cbn in L; lia)) as (l & -> & F). eexists; split; [reflexivity|auto].
Qed.

Lemma elements_count s els : elements_text s els -> (length els <= length s)%nat /\
  forall t, (length els <= length (skip_ws (s ++ t)))%nat /\ exists c r, skip_ws (s ++ t) = c :: r /\ c <> 93.
Proof.
  induction 1 as [w1 s w2 v W1 V W2|w1 s w2 v u vs W1 V W2 _ IH].
  - split.
    + rewrite !app_length. destruct (value_head _ _ V) as (c & r & -> & _). cbn. lia.
    + intros t. rewrite <- !app_assoc. rewrite (skip_value _ _ _ _ W1 V).
      destruct (value_head _ _ V) as (c & r & -> & _ & N0 & _). split; [cbn; lia|]. cbn. eauto.
  - destruct IH as [IH _]. split.
    + rewrite !app_length. destruct (value_head _ _ V) as (c & r & -> & _). cbn. lia.
    + intros t. rewrite <- !app_assoc. rewrite (skip_value _ _ _ _ W1 V).
      destruct (value_head _ _ V) as (c & r & -> & _ & N0 & _). split; [|cbn; eauto].
      cbn. rewrite !app_length. cbn. rewrite app_length. lia.
Qed.

Lemma array_each_value w s els t : ws w -> value_text s (JArr els) ->
  exists l, array_each (w ++ s ++ t) = (l, true) /\ Forall2 shows l els.
Proof.
  intros W V. unfold array_each. rewrite (next_token_value _ _ _ _ W V).
  inversion V as [| | | | |w' W'|s' vs' H| |]; subst.
  - cbn [app]. rewrite <- app_assoc. cbn [app]. rewrite next_token_char by auto.
    change (93 =? 93) with true. cbv iota. eexists; split; [reflexivity|constructor].
  - cbn [app]. rewrite <- app_assoc. cbn [app]. unfold next_token.
    destruct (proj2 (elements_count _ _ H) (93 :: t)) as (Lc & c & r & E & N0).
    rewrite E in *. replace (c =? 93) with false by lia.
    pose proof (array_loop_skip (S (length (c :: r))) (s' ++ 93 :: t)) as K. rewrite E in K. rewrite K.
    apply array_loop_elements; [exact H|]. lia.
Qed.

(** The members of an object, names decoded, up to a name that cannot be decoded. *)
Fixpoint decoded (ms : list (bytes * json)) : list (bytes * json) * bool :=
  match ms with
  | [] => ([], true)
  | (k, v) :: ms' =>
    match unescape k with
    | None => ([], false)
    | Some k' => let (l, ok) := decoded ms' in ((k', v) :: l, ok)
    end
  end.

Definition shows_member (x : bytes * jvalue) (m : bytes * json) : Prop :=
  fst x = fst m /\ shows (snd x) (snd m).

Lemma object_loop_members s ms : members_text s ms -> forall f t, (length ms <= f)%nat ->
  exists l, object_loop f (skip_ws (s ++ 125 :: t)) = (l, snd (decoded ms)) /\
            Forall2 shows_member l (fst (decoded ms)).
Proof.
  induction 1 as [w1 k w2 w3 s w4 v W1 K W2 W3 V W4|w1 k w2 w3 s w4 v u ms W1 K W2 W3 V W4 H IH];
    intros f t L; (destruct f as [|f]; [cbn in L; lia|]).
  - replace ((w1 ++ 34 :: k ++ 34 :: w2 ++ 58 :: w3 ++ s ++ w4) ++ 125 :: t)
      with (w1 ++ 34 :: k ++ 34 :: w2 ++ 58 :: w3 ++ s ++ w4 ++ 125 :: t)
      by (repeat (rewrite <- !app_assoc; cbn); reflexivity).
    rewrite skip_ws_app by exact W1. rewrite skip_ws_stop by reflexivity.
    cbn [object_loop decoded]. change (34 =? 34) with true. cbv iota.
    rewrite string_end_text by exact K. cbn [orb]. rewrite key_text.
    destruct (unescape k) as [k'|]; [|eexists; split; [reflexivity|constructor]].
    rewrite next_token_char by auto. change (58 =? 58) with true. cbv iota.
    destruct (get0_value w3 s v (w4 ++ 125 :: t) W3 V) as (x & ty & -> & Sh); [apply ends_after; auto|].
    rewrite next_token_char by auto. change (125 =? 125) with true. cbv iota.
    eexists; split; [reflexivity|]. constructor; [now split|constructor].
  - replace ((w1 ++ 34 :: k ++ 34 :: w2 ++ 58 :: w3 ++ s ++ w4 ++ 44 :: u) ++ 125 :: t)
      with (w1 ++ 34 :: k ++ 34 :: w2 ++ 58 :: w3 ++ s ++ w4 ++ 44 :: u ++ 125 :: t)
      by (repeat (rewrite <- !app_assoc; cbn); reflexivity).
    rewrite skip_ws_app by exact W1. rewrite skip_ws_stop by reflexivity.
    cbn [object_loop decoded]. change (34 =? 34) with true. cbv iota.
    rewrite string_end_text by exact K. cbn [orb]. rewrite key_text.
    destruct (unescape k) as [k'|]; [|eexists; split; [reflexivity|constructor]].
    rewrite next_token_char by auto. change (58 =? 58) with true. cbv iota.
    destruct (get0_value w3 s v (w4 ++ 44 :: u ++ 125 :: t) W3 V) as (x & ty & -> & Sh); [apply ends_after; auto|].
    rewrite next_token_char by auto. change (44 =? 125) with false. change (44 =? 44) with true. cbv iota.
    destruct (IH f t ltac:(cbn in L; lia)) as (l & R & F). unfold next_token.
    assert (Q : exists r, skip_ws (u ++ 125 :: t) = 34 :: r).
    { destruct H; rewrite <- app_assoc, skip_ws_app by assumption; cbn; eauto. }
    destruct Q as (r & Q). rewrite Q in *. rewrite R. destruct (decoded ms) as [d ok].
    eexists; split; [reflexivity|]. constructor; [now split|exact F].
Qed.

Lemma members_count s ms : members_text s ms -> (length ms <= length s)%nat /\
  forall t, (length ms <= length (skip_ws (s ++ t)))%nat /\ exists r, skip_ws (s ++ t) = 34 :: r.
Proof.
  induction 1 as [w1 k w2 w3 s w4 v W1 K W2 W3 V W4|w1 k w2 w3 s w4 v u ms W1 K W2 W3 V W4 H [IH _]].
  - split.
    + rewrite !app_length. cbn. lia.
    + intros t. rewrite <- !app_assoc. rewrite skip_ws_app by exact W1. cbn. split; [lia|eauto].
  - split.
    + repeat (rewrite !app_length; cbn). lia.
    + intros t. rewrite <- !app_assoc. rewrite skip_ws_app by exact W1. cbn. split; [|eauto].
      repeat (rewrite !app_length; cbn). lia.
Qed.

Lemma object_each_value w s ms t : ws w -> value_text s (JObj ms) ->
  exists l, object_each (w ++ s ++ t) = (l, snd (decoded ms)) /\ Forall2 shows_member l (fst (decoded ms)).
Proof.
  intros W V. unfold object_each. rewrite (next_token_value _ _ _ _ W V).
  inversion V as [| | | | | | |w' W'|s' vs' H]; subst.
  - cbn [app]. change (123 =? 123) with true. cbv iota. rewrite <- app_assoc. cbn [app].
    rewrite next_token_char by auto.
    change (125 =? 125) with true. cbv iota. eexists; split; [reflexivity|constructor].
  - cbn [app]. change (123 =? 123) with true. cbv iota. rewrite <- app_assoc. cbn [app]. unfold next_token.
    destruct (proj2 (members_count _ _ H) (125 :: t)) as (Lc & r & E).
    rewrite E in *. change (34 =? 125) with false. cbv iota. rewrite <- E.
    apply object_loop_members; [exact H|]. rewrite E. lia.
Qed.

(** ** Get with a key *)
Section Search.
Context (key : bytes).

Lemma search_dull w : Forall dull w -> forall f l k m t, (length (w ++ t) < f)%nat ->
  exists f', (length t < f')%nat /\ search_key f key l k m (w ++ t) = search_key f' key l k m t.
Proof.
  induction 1 as [|c w H _ IH]; intros f l k m t L; [exists f; auto|].
  destruct f as [|f]; [cbn in L; lia|]. cbn [app search_key]. unfold dull in H.
  replace (c =? 34) with false by lia. replace (c =? 123) with false by lia.
  replace (c =? 125) with false by lia. replace (c =? 91) with false by lia. replace (c =? 58) with false by lia.
  apply IH. cbn in L. lia.
Qed.

(** A value inside the object that is not looked for. *)
Lemma search_value s v w d t : value_text s v -> ws w -> is_ws d = false -> d <> 58 ->
  forall f, (length (s ++ w ++ d :: t) < f)%nat ->
  exists f', (length (d :: t) < f')%nat /\
    search_key f key 1 0 false (s ++ w ++ d :: t) = search_key f' key 1 0 false (d :: t).
Proof.
  intros V W D1 D2 f L.
  assert (Dl : forall x, Forall dull x -> s = x -> exists f', (length (d :: t) < f')%nat /\
    search_key f key 1 0 false (s ++ w ++ d :: t) = search_key f' key 1 0 false (d :: t)).
  { intros x Dx ->. rewrite app_assoc. apply search_dull; [|now rewrite <- app_assoc].
    apply Forall_app; split; [exact Dx|now apply ws_dull]. }
  assert (W' : forall f0, (length (w ++ d :: t) < f0)%nat -> exists f', (length (d :: t) < f')%nat /\
    search_key f0 key 1 0 false (w ++ d :: t) = search_key f' key 1 0 false (d :: t)).
  { intros f0 L0. apply search_dull; [now apply ws_dull|exact L0]. }
  destruct f as [|f]; [lia|].
  destruct v as [|v|x|x|els|ms].
  - apply (Dl (b "null")); [repeat constructor; discriminate|]. now inversion V.
  - apply (Dl (if v then b "true" else b "false")); [destruct v; repeat constructor; discriminate|].
    destruct v; now inversion V.
  - inversion V; subst. apply (Dl x); [|reflexivity]. now apply inner_dull, number_inner.
  - inversion V as [| | | |x0 H| | | |]; subst.
    replace ((34 :: x ++ [34]) ++ w ++ d :: t) with (34 :: x ++ 34 :: w ++ d :: t) in *
      by (cbn; now rewrite <- app_assoc).
    cbn [search_key]. change (34 =? 34) with true. cbv iota. rewrite string_end_text by exact H.
    rewrite next_token_char by auto. replace (d =? 58) with false by lia.
    exists f. split; [|reflexivity]. cbn in L. rewrite app_length in L. cbn in L. rewrite app_length in L. cbn in *. lia.
  - pose proof (block_array _ _ (w ++ d :: t) V) as R.
    assert (Hd : exists r, s = 91 :: r) by (inversion V; eauto). destruct Hd as (r & ->).
    cbn [app search_key] in *. change (91 =? 34) with false. change (91 =? 123) with false.
    change (91 =? 125) with false. change (91 =? 91) with true. change (0 =? 1)%Z with false. cbv iota.
    rewrite R. apply W'. cbn in L. rewrite app_length in L. lia.
  - pose proof (block_object _ _ (w ++ d :: t) V) as R.
    assert (Hd : exists r, s = 123 :: r) by (inversion V; eauto). destruct Hd as (r & ->).
    cbn [app search_key] in *. change (123 =? 34) with false. change (123 =? 123) with true. cbv iota.
    rewrite R. apply W'. cbn in L. rewrite app_length in L. lia.
Qed.

(** The result of a search for the value [o]. *)
Definition finds (x : res (option found)) (o : option json) : Prop :=
  match o with
  | None => x = Ok None
  | Some v => exists w s u, x = Ok (Some (FAfter (w ++ s ++ u))) /\ ws w /\ value_text s v /\ ends u
  end.

Lemma search_end w f m : ws w -> (length w < f)%nat -> forall l k, search_key f key l k m w = Ok None.
Proof.
  intros W L l k. rewrite <- (app_nil_r w).
  destruct (search_dull w (ws_dull _ W) f l k m []) as (f' & L' & E); [now rewrite app_nil_r|].
  rewrite E. destruct f'; reflexivity.
Qed.

Lemma search_members s ms : members_text s ms -> forall f m w, ws w -> (length (s ++ 125%N :: w) < f)%nat ->
  finds (search_key f key 1 0 m (s ++ 125 :: w)) (lookup key ms).
Proof.
  induction 1 as [w1 k w2 w3 s w4 v W1 K W2 W3 V W4|w1 k w2 w3 s w4 v u ms W1 K W2 W3 V W4 H IH];
    intros f m w W L.
  - replace ((w1 ++ 34 :: k ++ 34 :: w2 ++ 58 :: w3 ++ s ++ w4) ++ 125 :: w)
      with (w1 ++ 34 :: k ++ 34 :: w2 ++ 58 :: w3 ++ s ++ w4 ++ 125 :: w) in *
      by (repeat (rewrite <- !app_assoc; cbn); reflexivity).
    edestruct (search_dull w1 (ws_dull _ W1)) as (f' & L' & ->); [exact L|]. clear f L.
    destruct f' as [|f]; [lia|]. cbn [search_key]. change (34 =? 34) with true. cbv iota.
    rewrite string_end_text by exact K. rewrite next_token_char by auto.
    change (58 =? 58) with true. change (1 <? 1)%Z with false. change (1 <=? 1)%Z with true. cbv iota.
    cbn [orb]. rewrite key_text. cbn [lookup]. destruct (unescape k) as [k'|]; [|reflexivity].
    destruct (beqb k' key).
    { change (0 =? 1 - 1)%Z with true. cbv iota. exists w3, s, (w4 ++ 125 :: w).
      repeat (split; [auto|]). apply ends_after; auto. }
    cbn in L'. rewrite app_length in L'. cbn in L'. rewrite app_length in L'. cbn in L'.
    edestruct (search_dull w3 (ws_dull _ W3) f 1%Z 0%Z false) as (f2 & L2 & ->); [lia|].
    edestruct (search_value s v w4 125 w V W4 eq_refl) as (f3 & L3 & ->); [discriminate|exact L2|].
    destruct f3 as [|f3]; [lia|]. cbn [search_key]. change (125 =? 34) with false. change (125 =? 123) with false.
    change (125 =? 125) with true. cbv iota. apply search_end; [exact W|]. cbn in L3. lia.
  - replace ((w1 ++ 34 :: k ++ 34 :: w2 ++ 58 :: w3 ++ s ++ w4 ++ 44 :: u) ++ 125 :: w)
      with (w1 ++ 34 :: k ++ 34 :: w2 ++ 58 :: w3 ++ s ++ w4 ++ 44 :: u ++ 125 :: w) in *
      by (repeat (rewrite <- !app_assoc; cbn); reflexivity).
    edestruct (search_dull w1 (ws_dull _ W1)) as (f' & L' & ->); [exact L|]. clear f L.
    destruct f' as [|f]; [lia|]. cbn [search_key]. change (34 =? 34) with true. cbv iota.
    rewrite string_end_text by exact K. rewrite next_token_char by auto.
    change (58 =? 58) with true. change (1 <? 1)%Z with false. change (1 <=? 1)%Z with true. cbv iota.
    cbn [orb]. rewrite key_text. cbn [lookup]. destruct (unescape k) as [k'|]; [|reflexivity].
    destruct (beqb k' key).
    { change (0 =? 1 - 1)%Z with true. cbv iota. exists w3, s, (w4 ++ 44 :: u ++ 125 :: w).
      repeat (split; [auto|]). apply ends_after; auto. }
    cbn in L'. rewrite app_length in L'. cbn in L'. rewrite app_length in L'. cbn in L'.
    edestruct (search_dull w3 (ws_dull _ W3) f 1%Z 0%Z false) as (f2 & L2 & ->); [lia|].
    edestruct (search_value s v w4 44 (u ++ 125 :: w) V W4 eq_refl) as (f3 & L3 & ->); [discriminate|exact L2|].
    destruct f3 as [|f3]; [lia|]. cbn [search_key]. change (44 =? 34) with false. change (44 =? 123) with false.
    change (44 =? 125) with false. change (44 =? 91) with false. change (44 =? 58) with false. cbv iota.
    apply IH; [exact W|]. cbn in L3. lia.
Qed.
End Search.

(** A Go result that is or points to a value of the tree. *)
Definition same_find (x : res (option jvalue)) (y : res (option json)) : Prop :=
  match y with
  | Panic => x = Panic
  | Ok None => x = Ok None
  | Ok (Some j) => exists v, x = Ok (Some v) /\ shows v j
  end.

Lemma nth_shows l els : Forall2 shows l els -> forall n,
  match nth_error els n with
  | None => nth_error l n = None
  | Some j => exists v, nth_error l n = Some v /\ shows v j
  end.
Proof.
  induction 1 as [|v j l els H _ IH]; intros [|n]; cbn; [reflexivity|reflexivity|eauto|apply IH].
Qed.

Lemma get_key_value key w1 s w2 j : ws w1 -> value_text s j -> ws w2 ->
  same_find (get_key key (w1 ++ s ++ w2)) (json_get key j).
Proof.
  intros W1 V W2. unfold get_key.
  edestruct (search_dull key w1 (ws_dull _ W1) (S (length (w1 ++ s ++ w2))) 0%Z 0%Z true (s ++ w2)) as (f & L & ->); [lia|].
  assert (Dl : forall x, Forall dull x -> s = x -> search_key f key 0 0 true (s ++ w2) = Ok None).
  { intros x D ->. edestruct (search_dull key x D f) as (f' & L' & ->); [exact L|]. now apply search_end. }
  destruct j as [|v|x|x|els|ms]; cbn [json_get].
  - rewrite (Dl (b "null")); [reflexivity|repeat constructor; discriminate|now inversion V].
  - rewrite (Dl (if v then b "true" else b "false"));
      [reflexivity|destruct v; repeat constructor; discriminate|destruct v; now inversion V].
  - inversion V; subst. rewrite (Dl x); [reflexivity| |reflexivity]. now apply inner_dull, number_inner.
  - inversion V as [| | | |x0 H| | | |]; subst. destruct f as [|f]; [lia|].
    replace ((34 :: x ++ [34]) ++ w2) with (34 :: x ++ 34 :: w2) by (cbn; now rewrite <- app_assoc).
    cbn [search_key]. change (34 =? 34) with true. cbv iota. rewrite string_end_text by exact H.
    rewrite next_token_ws by exact W2. reflexivity.
  - destruct f as [|f]; [lia|].
    pose proof (block_array _ _ w2 V) as R. destruct (array_each_value [] s els w2 (Forall_nil _) V) as (l & A & F).
    cbn [app] in A.
    assert (Hd : exists r, s = 91 :: r) by (inversion V; eauto). destruct Hd as (r & ->).
    cbn [app search_key] in *. change (91 =? 34) with false. change (91 =? 123) with false.
    change (91 =? 125) with false. change (91 =? 91) with true. change (0 =? 0)%Z with true. cbv iota.
    rewrite R, A. destruct key as [|k0 kt]; [reflexivity|].
    destruct (k0 =? 91).
    + destruct (rev kt) as [|e i]; [reflexivity|]. destruct (e =? 93); [|reflexivity].
      destruct (parse_int (rev i)) as [z|]; [|reflexivity].
      destruct (z <? 0)%Z; [reflexivity|]. cbn [fst bind same_find].
      pose proof (nth_shows _ _ F (Z.to_nat z)) as Nt. destruct (nth_error els (Z.to_nat z)).
      * destruct Nt as (v & -> & Sh). cbn. eauto.
      * now rewrite Nt.
    + rewrite search_end; [reflexivity|exact W2|]. cbn in L. rewrite app_length in L. lia.
  - destruct f as [|f]; [lia|].
    inversion V as [| | | | | | |w' W'|s' ms' H]; subst.
    + replace ((123 :: w' ++ [125]) ++ w2) with (123 :: w' ++ 125 :: w2) in * by (cbn; now rewrite <- app_assoc).
      cbn [search_key]. change (123 =? 34) with false. change (123 =? 123) with true. cbv iota.
      edestruct (search_dull key w' (ws_dull _ W') f) as (f2 & L2 & ->); [cbn in L; lia|].
      destruct f2 as [|f2]; [lia|]. cbn [search_key]. change (125 =? 34) with false. change (125 =? 123) with false.
      change (125 =? 125) with true. cbv iota. rewrite search_end; [reflexivity|exact W2|cbn in L2; lia].
    + replace ((123 :: s' ++ [125]) ++ w2) with (123 :: s' ++ 125 :: w2) in * by (cbn; now rewrite <- app_assoc).
      cbn [search_key]. change (123 =? 34) with false. change (123 =? 123) with true. cbv iota.
      pose proof (search_members key _ _ H f true w2 W2 ltac:(cbn in L; lia)) as Fd.
      change (0 + 1)%Z with 1%Z. unfold finds in Fd. unfold same_find.
      destruct (lookup key ms) as [v|].
      * destruct Fd as (w & x & u & -> & Ww & Vx & Eu). cbn [bind].
        destruct (get0_value w x v u Ww Vx Eu) as (y & ty & -> & Sh). eauto.
      * now rewrite Fd.
Qed.
