(** C106, C107: how a rejected query can be continued, and when it cannot. *)
From Verif Require Import Bytes Utf8 Utf8Proofs Oracles Ast PegSyntax Grammar Actions Engine EngineBasics CleanEval Bridge ClauseProofs GrammarSpec Visitors ParseQuery ParserTop
  Viable Listed Expected ExpectedSpec Prop_Viable Prop_Expected Complete TestOracle.
From Coq Require Import ZifyBool ZifyN ZifyNat.

Lemma eof_fails O m f s : match eval O m false [] (ERule REOF) f s with
  | RFail s3 => steps (pt s) s s3 /\ rec_at (at_ (pt s)) (fun w => w = "!."%string) s3 | _ => True end.
Proof.
  pose proof (eval_good O (pt s) m false [] (ERule REOF) f s eq_refl (Forall_nil _) (adv_refl _)) as G.
  destruct m as [|n]; [exact Logic.I|]. cbn [eval rules] in *. destruct n as [|n]; [exact Logic.I|]. cbn [eval] in *.
  destruct n as [|n]; [exact Logic.I|]. cbn [eval negb] in *. change (pt (tick (tick (tick s)))) with (pt s) in *. destruct (at_eof (pt s)) eqn:E; [exact Logic.I|].
  cbn [pop] in *. split; [apply G|]. apply rec_restore. exact (rec_fail true (at_ (pt s)) "." _ _ eq_refl).
Qed.

Theorem start_sim O O' U more after s : scalars U -> crosses U more = false ->
  run O (encode U ++ after) = RFail s -> fin U more s -> forall x, ~ query O' (U ++ more) x.
Proof.
  intros HU NC Er F x Q. set (q := encode U ++ after) in *. apply start_complete in Q as (fc & c' & Q & Ec). rewrite cstart_eq in Q.
  set (c0 := {| pre := []; crs := U ++ more |}) in *.
  destruct (cev O' [] (ERule RQuery) [] c0) as [vq fq cq| | | |] eqn:Eq; try discriminate Q. destruct (crs cq) as [|] eqn:Ecq; [|discriminate Q]. clear Q Ec.
  unfold run in Er. set (m := fuel_for q) in Er. clearbody m. cbn [rules] in Er. destruct m as [|m]; [discriminate|]. cbn [eval] in Er.
  destruct m as [|m]; [discriminate|]. set (ex := eval O m false []) in *. cbn [eval] in Er. fold ex in Er.
  assert (HR : R U more after (tick (tick (init_state q))) c0).
  { exists [], U. split; [reflexivity|]. unfold init_state, read_at. cbn. destruct (_ =? 10); destruct (_ && _); repeat split. }
  set (s1 := tick (tick (init_state q))) in *. clearbody s1.
  destruct (seq_loop ex (pt s1) [ELabel "query" (ERule RQuery); ERule REOF] [] [] s1) as [v f' s'|s'|s'|] eqn:El; try discriminate Er.
  injection Er as ->. cbn [seq_loop] in El.
  pose proof (sim O O' U more after HU NC m) as Sm. fold ex in Sm.
  specialize (Sm (S (need (ERule RQuery) c0)) [] (ELabel "query" (ERule RQuery)) [] [] s1 c0 eq_refl eq_refl (Forall_nil _) (Forall_nil _) HR).
  cbn [ceval] in Sm. change (ceval O' (need (ERule RQuery) c0) [] (ERule RQuery) [] c0) with (cev O' [] (ERule RQuery) [] c0) in Sm. rewrite Eq in Sm. fold ex in Sm.
  destruct (ex (ELabel "query" (ERule RQuery)) [] s1) as [v f2 s2|s2|s2|]; try discriminate El.
  - cbn [sim_out] in Sm.
    assert (B2 : match ex (ERule REOF) f2 s2 with RFail s3 => fin U more s3 -> fin U more s2 /\ rec_at (at_ (pt s2)) (fun w => w = "!."%string) s3 | _ => True end).
    { pose proof (eof_fails O m f2 s2) as B. unfold ex. destruct (eval O m false [] (ERule REOF) f2 s2) as [v3 f3 s3|s3|s3|]; auto. intros F3.
      destruct B as (B1 & B2). split; [|exact B2]. eapply fin_back; eauto. }
    destruct (ex (ERule REOF) f2 s2) as [v3 f3 s3|s3|s3|]; try discriminate El. injection El as <-. apply fin_restore in F. destruct (B2 F) as (F2 & Rc).
    assert (Hp : (P U <= off (at_ (pt s2)))%Z).
    { destruct (Sm F2) as [Hp|(t & t2 & HRt)]; [lia|]. pose proof HRt as (_ & _ & _ & H4). rewrite Ecq in H4. symmetry in H4. apply app_eq_nil in H4 as (-> & _).
      apply Rt_end in HRt. lia. }
    destruct (fin_rec U more NC _ _ _ F Rc Hp) as (Ep & w & -> & Hc & _).
    destruct (Sm F2) as [Hp2|(t & t2 & _ & _ & _ & H4)]; [lia|]. rewrite Ecq in H4. symmetry in H4. apply app_eq_nil in H4 as (_ & ->). discriminate Hc.
  - injection El as <-. cbn [sim_out] in Sm. apply Sm. eapply fin_restore; eauto.
Qed.

(** ** What the entries stand for *)
(** A keyword begins at the end of one text and ends in the other. *)
Definition straddles (before more : text) : Prop :=
  exists item w k1 k2 u r, In (item, w) written /\ tx w = k1 ++ k2 /\ k1 <> [] /\ k2 <> [] /\ before = u ++ k1 /\ more = k2 ++ r.
(** The text begins with what the entry stands for. *)
Definition begins (item : string) (more : text) : Prop :=
  exists t r, more = t ++ r /\ (stands_for item t \/ (item = anything /\ exists c, t = [c] /\ ~ ws_char c)).

Lemma lower_false l : map (lower_if false) l = l.
Proof. induction l as [|x l IH]; cbn; [reflexivity|]. now rewrite IH. Qed.
Lemma hits_false s want t : hits (ELit s false want) t = true -> t = s ++ skipn (length s) t.
Proof.
  cbn [hits]. destruct (list_eq_dec _ _ _) as [E|]; [|discriminate]. intros _. rewrite lower_false in E. rewrite <- E at 1. symmetry. apply firstn_skipn.
Qed.
Lemma hits_one s want t c : s = [c] -> hits (ELit s true want) t = true -> exists d r, t = d :: r /\ to_lower d = c.
Proof.
  intros ->. cbn [hits]. destruct (list_eq_dec _ _ _) as [E|]; [|discriminate]. intros _. destruct t as [|d r]; [discriminate E|]. cbn in E. injection E as E. eauto.
Qed.
Lemma hits_class want chars ranges ic invd t : hits (EClass want chars ranges ic invd) t = true -> exists c r, t = c :: r /\ xorb invd (in_class chars ranges (lower_if ic c)) = true.
Proof. cbn [hits]. destruct t as [|c r]; [discriminate|]. eauto. Qed.

Definition written_as (s : list N) (want : string) : bool :=
  existsb (fun p => String.eqb (fst p) want && if list_eq_dec N.eq_dec (tx (snd p)) s then true else false) written.
Lemma written_as_in s want : written_as s want = true -> exists w, In (want, w) written /\ tx w = s.
Proof.
  unfold written_as. intros H. apply existsb_exists in H as ([i w] & Hin & H). apply andb_true_iff in H as [H1 H2]. cbn [fst snd] in *.
  apply String.eqb_eq in H1 as ->. destruct (list_eq_dec _ _ _) as [E|]; [|discriminate H2]. eauto.
Qed.
Lemma atoms_written s want : In (ELit s false want) atoms -> exists w, In (want, w) written /\ tx w = s.
Proof.
  intros Hin. apply written_as_in.
  assert (A : forallb (fun a => match a with ELit s false want => written_as s want | _ => true end) atoms = true) by (vm_compute; reflexivity).
  rewrite forallb_forall in A. exact (A _ Hin).
Qed.

Lemma hits_begins a t : In a atoms -> hits a t = true -> begins (atom_want a) t.
Proof.
  intros Hin H. destruct a as [ | | | | |s ic want|want chars ranges ic invd| | | | | | | | ]; try discriminate H; cbn [atom_want].
  - destruct ic.
    + cbn [In atoms] in Hin. repeat (destruct Hin as [Hin|Hin]; [first [discriminate Hin|injection Hin as <- <-]|]); try contradiction;
        eapply hits_one in H; try reflexivity; destruct H as (d & r & -> & Hd); exists [d], r; (split; [reflexivity|]); left;
        unfold to_lower in Hd; [apply sf_t|apply sf_z]; repeat match type of Hd with context[if ?b then _ else _] => destruct b eqn:? end; lia.
    + destruct (atoms_written s want Hin) as (w & Hw & <-). apply hits_false in H. exists (tx w), (skipn (length (tx w)) t). split; [exact H|]. left. now constructor.
  - apply hits_class in H as (c & r & -> & H). exists [c], r. split; [reflexivity|].
    cbn [In atoms] in Hin. repeat (destruct Hin as [Hin|Hin]; [first [discriminate Hin|injection Hin as <- <- <- <- <-]|]); try contradiction;
      unfold lower_if, in_class, to_lower in H; cbn -[N.leb N.eqb N.add xorb] in H.
    + left. apply sf_name. unfold name_char, digit. repeat match type of H with context[if ?b then _ else _] => destruct b eqn:? end; lia.
    + right. split; [reflexivity|]. exists c. split; [reflexivity|]. unfold ws_char. lia.
    + left. apply sf_escape. cbn. lia.
    + left. apply sf_hex. unfold hex, digit. repeat match type of H with context[if ?b then _ else _] => destruct b eqn:? end; lia.
    + left. apply sf_digit. unfold digit. lia.
    + left. apply sf_order. lia.
    + left. apply sf_space. unfold ws_char. lia.
Qed.
Lemma crosses_straddles u t : crosses u t = true -> straddles u t.
Proof.
  unfold crosses. intros H. apply existsb_exists in H as (a & Hin & H). destruct a as [ | | | | |s ic want| | | | | | | | | ]; try discriminate H.
  apply existsb_exists in H as (k & Hk & H). apply in_seq in Hk. apply andb_true_iff in H as [Hl H]. apply Nat.leb_le in Hl.
  assert (E : ic = false).
  { destruct ic; [|reflexivity]. exfalso. cbn [In atoms] in Hin. repeat (destruct Hin as [Hin|Hin]; [first [discriminate Hin|injection Hin as <- <-]|]); try contradiction; cbn in Hk; lia. }
  subst ic. destruct (atoms_written s want Hin) as (w & Hw & <-). apply hits_false in H.
  set (k1 := skipn (length u - k) u) in *. assert (L1 : length k1 = k) by (unfold k1; rewrite skipn_length; lia).
  assert (E1 : k1 = firstn k (tx w)).
  { apply (f_equal (firstn k)) in H. rewrite firstn_app, <- L1, firstn_all, Nat.sub_diag, firstn_O, app_nil_r in H. rewrite H, L1, firstn_app.
    replace (k - length (tx w))%nat with 0%nat by lia. now rewrite firstn_O, app_nil_r. }
  exists want, w, k1, (skipn k (tx w)), (firstn (length u - k) u), (skipn (length (tx w)) (k1 ++ t)).
  split; [exact Hw|]. split; [rewrite E1; symmetry; apply firstn_skipn|]. split; [intros E0; rewrite E0 in L1; cbn in L1; lia|].
  split; [intros E0; apply (f_equal (@length N)) in E0; rewrite skipn_length in E0; cbn in E0; lia|].
  split; [unfold k1; symmetry; apply firstn_skipn|].
  apply (f_equal (skipn k)) in H. rewrite skipn_app, <- L1, skipn_all, Nat.sub_diag, skipn_O, L1 in H. cbn [app] in H. rewrite H at 1.
  rewrite skipn_app. replace (k - length (tx w))%nat with 0%nat by lia. now rewrite skipn_O.
Qed.

(** ** C106 *)
(** Every accepted query that begins with the text before the place goes on with an entry of
    the list, or a keyword straddles the place. *)
Theorem C106_complete O q e l before after : parse_plain O q = QErr (QSyntax e) -> pe_kind e = KNoMatch l ->
  q = encode before ++ after -> scalars before -> p_off (qerr_pos (QSyntax (E := unit) (T := unit) e)) = Z.of_nat (length (encode before)) ->
  forall O' more x, query O' (before ++ more) x ->
    (more = [] /\ In "EOF"%string (error_expected (pe_kind e))) \/
    (exists item, In item (error_expected (pe_kind e)) /\ begins item more) \/
    straddles before more.
Proof.
  intros P K -> Sb Ep O' more x Q.
  unfold parse_plain, parse_query in P. destruct (parse O (encode before ++ after)) as [v|e0 es|] eqn:E; [|cbn in P; injection P as ->|discriminate P].
  { destruct v; try discriminate P. destruct (walk_validator O n); discriminate P. }
  assert (Nk : pe_kind e <> KInvalidEncoding) by (rewrite K; discriminate).
  destruct (first_error_full O _ e es E Nk) as (bf & af & _ & _ & _ & _ & _ & H5). destruct (H5 l K) as (_ & Ha & s & Er & Es & Em & El). clear H5.
  destruct (crosses before more) eqn:Ec; [right; right; now apply crosses_straddles|].
  rewrite K. cbn [error_expected]. destruct (existsb (fun w => covers w more) l) eqn:Ex.
  - apply existsb_exists in Ex as (w & Hw & Hc). unfold covers in Hc. apply orb_true_iff in Hc as [Hc|Hc].
    + apply andb_true_iff in Hc as [E1 E2]. apply String.eqb_eq in E1 as ->. destruct more; [|discriminate E2]. left. split; [reflexivity|]. apply expected_In. auto.
    + apply existsb_exists in Hc as (a & Hin & Hc). apply andb_true_iff in Hc as [E1 E2]. apply String.eqb_eq in E1 as <-. right. left.
      exists (atom_want a). split; [|now apply hits_begins]. apply expected_In. left. split; [exact Hw|]. intros E1.
      cbn [In atoms] in Hin. repeat (destruct Hin as [<-|Hin]; [discriminate E1|]). contradiction.
  - exfalso. refine (start_sim O O' before more after s Sb Ec Er _ x Q). split; [exact Es|].
    cbn in Ep. unfold Complete.P. rewrite Em. split; [lia|]. intros _ w Hw. rewrite El in Hw. rewrite forallb_forall in Ha. specialize (Ha w Hw). apply negb_true_iff in Ha. split; [|exact Ha].
    destruct (covers w more) eqn:Ew; [|reflexivity]. assert (existsb (fun w => covers w more) l = true); [|congruence]. apply existsb_exists. eauto.
Qed.

(** ** C107 *)
(** No accepted query begins with a text that reaches beyond the place, unless a keyword
    straddles the end of that text. *)
Theorem C107_no_repair O q e l text after : parse_plain O q = QErr (QSyntax e) -> pe_kind e = KNoMatch l ->
  q = encode text ++ after -> scalars text -> (p_off (qerr_pos (QSyntax (E := unit) (T := unit) e)) < Z.of_nat (length (encode text)))%Z ->
  forall O' more x, query O' (text ++ more) x -> straddles text more.
Proof.
  intros P K -> Sb Ep O' more x Q.
  unfold parse_plain, parse_query in P. destruct (parse O (encode text ++ after)) as [v|e0 es|] eqn:E; [|cbn in P; injection P as ->|discriminate P].
  { destruct v; try discriminate P. destruct (walk_validator O n); discriminate P. }
  assert (Nk : pe_kind e <> KInvalidEncoding) by (rewrite K; discriminate).
  destruct (first_error_full O _ e es E Nk) as (bf & af & _ & _ & _ & _ & _ & H5). destruct (H5 l K) as (_ & _ & s & Er & Es & Em & El). clear H5.
  destruct (crosses text more) eqn:Ec; [now apply crosses_straddles|].
  exfalso. refine (start_sim O O' text more after s Sb Ec Er _ x Q). split; [exact Es|]. cbn in Ep. unfold Complete.P. rewrite Em. split; lia.
Qed.

(** Behind a closing parenthesis that nothing opened, whatever is added. *)
Example C107_example : (exists e l, parse_plain test_oracle (b "a:1) AND b:2") = QErr (QSyntax e) /\ pe_kind e = KNoMatch l /\
    p_off (qerr_pos (QSyntax (E := unit) (T := unit) e)) = 3%Z) /\
  forall O' more x, ~ query O' (tx "a:1)" ++ more) x.
Proof.
  assert (P : exists e l, parse_plain test_oracle (b "a:1) AND b:2") = QErr (QSyntax e) /\ pe_kind e = KNoMatch l /\
    p_off (qerr_pos (QSyntax (E := unit) (T := unit) e)) = 3%Z) by (do 2 eexists; split; [vm_compute; reflexivity|]; split; reflexivity).
  split; [exact P|]. destruct P as (e & l & P & K & Ep). intros O' more x Q.
  destruct (C107_no_repair _ _ e l (tx "a:1)") (b " AND b:2") P K eq_refl ltac:(repeat constructor) ltac:(rewrite Ep; reflexivity) _ _ _ Q)
    as (item & w & k1 & k2 & u & r & Hw & Ew & N1 & N2 & E1 & _).
  destruct (exists_last N1) as (k & c & ->). rewrite app_assoc in E1. change (tx "a:1)") with (tx "a:1" ++ [41]) in E1. apply app_inj_tail in E1 as (_ & <-).
  destruct k2 as [|y k2]; [congruence|]. cbn [In written] in Hw.
  assert (Hl : (2 <= length (tx w))%nat) by (rewrite Ew, !app_length; cbn; lia).
  assert (Hin : In 41 (tx w)) by (rewrite Ew, !in_app_iff; cbn; auto).
  repeat (destruct Hw as [Hw|Hw]; [injection Hw as <- <-; first [cbn in Hl; lia|cbn in Hin; repeat (destruct Hin as [Hin|Hin]; [discriminate Hin|]); contradiction]|]).
  contradiction.
Qed.
(** The exception: the error is placed before AN, and the query is accepted when D and a
    comparison are added. *)
Example C107_keyword : (exists e l, parse_plain test_oracle (b "a:1 AN") = QErr (QSyntax e) /\ pe_kind e = KNoMatch l /\
    p_off (qerr_pos (QSyntax (E := unit) (T := unit) e)) = 4%Z) /\ exists x, query test_oracle (tx "a:1 AN" ++ tx "D b:2") x.
Proof.
  split; [do 2 eexists; split; [vm_compute; reflexivity|]; split; reflexivity|]. eexists. apply parse_query_iff.
  - apply Forall_forall, forallb_forall. vm_compute. reflexivity.
  - vm_compute. reflexivity.
Qed.
(** A query cut off after a blank can only go on with what is listed: no comma, for example. *)
Example C106_example : (exists e l, parse_plain test_oracle (b "(a:exists ") = QErr (QSyntax e) /\ pe_kind e = KNoMatch l /\
    p_off (qerr_pos (QSyntax (E := unit) (T := unit) e)) = 10%Z /\ error_expected (pe_kind e) = [""")"""; """AND"""; """OR"""; "[ \n\t\r]"]%string) /\
  (exists x, query test_oracle (tx "(a:exists " ++ tx "OR b:2)") x) /\ forall O' more x, ~ query O' (tx "(a:exists " ++ tx "," ++ more) x.
Proof.
  assert (P : exists e l, parse_plain test_oracle (b "(a:exists ") = QErr (QSyntax e) /\ pe_kind e = KNoMatch l /\
    p_off (qerr_pos (QSyntax (E := unit) (T := unit) e)) = 10%Z /\ error_expected (pe_kind e) = [""")"""; """AND"""; """OR"""; "[ \n\t\r]"]%string)
    by (do 2 eexists; split; [vm_compute; reflexivity|]; split; [reflexivity|]; split; vm_compute; reflexivity).
  split; [exact P|]. split.
  { eexists. apply parse_query_iff; [apply Forall_forall, forallb_forall; vm_compute; reflexivity|vm_compute; reflexivity]. }
  destruct P as (e & l & P & K & Ep & Ex). intros O' more x Q.
  destruct (C106_complete _ _ e l (tx "(a:exists ") [] P K eq_refl ltac:(repeat constructor) ltac:(rewrite Ep; reflexivity) _ _ _ Q)
    as [(E & _)|[(item & Hi & t & r & E & H)|(item & w & k1 & k2 & u & r & Hw & Ew & N1 & N2 & E1 & _)]].
  - discriminate E.
  - rewrite Ex in Hi. assert (Hs : stands_for item t) by (destruct H as [H|(-> & _)]; [exact H|cbn in Hi; repeat (destruct Hi as [Hi|Hi]; [discriminate Hi|]); contradiction]).
    clear H. cbn [app tx] in E. cbn in Hi. repeat (destruct Hi as [<-|Hi]; [item_inv Hs; try discriminate E; injection E as <- _; unfold ws_char in Hc; lia|]). contradiction.
  - destruct (exists_last N1) as (k & c & ->). rewrite app_assoc in E1. change (tx "(a:exists ") with (tx "(a:exists" ++ [32]) in E1. apply app_inj_tail in E1 as (_ & <-).
    destruct k2 as [|y k2]; [congruence|]. cbn [In written] in Hw.
    assert (Hl : (2 <= length (tx w))%nat) by (rewrite Ew, !app_length; cbn; lia).
    assert (Hin : In 32 (tx w)) by (rewrite Ew, !in_app_iff; cbn; auto).
    repeat (destruct Hw as [Hw|Hw]; [injection Hw as <- <-; first [cbn in Hl; lia|cbn in Hin; repeat (destruct Hin as [Hin|Hin]; [discriminate Hin|]); contradiction]|]).
    contradiction.
Qed.
