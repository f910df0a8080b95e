(** C64, C65, C89: the drawing of a query. *)
From Verif Require Import Bytes GoItoa ItoaProofs Oracles Ast ParseQuery Graph GraphSpec GraphProofs Utf8 TestOracle.
From Coq Require Import ZifyBool ZifyN ZifyNat Permutation.

(** ** C64 *)
Definition shown (n : node) (label : bytes) : Prop :=
  match n with
  | NNot _ => label = b "NOT"
  | NAnd _ _ => label = b "AND"
  | NOr _ _ => label = b "OR"
  | NExpr _ _ _ _ => True   (* see C65 and C89 *)
  end.
Lemma nodup_front {A} (l l' : list A) : NoDup (l ++ l') -> NoDup l.
Proof. induction l as [|x l IH]; cbn; intros D; [constructor|]. inversion D; subst. constructor; [rewrite in_app_iff in *; tauto|auto]. Qed.
Theorem C64_graph O q t : parse_plain O q = QOk t ->
  exists g name, query_graph O q = Some g /\
  (* names are distinct *)
  NoDup (map gn_name (ng_nodes g) ++ map ge_name (ng_edges g)) /\
  (forall a a', place t a -> place t a' -> name a = name a' -> a = a') /\
  (* the nodes *)
  length (ng_nodes g) = S (count_nodes t) /\
  (forall x, In x (ng_nodes g) -> gn_name x = b "start" \/ exists a n, sub t a = Some n /\ gn_name x = name a /\ shown n (gn_label x)) /\
  In (b "start") (map gn_name (ng_nodes g)) /\ (forall a, place t a -> In (name a) (map gn_name (ng_nodes g))) /\
  (* the edges *)
  length (ng_edges g) = count_nodes t /\ NoDup (map ge_to (ng_edges g)) /\
  (forall e, In e (ng_edges g) ->
     (ge_from e = b "start" /\ ge_to e = name []) \/
     exists a s, place t (a ++ [s]) /\ ge_from e = name a /\ ge_to e = name (a ++ [s]) /\ ge_wide e = match s with SLeft => true | SRight => false end) /\
  (forall a, place t a -> In (name a) (map ge_to (ng_edges g))) /\
  (* left before right *)
  (forall a, place t (a ++ [SRight]) -> exists x y z,
     map ge_to (ng_edges g) = x ++ name (a ++ [SLeft]) :: y ++ name (a ++ [SRight]) :: z).
Proof.
  intros P. unfold query_graph. rewrite P. exists (graph_of O t), (fun a => itoa (num t 0 a)). split; [reflexivity|].
  unfold graph_of. rewrite visit_ids. cbn [new_edge ng_next ng_nodes ng_edges]. rewrite N.add_0_l, app_nil_l.
  change (itoa 0) with (itoa (num t 0 [])). 
  assert (Nn : forall l, map gn_name (map (to_node O) l) = map itoa (map fst l)) by (intros l; now rewrite !map_map).
  assert (En : forall l, map ge_name (map to_edge l) = map itoa (map e_id l)) by (intros l; now rewrite !map_map).
  assert (Et : forall l, map ge_to (map to_edge l) = map itoa (map e_to l)) by (intros l; now rewrite !map_map).
  assert (Ei : FinFun.Injective itoa) by (intros x y; apply itoa_inj).
  pose proof (ids_permutation t 0) as Ip. pose proof (targets_permutation t 0) as Tp.
  assert (Nd : NoDup (map fst (node_ids t 0))).
  { pose proof (range_nodup 0 (used t)) as D. rewrite <- Ip in D. now apply nodup_front in D. }
  assert (Pl : forall a, place t a -> In (num t 0 a) (map fst (node_ids t 0))).
  { intros a Pa. destruct (sub t a) as [n|] eqn:E; [|now destruct Pa]. apply in_map_iff. exists (num t 0 a, n). split; [reflexivity|].
    apply node_ids_places. exists a, n. auto. }
  repeat split.
  - rewrite !map_app, Nn, En. cbn [map gn_name ge_name app].
    assert (D : NoDup (map itoa (range 0 (used t + 1)))) by (apply FinFun.Injective_map_NoDup; [exact Ei|apply range_nodup]).
    rewrite range_app, N.add_0_l in D. unfold range at 2 in D. cbn [N.to_nat] in D. change (seq 0 (Pos.to_nat 1)) with [0%nat] in D. cbn [map] in D.
    rewrite N.add_0_r in D. rewrite <- Ip in D. rewrite !map_app in D. constructor.
    + rewrite app_assoc. intros I. repeat (apply in_app_iff in I as [I|I]).
      * apply in_map_iff in I as (x & E & _). now apply itoa_not_start in E.
      * apply in_map_iff in I as (x & E & _). now apply itoa_not_start in E.
      * destruct I as [I|[]]. now apply itoa_not_start in I.
    + rewrite app_assoc. exact D.
  - intros a a' Pa Pa' E. apply itoa_inj in E. now apply num_inj in E.
  - cbn. now rewrite map_length, node_ids_count.
  - intros x [<-|I]; [now left|right]. apply in_map_iff in I as ((i & n) & <- & I).
    apply node_ids_places in I as (a & n' & E & X). injection X as -> ->. exists a, n'. split; [exact E|]. split; [reflexivity|]. now destruct n'.
  - now left.
  - intros a Pa. rewrite map_app, Nn. apply in_app_iff. right. apply in_map, Pl, Pa.
  - rewrite app_length, map_length. cbn [length].
    assert (L : length (edge_ids t 0) = pred (count_nodes t)).
    { apply Permutation_length in Tp. cbn [length] in Tp. rewrite !map_length, node_ids_count in Tp. lia. }
    rewrite L. destruct t; cbn; lia.
  - rewrite map_app, Et. cbn [map ge_to]. eapply Permutation_NoDup; [apply Permutation_cons_append|].
    change (num t 0 []) with 0. change (itoa 0 :: map itoa (map e_to (edge_ids t 0))) with (map itoa (0 :: map e_to (edge_ids t 0))).
    rewrite Tp. now apply FinFun.Injective_map_NoDup.
  - intros e I. apply in_app_iff in I as [I|[<-|[]]].
    + right. apply in_map_iff in I as (x & <- & I). apply (in_map ends) in I. apply edge_ids_places in I as (a & s & Pa & X).
      exists a, s. split; [exact Pa|]. unfold ends in X. injection X as X1 X2 X3. cbn. rewrite X1, X2, X3. repeat split.
    + left. split; reflexivity.
  - intros a Pa. specialize (Pl a Pa). rewrite <- Tp in Pl. rewrite map_app, Et. apply in_app_iff. destruct Pl as [E|I].
    + right. left. cbn. now rewrite <- E.
    + left. now apply in_map.
  - intros a Pa. destruct (edge_ids_order t 0 a Pa) as (x & y & z & E). rewrite map_app, Et, E.
    exists (map itoa x), (map itoa y), (map itoa z ++ [itoa (num t 0 [])]). rewrite map_app. cbn [map]. rewrite map_app. cbn [map ge_to].
    rewrite <- app_assoc. cbn [app]. now rewrite <- app_assoc.
Qed.
Print Assumptions C64_graph.
Example C64_example : exists g, query_graph test_oracle (b "!a:exists OR b:exists AND c:exists") = Some g /\
  map (fun x => (gn_name x, firstn 3 (gn_label x))) (ng_nodes g) =
    [(b "start", []); (b "0", b "OR"); (b "1", b "NOT"); (b "2", b "<TA"); (b "5", b "AND"); (b "6", b "<TA"); (b "8", b "<TA")] /\
  map (fun e => (ge_from e, ge_to e, ge_wide e)) (ng_edges g) =
    [(b "1", b "2", true); (b "0", b "1", true); (b "5", b "6", true); (b "5", b "8", false); (b "0", b "5", false); (b "start", b "0", true)].
Proof. eexists. split; [vm_compute; reflexivity|]. split; vm_compute; reflexivity. Qed.

(** ** C65: field names and values are not escaped *)
Theorem C65_field_refuted : exists q, forall O, exists o f vs p,
  parse_plain O q = QOk (NExpr o f vs p) /\ forall text, ~ markup (expr_label O o f vs) text.
Proof.
  exists (b """a<b"":exists"). intros O.
  exists EXS, [b "a<b"], [], {| p_line := 1; p_col := 1; p_off := 0; p_len := 12 |}.
  split; [vm_compute; reflexivity|]. intros text M. apply markup_brackets in M. vm_compute in M. discriminate M.
Qed.
Print Assumptions C65_field_refuted.
Theorem C65_value_refuted : exists q, forall O, exists o f vs p,
  parse_plain O q = QOk (NExpr o f vs p) /\ forall text, ~ markup (expr_label O o f vs) text.
Proof.
  exists (b "a:""x<y"""). intros O.
  exists EQ, [b "a"], [AStr (b "x<y") {| p_line := 1; p_col := 3; p_off := 2; p_len := 5 |}], {| p_line := 1; p_col := 1; p_off := 0; p_len := 7 |}.
  split; [vm_compute; reflexivity|]. intros text M. apply markup_brackets in M. vm_compute in M. discriminate M.
Qed.
Print Assumptions C65_value_refuted.

(** ** C89: labels without markup characters in names and values *)
Definition row_text (v : aval) (s : bytes) : bytes := b "

	" ++ kind_word v ++ b "
	" ++ s ++ b "
".
Definition label_text (o : op) (f : list bytes) (rows : list bytes) : bytes :=
  b "

	" ++ join (b ".") f ++ b "


	op
	" ++ op_text o ++ b "
" ++ match rows with [] => [] | _ => b "

	Values
" ++ concat rows end ++ b "

".

Lemma row_markup O v : Forall plain_byte (val_string O v) -> markup (value_row O v) (row_text v (val_string O v)).
Proof.
  intros F. unfold value_row, row_text. change (kind_word v) with (val_type v).
  assert (C : Forall plain_byte (val_color v)) by (destruct v; repeat constructor; discriminate).
  assert (T : Forall plain_byte (val_type v)) by (destruct v; repeat constructor; discriminate).
  set (s := val_string O v) in *. set (c := val_color v) in *. set (ty := val_type v) in *. clearbody s c ty. 
  assert (I : markup (b "<" ++ b "I" ++ [] ++ b ">" ++ ty ++ b "</" ++ b "I" ++ b ">") ty)
    by (apply markup_element; [discriminate|repeat constructor; discriminate|now left|constructor|now apply markup_plain]).
  assert (D1 : markup (b "<" ++ b "TD" ++ (b " BORDER=""1"" BGCOLOR=""" ++ c ++ b """") ++ b ">" ++ (b "<" ++ b "I" ++ [] ++ b ">" ++ ty ++ b "</" ++ b "I" ++ b ">") ++ b "</" ++ b "TD" ++ b ">") ty).
  { apply markup_element; [discriminate|repeat constructor; discriminate|right; eexists; reflexivity| |exact I].
    apply Forall_app. split; [repeat constructor; discriminate|]. apply Forall_app. split; [exact C|]. repeat constructor; discriminate. }
  assert (D2 : markup (b "<" ++ b "TD" ++ b " BORDER=""1"" BGCOLOR=""#FFFFFF""" ++ b ">" ++ s ++ b "</" ++ b "TD" ++ b ">") s)
    by (apply markup_element; [discriminate|repeat constructor; discriminate|right; eexists; reflexivity|repeat constructor; discriminate|now apply markup_plain]).
  assert (N1 : markup (b "
	") (b "
	")) by (apply markup_plain; repeat constructor; discriminate).
  assert (N0 : markup (b "
") (b "
")) by (apply markup_plain; repeat constructor; discriminate).
  pose proof (markup_element (b "TR") [] _ _ ltac:(discriminate) ltac:(repeat constructor; discriminate) ltac:(now left) ltac:(constructor)
    (markup_app _ _ _ _ N1 (markup_app _ _ _ _ D1 (markup_app _ _ _ _ N1 (markup_app _ _ _ _ D2 N0))))) as R.
  pose proof (markup_app _ _ _ _ N0 R) as W. clear -W.
  rewrite <- !app_assoc in W. cbn in W |- *. rewrite <- ?app_assoc in W. cbn in W. exact W.
Qed.

Lemma join_plain f : Forall (Forall plain_byte) f -> Forall plain_byte (join (b ".") f).
Proof.
  induction 1 as [|x [|y f] Hx Hf IH]; [constructor|exact Hx|]. cbn [join]. apply Forall_app. split; [exact Hx|].
  apply Forall_app. split; [repeat constructor; discriminate|exact IH].
Qed.
Theorem C89_label O o f vs : Forall (Forall plain_byte) f -> Forall (fun v => Forall plain_byte (val_string O v)) vs ->
  markup (expr_label O o f vs) (label_text o f (map (fun v => row_text v (val_string O v)) vs)).
Proof.
  intros Ff Fv. apply join_plain in Ff. unfold expr_label, label_text. set (fs := join _ f) in *. clearbody fs.
  assert (Op : markup (html_escape (op_text o)) (op_text o)) by (apply markup_escape; destruct o; repeat constructor; discriminate).
  set (os := html_escape (op_text o)) in *. set (ot := op_text o) in *. clearbody os ot.
  assert (N1 : markup (b "
	") (b "
	")) by (apply markup_plain; repeat constructor; discriminate).
  assert (N0 : markup (b "
") (b "
")) by (apply markup_plain; repeat constructor; discriminate).
  assert (Rows : markup (concat (map (value_row O) vs)) (concat (map (fun v => row_text v (val_string O v)) vs))).
  { clear -Fv. induction Fv as [|v vs Hv _ IH]; [constructor|]. cbn [map concat]. apply markup_app; [now apply row_markup|exact IH]. }
  assert (Td : forall attrs inner text, Forall plain_byte attrs -> (exists r, attrs = 32 :: r) -> markup inner text ->
    markup (b "<" ++ b "TD" ++ attrs ++ b ">" ++ inner ++ b "</" ++ b "TD" ++ b ">") text).
  { intros attrs inner text Fa Sa M. apply markup_element; [discriminate|repeat constructor; discriminate|now right|exact Fa|exact M]. }
  assert (Tr : forall inner text, markup inner text -> markup (b "<" ++ b "TR" ++ [] ++ b ">" ++ inner ++ b "</" ++ b "TR" ++ b ">") text).
  { intros inner text M. apply markup_element; [discriminate|repeat constructor; discriminate|now left|constructor|exact M]. }
  assert (R1 : markup (b "
<TR>
	<TD COLSPAN=""2"" CELLPADDING=""8"">" ++ fs ++ b "</TD>
</TR>") (b "

	" ++ fs ++ b "
")).
  { pose proof (Td (b " COLSPAN=""2"" CELLPADDING=""8""") fs fs ltac:(repeat constructor; discriminate) ltac:(eexists; reflexivity) (markup_plain _ Ff)) as D.
    pose proof (markup_app _ _ _ _ N0 (Tr _ _ (markup_app _ _ _ _ N1 (markup_app _ _ _ _ D N0)))) as W. clear -W.
    rewrite <- !app_assoc in W. cbn in W |- *. rewrite <- ?app_assoc in W. cbn in W. exact W. }
  assert (R2 : markup (b "
<TR>
	<TD CELLPADDING=""0"" BORDER=""1"">" ++ html_escape (b "op") ++ b "</TD>
	<TD CELLPADDING=""0"" BORDER=""1"">" ++ os ++ b "</TD>
</TR>") (b "

	op
	" ++ ot ++ b "
")).
  { pose proof (Td (b " CELLPADDING=""0"" BORDER=""1""") _ _ ltac:(repeat constructor; discriminate) ltac:(eexists; reflexivity) Op) as D.
    pose proof (Td (b " CELLPADDING=""0"" BORDER=""1""") (b "op") (b "op") ltac:(repeat constructor; discriminate) ltac:(eexists; reflexivity) (markup_plain (b "op") ltac:(repeat constructor; discriminate))) as D0.
    pose proof (markup_app _ _ _ _ N0 (Tr _ _ (markup_app _ _ _ _ N1 (markup_app _ _ _ _ D0 (markup_app _ _ _ _ N1 (markup_app _ _ _ _ D N0)))))) as W. clear -W.
    rewrite <- !app_assoc in W. cbn in W |- *. rewrite <- ?app_assoc in W. cbn in W. exact W. }
  assert (R3 : markup (b "
<TR>
	<TD COLSPAN=""2"">Values</TD>
</TR>") (b "

	Values
")).
  { pose proof (Td (b " COLSPAN=""2""") (b "Values") (b "Values") ltac:(repeat constructor; discriminate) ltac:(eexists; reflexivity) (markup_plain (b "Values") ltac:(repeat constructor; discriminate))) as D.
    pose proof (markup_app _ _ _ _ N0 (Tr _ _ (markup_app _ _ _ _ N1 (markup_app _ _ _ _ D N0)))) as W. exact W. }
  set (vp := match vs with [] => [] | _ => _ end) in |- *. set (vt := match map _ vs with [] => [] | _ => _ end).
  assert (V : markup vp vt).
  { unfold vp, vt. destruct vs as [|v vs]; [constructor|]. cbn [map]. apply markup_app; [exact R3|exact Rows]. }
  clearbody vp vt.
  pose proof (markup_element (b "TABLE") (b " BORDER=""0"" CELLBORDER=""1"" CELLSPACING=""0"" CELLPADDING=""2""") _ _ ltac:(discriminate) ltac:(repeat constructor; discriminate)
    ltac:(right; eexists; reflexivity) ltac:(repeat constructor; discriminate)
    (markup_app _ _ _ _ R1 (markup_app _ _ _ _ R2 (markup_app _ _ _ _ V N0)))) as T.
  pose proof (markup_app _ _ _ _ T N0) as W. clear -W.
  rewrite <- !app_assoc in W. cbn in W |- *. rewrite <- ?app_assoc in W. cbn in W. exact W.
Qed.
Print Assumptions C89_label.
Example C89_example : expr_label test_oracle GTE [b "a"; b "b"] [AInt 5 (b "5") no_position] = b "<TABLE BORDER=""0"" CELLBORDER=""1"" CELLSPACING=""0"" CELLPADDING=""2"">
<TR>
	<TD COLSPAN=""2"" CELLPADDING=""8"">a.b</TD>
</TR>
<TR>
	<TD CELLPADDING=""0"" BORDER=""1"">op</TD>
	<TD CELLPADDING=""0"" BORDER=""1"">&gt;=</TD>
</TR>
<TR>
	<TD COLSPAN=""2"">Values</TD>
</TR>
<TR>
	<TD BORDER=""1"" BGCOLOR=""#007a55""><I>integer</I></TD>
	<TD BORDER=""1"" BGCOLOR=""#FFFFFF"">5</TD>
</TR>
</TABLE>
".
Proof. reflexivity. Qed.
