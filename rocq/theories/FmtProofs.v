(** Printing of messages: the window and the parts of the query. *)
From Verif Require Import Bytes Utf8 Utf8Proofs Ast Fmtmsg.
From Coq Require Import ZifyBool ZifyN ZifyNat.
Local Open Scope Z_scope.

Lemma go_min_min x y : go_min x y = Z.min x y.
Proof. unfold go_min. destruct (Z.ltb_spec x y); lia. Qed.
Lemma go_max_max x y : go_max x y = Z.max x y.
Proof. unfold go_max. destruct (Z.ltb_spec y x); lia. Qed.

Lemma window n w s e lo ro : 0 < w < n -> 0 <= s <= e -> e <= n -> find_center n w s e = (lo, ro) ->
  0 <= lo <= s /\ lo <= ro <= lo + w /\ (e - s <= w -> e <= ro) /\ (ro <= n \/ (e = n /\ e - s + 1 = w /\ ro = n + 1)) /\
  w - 1 <= ro - lo.
Proof.
  intros W S E. unfold find_center. rewrite !go_min_min, !go_max_max. rewrite !Z.quot_div_nonneg by lia.
  replace (w >=? n) with false by lia.
  destruct (Z.geb_spec (e - s + 1) w); [intros [= <- <-]; lia|].
  set (size := Z.min w (e - s + 1 + Z.min s (n - e - 1))).
  assert (Hsz : size = Z.min w (e - s + 1 + Z.min s (n - e - 1))) by reflexivity. clearbody size.
  assert (0 <= size) by lia.
  repeat match goal with
  | |- context[if ?c then _ else _] => let E := fresh "E" in destruct c eqn:E
  end; intros [= <- <-]; Z.to_euclidean_division_equations; lia.
Qed.

Lemma slice_part pd x y z : pd_query pd = x ++ y ++ z -> Z.of_nat (length (pd_query pd)) <= pd_cap pd ->
  slice pd (Z.of_nat (length x)) (Z.of_nat (length x + length y)) = Some (encode y).
Proof.
  intros Q C. unfold slice. rewrite Q in C. rewrite !app_length in C.
  replace ((0 <=? Z.of_nat (length x)) && (Z.of_nat (length x) <=? Z.of_nat (length x + length y)) && (Z.of_nat (length x + length y) <=? pd_cap pd)) with true by lia.
  rewrite Q. replace (Z.to_nat (Z.of_nat (length x + length y) - Z.of_nat (length x))) with (length y) by lia. rewrite Nat2Z.id.
  rewrite <- !app_assoc, skipn_app, Nat.sub_diag, skipn_all. cbn [app skipn]. rewrite firstn_app, Nat.sub_diag, firstn_all. cbn [firstn]. now rewrite app_nil_r.
Qed.

(** The window around a highlighted part that it has room for. *)
Definition view_of (w : Z) (pre t post u before after v : list N) : Prop :=
  pre = u ++ before /\ post = after ++ v /\ (0 < w -> Z.of_nat (length (before ++ t ++ after)) <= w \/ u = [] /\ v = [] /\ Z.of_nat (length (pre ++ t ++ post)) <= w) /\
  (w <= 0 -> u = [] /\ v = []).

Definition shows_view (pd : print_data) (pre t post u before after v : list N) : Prop :=
  pd_query pd = pre ++ t ++ post /\ pd_has_hl pd = true /\ p_off (pd_pos pd) = Z.of_nat (length pre) /\ p_len (pd_pos pd) = Z.of_nat (length t) /\
  Z.of_nat (length (pd_query pd)) <= pd_cap pd /\ pd_lo pd = Z.of_nat (length u) /\ pd_ro pd = Z.of_nat (length (pre ++ t ++ after)) /\
  pre = u ++ before /\ post = after ++ v.

Definition ellipsis (l : list N) : bytes := match l with [] => [] | _ => b "..." end.
Lemma dots_pos l : dots (Z.of_nat (length l) >? 0) = ellipsis l.
Proof. destruct l; cbn [length]; [reflexivity|]. replace (Z.of_nat (S (length l)) >? 0) with true by lia. reflexivity. Qed.

Section View.
Context (pd : print_data) (pre t post u before after v : list N).
Hypothesis V : shows_view pd pre t post u before after v.

Lemma view_dots : dots (pd_ro pd <? query_len pd) = ellipsis v.
Proof.
  destruct V as (Q & _ & _ & _ & _ & _ & -> & _ & ->). unfold query_len. rewrite Q, !app_length, <- dots_pos. f_equal. lia.
Qed.

Lemma view_query : query_string pd = Some (ellipsis u ++ encode (before ++ t ++ after) ++ ellipsis v).
Proof.
  pose proof view_dots as Dv. destruct V as (Q & H & Of & L & C & Lo & Ro & -> & ->). unfold query_string.
  destruct ((pd_lo pd =? 0) && (pd_ro pd =? query_len pd)) eqn:E.
  - unfold query_len in E. rewrite Lo, Ro, Q, !app_length in E. destruct u; [|cbn in E; lia]. destruct v; [|cbn in E; lia].
    rewrite Q. cbn [ellipsis app]. now rewrite !app_nil_r.
  - rewrite Dv, Lo, Ro. rewrite dots_pos.
    replace (Z.of_nat (length ((u ++ before) ++ t ++ after))) with (Z.of_nat (length u + length (before ++ t ++ after))) by (rewrite !app_length; lia).
    rewrite (slice_part pd u (before ++ t ++ after) v); [reflexivity| |exact C]. rewrite Q, <- !app_assoc. reflexivity.
Qed.

Lemma view_pre : query_pre pd = Some (ellipsis u ++ encode before).
Proof.
  destruct V as (Q & H & Of & L & C & Lo & Ro & Ep & Ev). unfold query_pre. rewrite H, Lo, Of, dots_pos, Ep, app_length.
  rewrite (slice_part pd u before (t ++ post)); [reflexivity| |exact C]. now rewrite Q, Ep, <- app_assoc.
Qed.
Lemma view_hl : query_hl pd = Some (encode t).
Proof.
  destruct V as (Q & H & Of & L & C & Lo & Ro & Ep & Ev). unfold query_hl. rewrite H, Of, L, <- Nat2Z.inj_add.
  now rewrite (slice_part pd pre t post).
Qed.
Lemma view_post : query_post pd = Some (encode after ++ ellipsis v).
Proof.
  pose proof view_dots as Dv. destruct V as (Q & H & Of & L & C & Lo & Ro & Ep & Ev). unfold query_post. rewrite H, Of, L, Dv, Ro, <- Nat2Z.inj_add.
  replace (length pre + length t)%nat with (length (pre ++ t)) by now rewrite app_length.
  replace (Z.of_nat (length (pre ++ t ++ after))) with (Z.of_nat (length (pre ++ t) + length after)) by (rewrite !app_length; lia).
  rewrite (slice_part pd (pre ++ t) after v); [reflexivity| |exact C]. now rewrite Q, Ev, <- app_assoc.
Qed.
Lemma view_offset : repeat_byte 32 (hl_str_offset pd) = Some (repeat 32%N (length (ellipsis u ++ before))).
Proof.
  destruct V as (Q & H & Of & L & C & Lo & Ro & Ep & Ev). unfold repeat_byte, hl_str_offset. rewrite Of, Lo, Ep, !app_length.
  destruct u as [|c u']; cbn [ellipsis length].
  - replace (Z.of_nat 0 >? 0) with false by lia. match goal with |- context[if ?c <? 0 then _ else _] => replace (c <? 0) with false by lia end. do 2 f_equal. lia.
  - replace (Z.of_nat (S (length u')) >? 0) with true by lia. match goal with |- context[if ?c <? 0 then _ else _] => replace (c <? 0) with false by lia end. do 2 f_equal.
    change (length (b "...")) with 3%nat. lia.
Qed.
Lemma view_carets : repeat_byte 94 (hl_len pd) = Some (repeat 94%N (length t)).
Proof.
  destruct V as (Q & H & Of & L & C & Lo & Ro & Ep & Ev). unfold repeat_byte, hl_len. rewrite L.
  replace (Z.of_nat (length t) <? 0) with false by lia. now rewrite Nat2Z.id.
Qed.
End View.

Lemma split_at {A} (l : list A) n : (n <= length l)%nat -> exists x y, l = x ++ y /\ length x = n.
Proof. intros H. exists (firstn n l), (skipn n l). split; [symmetry; apply firstn_skipn|]. rewrite firstn_length. lia. Qed.

(** A position: the highlighted part [t] of a query, after [pre]. *)
Definition position_of (p : pos) (pre t : list N) : Prop :=
  p_line p <> 0 /\ p_off p = Z.of_nat (length pre) /\ p_len p = Z.of_nat (length t).

Lemma print_data_view w pre t post cap k msg p : scalars (pre ++ t ++ post) -> Z.of_nat (length (pre ++ t ++ post)) <= cap ->
  position_of p pre t -> (0 < w -> Z.of_nat (length t) <= w) -> ~ (post = [] /\ Z.of_nat (length t) + 1 = w /\ w < Z.of_nat (length (pre ++ t ++ post))) ->
  exists u before after v, view_of w pre t post u before after v /\
    shows_view (get_print_data w (encode (pre ++ t ++ post)) cap k msg p) pre t post u before after v.
Proof.
  intros Sc C (Pl & Po & Pn) Fit Edge. unfold get_print_data, max_width. rewrite decode_encode by exact Sc.
  assert (Np : pos_eqb p no_position = false) by (unfold pos_eqb; cbn [no_position p_line p_col p_off p_len]; replace (p_line p =? 0) with false by lia; reflexivity).
  rewrite Np. cbn [negb].
  assert (Whole : forall k0 m0, shows_view {| pd_kind := k0; pd_query := pre ++ t ++ post; pd_cap := cap; pd_message := m0; pd_has_hl := true;
     pd_pos := p; pd_lo := 0; pd_ro := Z.of_nat (length (pre ++ t ++ post)) |} pre t post [] pre post []).
  { intros k0 m0. unfold shows_view. cbn [pd_query pd_has_hl pd_pos pd_lo pd_ro pd_cap]. rewrite app_nil_r. repeat split; auto. }
  destruct (Z.ltb_spec w 0) as [Wn|Wn].
  - replace (0 >? 0) with false by lia. exists [], pre, post, []. split; [|apply Whole]. unfold view_of. rewrite app_nil_r. repeat split; auto; lia.
  - destruct (Z.gtb_spec w 0) as [Wp|W0].
    2:{ exists [], pre, post, []. split; [|apply Whole]. unfold view_of. rewrite app_nil_r. repeat split; auto; lia. }
    unfold truncated. cbn [pd_query pd_pos]. rewrite Np. replace (w <=? 0) with false by lia. cbn [orb].
    destruct (Z.leb_spec (Z.of_nat (length (pre ++ t ++ post))) w) as [Ln|Ln].
    + exists [], pre, post, []. split; [|apply Whole]. unfold view_of. rewrite app_nil_r. repeat split; auto; lia.
    + destruct (find_center _ _ _ _) as [lo ro] eqn:F. rewrite Po, Pn in F. apply window in F; [|lia|lia|rewrite !app_length; lia].
      destruct F as (H1 & H2 & H3 & H4 & H5). specialize (Fit Wp).
      assert (R1 : Z.of_nat (length pre) + Z.of_nat (length t) <= ro) by (apply H3; lia).
      assert (R2 : ro <= Z.of_nat (length (pre ++ t ++ post))).
      { destruct H4 as [H4|(E1 & E2 & E3)]; [exact H4|]. exfalso. apply Edge. rewrite !app_length in E1. repeat split; [destruct post; [reflexivity|cbn in E1; lia]|lia|exact Ln]. }
      rewrite !app_length in R2.
      destruct (split_at pre (Z.to_nat lo)) as (u & before & Eu & Lu); [lia|].
      destruct (split_at post (Z.to_nat ro - length pre - length t)) as (after & v & Ev & La); [lia|].
      exists u, before, after, v. split.
      * unfold view_of. split; [exact Eu|]. split; [exact Ev|]. split; [|intros; exfalso; lia]. intros _. left. assert (length pre = length u + length before)%nat by (rewrite Eu, app_length; lia). rewrite !app_length. lia.
      * unfold shows_view. cbn [pd_query pd_has_hl pd_pos pd_lo pd_ro pd_cap]. rewrite !app_length in C |- *. repeat split; auto; rewrite ?app_length; lia.
Qed.
