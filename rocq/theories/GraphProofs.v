(** Proofs about the drawing of queries. *)
From Verif Require Import Bytes GoItoa ItoaProofs Oracles Ast ParseQuery Graph GraphSpec.
From Coq Require Import ZifyBool ZifyN ZifyNat Permutation.

(** ** Decimal names *)
Lemma itoa_not_start n : itoa n <> b "start".
Proof.
  intros E. destruct (itoa_value n) as (_ & _ & F). rewrite E in F. inversion F. cbn in *. lia.
Qed.

(** ** The numbers given to places *)
Fixpoint used (t : node) : N :=
  match t with
  | NNot e => 2 + used e
  | NAnd l r | NOr l r => 3 + used l + used r
  | NExpr _ _ _ _ => 1
  end.
Fixpoint num (t : node) (k : N) (a : list step) {struct a} : N :=
  match a with
  | [] => k
  | SLeft :: a =>
    match t with NNot e => num e (k + 1) a | NAnd l _ | NOr l _ => num l (k + 1) a | _ => k end
  | SRight :: a =>
    match t with NAnd l r | NOr l r => num r (k + 2 + used l) a | _ => k end
  end.
Fixpoint node_ids (t : node) (k : N) : list (N * node) :=
  (k, t) :: match t with
  | NNot e => node_ids e (k + 1)
  | NAnd l r | NOr l r => node_ids l (k + 1) ++ node_ids r (k + 2 + used l)
  | NExpr _ _ _ _ => []
  end.
(** name, from, to, wide *)
Record eid := { e_id : N; e_from : N; e_to : N; e_wide : bool }.
Fixpoint edge_ids (t : node) (k : N) : list eid :=
  match t with
  | NNot e => edge_ids e (k + 1) ++ [{| e_id := k + 1 + used e; e_from := k; e_to := k + 1; e_wide := true |}]
  | NAnd l r | NOr l r =>
    edge_ids l (k + 1) ++ {| e_id := k + 1 + used l; e_from := k; e_to := k + 1; e_wide := true |} ::
    edge_ids r (k + 2 + used l) ++ [{| e_id := k + 2 + used l + used r; e_from := k; e_to := k + 2 + used l; e_wide := false |}]
  | NExpr _ _ _ _ => []
  end.

Section WithOracles.
Context (O : oracles).
Definition to_node (x : N * node) : gnode := {| gn_name := itoa (fst x); gn_label := node_label O (snd x) |}.
Definition to_edge (e : eid) : gedge :=
  {| ge_name := itoa (e_id e); ge_from := itoa (e_from e); ge_to := itoa (e_to e); ge_wide := e_wide e |}.

Lemma record_eq k k' ns ns' es es' : k = k' -> ns = ns' -> es = es' ->
  {| ng_next := k; ng_nodes := ns; ng_edges := es |} = {| ng_next := k'; ng_nodes := ns'; ng_edges := es' |}.
Proof. congruence. Qed.
Lemma visit_ids t : forall g, visit_nodes O t g =
  (itoa (ng_next g),
   {| ng_next := ng_next g + used t;
      ng_nodes := ng_nodes g ++ map to_node (node_ids t (ng_next g));
      ng_edges := ng_edges g ++ map to_edge (edge_ids t (ng_next g)) |}).
Proof.
  induction t as [l IHl r IHr|l IHl r IHr|e IHe|o f vs p]; intros [k ns es]; cbn [visit_nodes new_node ng_next ng_nodes ng_edges used node_ids edge_ids].
  1,2: rewrite IHl; cbn [new_edge ng_next ng_nodes ng_edges]; rewrite IHr; cbn [new_edge ng_next ng_nodes ng_edges];
    replace (k + 1 + used l + 1) with (k + 2 + used l) by lia;
    apply (f_equal2 pair); [reflexivity|]; apply record_eq; cbn [ng_next ng_nodes ng_edges]; [lia|rewrite <- !app_assoc; cbn [app map]; rewrite map_app; reflexivity|
      rewrite map_app; cbn [map]; rewrite map_app, <- !app_assoc; reflexivity].
  - rewrite IHe. cbn [new_edge ng_next ng_nodes ng_edges]. apply (f_equal2 pair); [reflexivity|]. apply record_eq; cbn [ng_next ng_nodes ng_edges]; [lia|rewrite <- app_assoc; reflexivity|rewrite map_app, <- !app_assoc; reflexivity].
  - apply (f_equal2 pair); [reflexivity|]. apply record_eq; cbn [ng_next ng_nodes ng_edges]; [lia|reflexivity|now rewrite app_nil_r].
Qed.

Definition range (k n : N) : list N := map (fun i => k + N.of_nat i) (seq 0 (N.to_nat n)).
Lemma range_app k n m : range k (n + m) = range k n ++ range (k + n) m.
Proof.
  unfold range. rewrite N2Nat.inj_add, seq_app, map_app. f_equal. cbn [plus]. apply nth_ext with 0 0; [now rewrite !map_length, !seq_length|].
  intros i H. rewrite map_length, seq_length in H.
  assert (Nth : forall (f : nat -> N) s, nth i (map f (seq s (N.to_nat m))) 0 = f (s + i)%nat).
  { intros f s. rewrite nth_indep with (d' := f 0%nat) by (now rewrite map_length, seq_length). rewrite map_nth. now rewrite seq_nth. }
  rewrite !Nth. cbv beta. lia.
Qed.
Lemma range_one k : range k 1 = [k].
Proof. unfold range. change (seq 0 (N.to_nat 1)) with [0%nat]. cbn [map]. f_equal. apply N.add_0_r. Qed.
Lemma in_range x k n : In x (range k n) <-> k <= x < k + n.
Proof.
  unfold range. rewrite in_map_iff. split.
  - intros (i & <- & I). apply in_seq in I. lia.
  - intros H. exists (N.to_nat (x - k)). split; [lia|]. apply in_seq. lia.
Qed.
Lemma range_nodup k n : NoDup (range k n).
Proof. unfold range. apply FinFun.Injective_map_NoDup; [intros i j; lia|apply seq_NoDup]. Qed.

Lemma used_pos t : 1 <= used t.
Proof. destruct t; cbn [used]; lia. Qed.

Lemma ids_permutation t : forall k, Permutation (map fst (node_ids t k) ++ map e_id (edge_ids t k)) (range k (used t)).
Proof.
  assert (Two : forall l r k, (forall k, Permutation (map fst (node_ids l k) ++ map e_id (edge_ids l k)) (range k (used l))) ->
    (forall k, Permutation (map fst (node_ids r k) ++ map e_id (edge_ids r k)) (range k (used r))) ->
    Permutation (map fst ((k, NAnd l r) :: node_ids l (k + 1) ++ node_ids r (k + 2 + used l)) ++ map e_id (edge_ids (NAnd l r) k)) (range k (3 + used l + used r))).
  { intros l r k IHl IHr. cbn [edge_ids map fst]. repeat (rewrite map_app || cbn [map]). cbn [e_id].
    replace (3 + used l + used r) with (1 + (used l + (1 + (used r + 1)))) by lia.
    rewrite (range_app k), (range_app (k + 1)), (range_app (k + 1 + used l)), (range_app (k + 1 + used l + 1)), !range_one.
    replace (k + 1 + used l + 1) with (k + 2 + used l) by lia.
    rewrite <- (IHl (k + 1)), <- (IHr (k + 2 + used l)). cbn [app]. constructor.
    rewrite <- !app_assoc. apply Permutation_app_head. rewrite Permutation_app_swap_app. apply Permutation_app_head.
    symmetry. apply Permutation_cons_app. rewrite <- ?app_assoc. apply Permutation_app_head. reflexivity. }
  induction t as [l IHl r IHr|l IHl r IHr|e IHe|o f vs p]; intros k.
  1,2: exact (Two l r k IHl IHr).
  - cbn [node_ids edge_ids map used fst]. rewrite map_app. cbn [map e_id].
    replace (2 + used e) with (1 + (used e + 1)) by lia. rewrite (range_app k), (range_app (k + 1)), !range_one.
    rewrite <- (IHe (k + 1)). cbn [app]. constructor. now rewrite <- app_assoc.
  - cbn [node_ids edge_ids map fst used app]. now rewrite range_one.
Qed.

Lemma targets_permutation t : forall k, Permutation (k :: map e_to (edge_ids t k)) (map fst (node_ids t k)).
Proof.
  induction t as [l IHl r IHr|l IHl r IHr|e IHe|o f vs p]; intros k; cbn [node_ids edge_ids map fst].
  1,2: constructor; repeat (rewrite map_app || cbn [map]); cbn [e_to]; rewrite <- (IHl (k + 1)), <- (IHr (k + 2 + used l));
    cbn [app]; symmetry; apply Permutation_cons_app; apply Permutation_app_head; apply Permutation_cons_append.
  - constructor. rewrite map_app. cbn [map e_to]. rewrite <- (IHe (k + 1)). symmetry. apply Permutation_cons_append.
  - reflexivity.
Qed.

Lemma node_ids_count t : forall k, length (node_ids t k) = count_nodes t.
Proof. induction t; intros k; cbn; rewrite ?app_length; auto. Qed.

(** *** Places have the numbers *)
Lemma place_nil t : place t [].
Proof. discriminate. Qed.
Lemma num_range t : forall k a, place t a -> k <= num t k a < k + used t.
Proof.
  induction t as [l IHl r IHr|l IHl r IHr|e IHe|o f vs p]; intros k [|[|] a] P; cbn [num used]; try lia; unfold place in P; cbn in P; try congruence.
  1,3: specialize (IHl (k + 1) a P); lia.
  1,2: specialize (IHr (k + 2 + used l) a P); lia.
  specialize (IHe (k + 1) a P); lia.
Qed.
Lemma or_place l r a : place (NOr l r) a -> place (NAnd l r) a.
Proof. destruct a as [|[|] a]; [discriminate|exact id|exact id]. Qed.
Lemma or_place' l r a : place (NAnd l r) a -> place (NOr l r) a.
Proof. destruct a as [|[|] a]; [discriminate|exact id|exact id]. Qed.
Lemma or_num l r k a : num (NOr l r) k a = num (NAnd l r) k a.
Proof. now destruct a as [|[|] a]. Qed.
Lemma num_inj t : forall k a a', place t a -> place t a' -> num t k a = num t k a' -> a = a'.
Proof.
  assert (Two : forall l r k a a', (forall k a a', place l a -> place l a' -> num l k a = num l k a' -> a = a') ->
    (forall k a a', place r a -> place r a' -> num r k a = num r k a' -> a = a') ->
    place (NAnd l r) a -> place (NAnd l r) a' -> num (NAnd l r) k a = num (NAnd l r) k a' -> a = a').
  { intros l r k [|s a] [|s' a'] IHl IHr P P'; unfold place in P, P'; [reflexivity| | |].
    - intros E. exfalso. destruct s'; cbn in P', E; [pose proof (num_range _ (k + 1) a' P')|pose proof (num_range _ (k + 2 + used l) a' P')]; lia.
    - intros E. exfalso. destruct s; cbn in P, E; [pose proof (num_range _ (k + 1) a P)|pose proof (num_range _ (k + 2 + used l) a P)]; lia.
    - destruct s, s'; cbn in P, P'; cbn [num]; intros E.
      + f_equal. now apply (IHl (k + 1)).
      + exfalso. pose proof (num_range _ (k + 1) a P). pose proof (num_range _ (k + 2 + used l) a' P'). lia.
      + exfalso. pose proof (num_range _ (k + 1) a' P'). pose proof (num_range _ (k + 2 + used l) a P). lia.
      + f_equal. now apply (IHr (k + 2 + used l)). }
  induction t as [l IHl r IHr|l IHl r IHr|e IHe|o f vs p]; intros k a a' P P' E.
  - exact (Two l r k a a' IHl IHr P P' E).
  - rewrite !or_num in E. exact (Two l r k a a' IHl IHr (or_place _ _ _ P) (or_place _ _ _ P') E).
  - unfold place in P, P'. destruct a as [|[|] a], a' as [|[|] a']; cbn in P, P'; try congruence; cbn [num] in E.
    + pose proof (num_range _ (k + 1) a' P'). lia.
    + pose proof (num_range _ (k + 1) a P). lia.
    + f_equal. now apply (IHe (k + 1)).
  - destruct a as [|[|] a]; [|now destruct P|now destruct P]. destruct a' as [|[|] a']; [reflexivity|now destruct P'|now destruct P'].
Qed.

Lemma node_ids_places t : forall k x, In x (node_ids t k) <-> exists a n, sub t a = Some n /\ x = (num t k a, n).
Proof.
  assert (Two : forall l r k x, (forall k x, In x (node_ids l k) <-> exists a n, sub l a = Some n /\ x = (num l k a, n)) ->
    (forall k x, In x (node_ids r k) <-> exists a n, sub r a = Some n /\ x = (num r k a, n)) ->
    In x (node_ids l (k + 1) ++ node_ids r (k + 2 + used l)) <->
    exists s a n, sub (NAnd l r) (s :: a) = Some n /\ x = (num (NAnd l r) k (s :: a), n)).
  { intros l r k x IHl IHr. rewrite in_app_iff, IHl, IHr. split.
    - intros [(a & n & E & X)|(a & n & E & X)]; [exists SLeft|exists SRight]; exists a, n; auto.
    - intros ([|] & a & n & E & X); [left|right]; exists a, n; auto. }
  induction t as [l IHl r IHr|l IHl r IHr|e IHe|o f vs p]; intros k x; cbn [node_ids].
  1,2: split;
    [intros [<-|I]; [eexists [], _; split; reflexivity|]; apply (Two l r k x IHl IHr) in I; destruct I as (s & a & n & E & X); exists (s :: a), n; auto|
     intros ([|s a] & n & E & X); [left; injection E as <-; now subst x|right; apply (Two l r k x IHl IHr); exists s, a, n; auto]].
  - split.
    + intros [<-|I]; [exists [], (NNot e); split; reflexivity|]. apply IHe in I as (a & n & E & X). exists (SLeft :: a), n. auto.
    + intros ([|[|] a] & n & E & X); [left; injection E as <-; now subst x| |discriminate E]. right. apply IHe. exists a, n. auto.
  - split.
    + intros [<-|[]]. exists [], (NExpr o f vs p). split; reflexivity.
    + intros ([|[|] a] & n & E & X); [left; injection E as <-; now subst x|discriminate E|discriminate E].
Qed.

Definition is_left (s : step) : bool := match s with SLeft => true | SRight => false end.
Definition ends (e : eid) := (e_from e, e_to e, e_wide e).
Lemma edge_ids_places t : forall k x, In x (map ends (edge_ids t k)) <->
  exists a s, place t (a ++ [s]) /\ x = (num t k a, num t k (a ++ [s]), is_left s).
Proof.
  assert (Two : forall l r k x,
    (forall k x, In x (map ends (edge_ids l k)) <-> exists a s, place l (a ++ [s]) /\ x = (num l k a, num l k (a ++ [s]), is_left s)) ->
    (forall k x, In x (map ends (edge_ids r k)) <-> exists a s, place r (a ++ [s]) /\ x = (num r k a, num r k (a ++ [s]), is_left s)) ->
    In x (map ends (edge_ids (NAnd l r) k)) <->
    exists a s, place (NAnd l r) (a ++ [s]) /\ x = (num (NAnd l r) k a, num (NAnd l r) k (a ++ [s]), is_left s)).
  { intros l r k x IHl IHr. cbn [edge_ids]. repeat (rewrite map_app || cbn [map]). rewrite in_app_iff. cbn [In]. rewrite in_app_iff. cbn [In ends e_from e_to e_wide].
    rewrite IHl, IHr. split.
    - intros [(a & s & P & X)|[X|[(a & s & P & X)|[X|[]]]]].
      + exists (SLeft :: a), s. auto.
      + exists [], SLeft. split; [discriminate|]. now rewrite <- X.
      + exists (SRight :: a), s. auto.
      + exists [], SRight. split; [discriminate|]. now rewrite <- X.
    - intros ([|[|] a] & s & P & X).
      + destruct s; [right; left|right; right; right; left]; now subst x.
      + left. exists a, s. auto.
      + right; right; left. exists a, s. auto. }
  induction t as [l IHl r IHr|l IHl r IHr|e IHe|o f vs p]; intros k x.
  - exact (Two l r k x IHl IHr).
  - change (edge_ids (NOr l r) k) with (edge_ids (NAnd l r) k). rewrite (Two l r k x IHl IHr).
    split; intros (a & s & P & X); exists a, s; (split; [now apply or_place || now apply or_place'|now rewrite ?or_num in * ]).
  - cbn [edge_ids]. rewrite map_app, in_app_iff, IHe. cbn [map In ends e_from e_to e_wide]. split.
    + intros [(a & s & P & X)|[X|[]]]; [exists (SLeft :: a), s; auto|]. exists [], SLeft. split; [discriminate|]. now rewrite <- X.
    + intros ([|[|] a] & s & P & X).
      * destruct s; [right; left; now subst x|now destruct P].
      * left. exists a, s. auto.
      * now destruct P.
  - cbn. split; [easy|]. intros ([|[|] a] & s & P & X); [destruct s|..]; now destruct P.
Qed.

Lemma edge_ids_order t : forall k a, place t (a ++ [SRight]) -> exists x y z,
  map e_to (edge_ids t k) = x ++ num t k (a ++ [SLeft]) :: y ++ num t k (a ++ [SRight]) :: z.
Proof.
  assert (Two : forall l r k a,
    (forall k a, place l (a ++ [SRight]) -> exists x y z, map e_to (edge_ids l k) = x ++ num l k (a ++ [SLeft]) :: y ++ num l k (a ++ [SRight]) :: z) ->
    (forall k a, place r (a ++ [SRight]) -> exists x y z, map e_to (edge_ids r k) = x ++ num r k (a ++ [SLeft]) :: y ++ num r k (a ++ [SRight]) :: z) ->
    place (NAnd l r) (a ++ [SRight]) -> exists x y z,
    map e_to (edge_ids (NAnd l r) k) = x ++ num (NAnd l r) k (a ++ [SLeft]) :: y ++ num (NAnd l r) k (a ++ [SRight]) :: z).
  { intros l r k a IHl IHr P. cbn [edge_ids]. repeat (rewrite map_app || cbn [map]). cbn [e_to]. destruct a as [|[|] a].
    - exists (map e_to (edge_ids l (k + 1))), (map e_to (edge_ids r (k + 2 + used l))), []. reflexivity.
    - destruct (IHl (k + 1) a P) as (x & y & z & E). rewrite E. cbn [app num].
      set (rest := k + 1 :: _). exists x, y, (z ++ rest). rewrite <- app_assoc. cbn [app]. now rewrite <- app_assoc.
    - destruct (IHr (k + 2 + used l) a P) as (x & y & z & E). rewrite E. cbn [app num].
      exists (map e_to (edge_ids l (k + 1)) ++ k + 1 :: x), y, (z ++ [k + 2 + used l]). rewrite <- !app_assoc. cbn [app]. now rewrite <- app_assoc. }
  induction t as [l IHl r IHr|l IHl r IHr|e IHe|o f vs p]; intros k a P.
  - exact (Two l r k a IHl IHr P).
  - rewrite !or_num. exact (Two l r k a IHl IHr (or_place _ _ _ P)).
  - destruct a as [|[|] a]; [now destruct P| |now destruct P]. cbn [edge_ids app num]. rewrite map_app.
    destruct (IHe (k + 1) a P) as (x & y & z & E). rewrite E. exists x, y, (z ++ map e_to [{| e_id := k + 1 + used e; e_from := k; e_to := k + 1; e_wide := true |}]).
    rewrite <- app_assoc. cbn [app]. now rewrite <- app_assoc.
  - destruct a as [|[|] a]; now destruct P.
Qed.

End WithOracles.

(** ** Markup *)
Lemma markup_app s t s' t' : markup s t -> markup s' t' -> markup (s ++ s') (t ++ t').
Proof.
  intros M M'. induction M as [|c s t H M IH|e c s t H M IH|name attrs inner it s t H1 H2 H3 H4 Mi _ M IH]; [exact M'|..].
  - cbn. now constructor.
  - rewrite <- app_assoc. cbn. now constructor.
  - rewrite <- !app_assoc. now constructor.
Qed.
Lemma markup_plain s : Forall plain_byte s -> markup s s.
Proof. induction 1; constructor; auto. Qed.
Lemma markup_element name attrs inner it : name <> [] -> Forall (fun c => 65 <= c <= 90) name ->
  (attrs = [] \/ exists r, attrs = 32 :: r) -> Forall plain_byte attrs -> markup inner it ->
  markup (b "<" ++ name ++ attrs ++ b ">" ++ inner ++ b "</" ++ name ++ b ">") it.
Proof.
  intros H1 H2 H3 H4 M. pose proof (mu_element name attrs inner it [] [] H1 H2 H3 H4 M mu_end) as E.
  rewrite !app_nil_r in E. exact E.
Qed.
Lemma markup_escape s : Forall (fun c => c <> 0) s -> markup (html_escape s) s.
Proof.
  induction 1 as [|c s Hc _ IH]; [constructor|]. cbn [html_escape].
  destruct (N.eq_dec c 34) as [->|]; [apply mu_entity; [constructor|exact IH]|].
  destruct (N.eq_dec c 39) as [->|]; [apply mu_entity; [constructor|exact IH]|].
  destruct (N.eq_dec c 38) as [->|]; [apply mu_entity; [constructor|exact IH]|].
  destruct (N.eq_dec c 60) as [->|]; [apply mu_entity; [constructor|exact IH]|].
  destruct (N.eq_dec c 62) as [->|]; [apply mu_entity; [constructor|exact IH]|].
  assert (M : markup (c :: html_escape s) (c :: s)) by (constructor; [repeat split; assumption|exact IH]).
  clear IH. destruct c as [|p]; [congruence|]. do 6 (destruct p as [p|p|]; try exact M); congruence.
Qed.

(** As many opening as closing brackets. *)
Definition count (c : N) (s : bytes) : nat := count_occ N.eq_dec s c.
Lemma markup_brackets s t : markup s t -> count 60 s = count 62 s.
Proof.
  unfold count.
  assert (P : forall s, Forall plain_byte s -> count_occ N.eq_dec s 60 = 0%nat /\ count_occ N.eq_dec s 62 = 0%nat).
  { induction 1 as [|c s0 (A & B & _) _ [IH1 IH2]]; [auto|]. cbn. destruct (N.eq_dec c 60); [congruence|]. destruct (N.eq_dec c 62); [congruence|]. auto. }
  assert (Q : forall s, Forall (fun c => 65 <= c <= 90) s -> Forall plain_byte s) by (intros s0 F; eapply Forall_impl; [|exact F]; unfold plain_byte; lia).
  induction 1 as [|c s t (A & B & _) M IH|e c s t H M IH|name attrs inner it s t H1 H2 H3 H4 Mi IHi M IH]; [reflexivity|..].
  - cbn. destruct (N.eq_dec c 60); [congruence|]. destruct (N.eq_dec c 62); [congruence|]. exact IH.
  - rewrite !count_occ_app. destruct H; exact IH.
  - rewrite !count_occ_app, IHi, IH, (proj1 (P _ (Q _ H2))), (proj2 (P _ (Q _ H2))), (proj1 (P _ H4)), (proj2 (P _ H4)). cbn. lia.
Qed.
