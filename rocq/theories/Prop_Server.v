(** C121: the files that the server of the web page hands out. *)
From Verif Require Import Bytes Ast Server.
From Coq Require Import ZifyBool ZifyN ZifyNat.

(** The names in the directory that the page consists of *)
Definition names : list bytes := [b "wasm_exec.js"; b "hwt.css"; b "style.css"; b "aqlparse.wasm"].

(** ** Names in paths *)
Definition plain_name (x : bytes) : Prop := x <> [] /\ ~ In 47 x /\ x <> b "." /\ x <> b "..".
Lemma names_plain x : In x names -> plain_name x.
Proof.
  intros I. assert (H : forallb (fun x => negb (beqb x []) && negb (existsb (N.eqb 47) x) && negb (beqb x (b ".")) && negb (beqb x (b ".."))) names = true) by reflexivity.
  rewrite forallb_forall in H. specialize (H x I). apply andb_true_iff in H as [H H4]. apply andb_true_iff in H as [H H3]. apply andb_true_iff in H as [H1 H2].
  split; [intros ->; discriminate H1|]. split; [|split; intros ->; discriminate].
  intros J. apply negb_true_iff in H2. assert (X : existsb (N.eqb 47) x = true) by (apply existsb_exists; exists 47; split; [exact J|reflexivity]). congruence.
Qed.
(** The text ends with a slash and the name, or is the name. *)
Definition tailed (x s : bytes) : Prop := s = x \/ exists d, s = d ++ 47 :: x.

Lemma parts_plain x : ~ In 47 x -> parts x = [x].
Proof.
  induction x as [|c x IH]; intros H; [reflexivity|]. cbn [parts]. destruct (N.eqb_spec c 47) as [->|Nc]; [destruct H; now left|].
  rewrite IH; [reflexivity|]. intros I. apply H. now right.
Qed.
Lemma parts_ne s : parts s <> [].
Proof. destruct s as [|c s]; [discriminate|]. cbn [parts]. destruct (c =? 47); [discriminate|]. destruct (parts s); discriminate. Qed.
Lemma parts_slash d s : parts (d ++ 47 :: s) = parts d ++ parts s.
Proof.
  induction d as [|c d IH]; [reflexivity|]. cbn [app parts]. rewrite IH. destruct (c =? 47); [reflexivity|].
  destruct (parts d) as [|p l] eqn:E; [now apply parts_ne in E|]. reflexivity.
Qed.
Lemma parts_join l : Forall (fun x => ~ In 47 x) l -> l <> [] -> parts (join (b "/") l) = l.
Proof.
  induction 1 as [|x l Hx F IH]; intros Ne; [congruence|]. destruct l as [|y l]; [now apply parts_plain|].
  change (join (b "/") (x :: y :: l)) with (x ++ 47 :: join (b "/") (y :: l)). rewrite parts_slash, (parts_plain x Hx), IH by discriminate. reflexivity.
Qed.
Lemma parts_no_slash s : Forall (fun x => ~ In 47 x) (parts s).
Proof.
  induction s as [|c s IH]; [repeat constructor; intros []|]. cbn [parts]. destruct (N.eqb_spec c 47) as [->|Nc]; [constructor; [intros []|exact IH]|].
  destruct (parts s) as [|p l]; [repeat constructor; intros [E|[]]; congruence|]. inversion IH; subst. constructor; [|assumption]. intros [E|I]; [congruence|contradiction].
Qed.

Lemma clean_parts_last r x : plain_name x -> forall l out, clean_parts r out (l ++ [x]) = clean_parts r out l ++ [x].
Proof.
  intros (N0 & _ & N1 & N2). assert (B : forall y, x <> y -> beqb x y = false).
  { intros y Ny. destruct (beqb x y) eqn:E; [|reflexivity]. apply beqb_eq in E. contradiction. }
  induction l as [|p l IH]; intros out; cbn [app clean_parts].
  - rewrite (B [] N0), (B (b ".") N1), (B (b "..") N2). cbn [orb clean_parts rev]. reflexivity.
  - destruct (beqb p [] || beqb p (b ".")); [apply IH|]. destruct (beqb p (b "..")); [|apply IH].
    destruct out as [|q out]; [destruct r; apply IH|]. destruct (beqb q (b "..")); apply IH.
Qed.
Lemma join_tailed l x : tailed x (join (b "/") (l ++ [x])).
Proof.
  induction l as [|y l IH]; [now left|]. right. destruct l as [|z l].
  - exists y. reflexivity.
  - change (join (b "/") ((y :: z :: l) ++ [x])) with (y ++ 47 :: join (b "/") ((z :: l) ++ [x])). destruct IH as [->|(d & ->)]; [now exists y|].
    exists (y ++ 47 :: d). now rewrite <- app_assoc.
Qed.
Lemma tailed_parts x s : plain_name x -> tailed x s -> exists l, parts s = l ++ [x].
Proof.
  intros (_ & Ns & _) [->|(d & ->)]; [exists []; now apply parts_plain|]. exists (parts d). now rewrite parts_slash, (parts_plain x Ns).
Qed.
Lemma tailed_ne x s : plain_name x -> tailed x s -> s <> [].
Proof. intros (P & _) [T|(d & T)] ->; [congruence|destruct d; discriminate]. Qed.
Lemma tailed_clean x s : plain_name x -> tailed x s -> tailed x (clean s).
Proof.
  intros Px T. destruct (tailed_parts x s Px T) as (l & E). unfold clean. destruct s as [|c s].
  { destruct (tailed_ne _ _ Px T eq_refl). }
  rewrite E, clean_parts_last by exact Px. pose proof (join_tailed (clean_parts (rooted (c :: s)) [] l) x) as J. set (body := join (b "/") _) in *.
  destruct (rooted (c :: s)).
  - right. destruct J as [->|(d & ->)]; [now exists []|now exists (47 :: d)].
  - destruct body; [destruct (tailed_ne _ _ Px J eq_refl)|exact J].
Qed.
Lemma tailed_join d x s : plain_name x -> tailed x s -> tailed x (join2 d s).
Proof.
  intros Px T. pose proof (tailed_ne _ _ Px T) as Ns.
  unfold join2. destruct d as [|c d]; [destruct s; [congruence|]; now apply tailed_clean|].
  apply tailed_clean; [exact Px|]. right. destruct T as [->|(e & ->)]; [now exists (c :: d)|]. exists ((c :: d) ++ 47 :: e). now rewrite <- app_assoc.
Qed.
Lemma tailed_abs cwd x s : plain_name x -> tailed x s -> tailed x (abs cwd s).
Proof. intros Px T. unfold abs. destruct (rooted s); [now apply tailed_clean|now apply tailed_join]. Qed.
Lemma base_tailed x s : plain_name x -> tailed x s -> base s = x.
Proof.
  intros Px T. pose proof (tailed_ne _ _ Px T) as Ns.
  unfold base. destruct s as [|c s]; [congruence|]. set (t := c :: s) in *.
  assert (D : drop_slashes (rev t) = rev t).
  { destruct Px as (Nx & Nsl & _). destruct (exists_last Nx) as (x' & a & ->). assert (Na : a <> 47) by (intros ->; apply Nsl, in_or_app; right; now left).
    assert (exists y, t = y ++ [a]) as (y & ->) by (destruct T as [->|(d & ->)]; [now exists x'|exists (d ++ 47 :: x'); now rewrite <- app_assoc]).
    rewrite rev_app_distr. cbn. destruct (N.eqb_spec a 47); [contradiction|reflexivity]. }
  rewrite D. destruct (rev t) as [|a r] eqn:Er.
  { apply (f_equal (@rev _)) in Er. rewrite rev_involutive in Er. discriminate. }
  rewrite <- Er, rev_involutive. destruct (tailed_parts x t Px T) as (l & ->). apply last_last.
Qed.

(** The place of a file of the page *)
Definition place (cwd dir x : bytes) : bytes := abs cwd (join2 dir x).
Lemma base_place cwd dir x : In x names -> base (place cwd dir x) = x.
Proof. intros I. pose proof (names_plain x I) as P. apply base_tailed; [exact P|]. apply tailed_abs; [exact P|]. apply tailed_join; [exact P|]. now left. Qed.
Lemma wasm_fs_list cwd dir : wasm_fs cwd dir = map (fun x => (x, place cwd dir x)) (rev names).
Proof.
  unfold wasm_fs. cbn [fold_left]. unfold add_file. cbv zeta. change (abs cwd (join2 dir ?x)) with (place cwd dir x).
  rewrite !base_place by (cbn; tauto). reflexivity.
Qed.
(** Every name leads to the file in the directory, every other one to no file. *)
Theorem C121_lookup cwd dir name : lookup (wasm_fs cwd dir) name = if existsb (beqb name) names then place cwd dir name else [].
Proof.
  rewrite wasm_fs_list. assert (E : existsb (beqb name) names = existsb (beqb name) (rev names)).
  { destruct (existsb (beqb name) (rev names)) eqn:X.
    - apply existsb_exists in X as (y & I & Y). apply existsb_exists. exists y. split; [now apply in_rev in I|exact Y].
    - destruct (existsb (beqb name) names) eqn:Y; [|reflexivity]. apply existsb_exists in Y as (y & I & Z). apply in_rev in I.
      assert (existsb (beqb name) (rev names) = true) by (apply existsb_exists; eauto). congruence. }
  rewrite E. clear E. induction (rev names) as [|x l IH]; [reflexivity|]. cbn [map lookup existsb].
  destruct (beqb x name) eqn:X.
  - apply beqb_eq in X. subst. now rewrite beqb_refl.
  - rewrite IH. replace (beqb name x) with false; [reflexivity|]. symmetry. destruct (beqb name x) eqn:Y; [|reflexivity]. apply beqb_eq in Y. subst. now rewrite beqb_refl in X.
Qed.
Print Assumptions C121_lookup.

Section Serving.
Context (exists_file : bytes -> bool) (cwd dir : bytes).
Context (no_name : exists_file [] = false).   (* os.OpenFile of the empty name fails *)

(** The files of the page *)
Inductive page_file : bytes -> Prop :=
| pf_index : page_file (join2 dir (b "index.html"))
| pf_name x : In x names -> page_file (place cwd dir x).

Lemma listed name : exists_file (lookup (wasm_fs cwd dir) name) = true -> In name names /\ lookup (wasm_fs cwd dir) name = place cwd dir name.
Proof.
  rewrite C121_lookup. destruct (existsb (beqb name) names) eqn:E; [|rewrite no_name; discriminate]. intros _.
  apply existsb_exists in E as (y & I & Y). apply beqb_eq in Y. now subst.
Qed.

(** No request leads to another file being opened or sent, *)
Theorem C121_opened connect p f : In (EOpen f) (fst (serve exists_file cwd dir connect p)) \/ snd (serve exists_file cwd dir connect p) = SFile f -> page_file f.
Proof.
  assert (H : forall p, In (EOpen f) (fst (handler exists_file cwd dir p)) \/ snd (handler exists_file cwd dir p) = SFile f -> page_file f).
  { clear p. intros p. unfold handler. destruct (beqb p (b "/")).
    - cbv zeta. destruct (exists_file (join2 dir _)); cbn [fst snd]; intros [H|H]; try discriminate H; try contradiction; [destruct H as [H|[]]|]; injection H as <-; constructor.
    - unfold file_server. cbv zeta. set (p' := if rooted p then p else 47 :: p). destruct (ends_with _ p'); [cbn [fst snd]; intros [[]|H]; discriminate H|].
      destruct (exists_file (lookup _ _)) eqn:E; [|cbn [fst snd]; intros [[]|H]; discriminate H]. destruct (listed _ E) as (I & ->).
      destruct (last p' 0 =? 47); cbn [fst snd]; intros [H|H]; try discriminate H; try (destruct H as [H|[H|[]]]; try discriminate H); injection H as <-; now constructor. }
  unfold serve. destruct connect.
  - destruct (rooted p); [apply H|cbn [fst snd]; intros [[]|X]; discriminate X].
  - destruct (beqb (clean_path p) p); [apply H|cbn [fst snd]; intros [[]|X]; discriminate X].
Qed.
(** and the page has these addresses only. *)
Theorem C121_served p f : snd (serve exists_file cwd dir false p) = SFile f <->
  exists_file f = true /\ (p = b "/" /\ f = join2 dir (b "index.html") \/ exists x, In x names /\ p = 47 :: x /\ f = place cwd dir x).
Proof.
  unfold serve. split.
  - destruct (beqb (clean_path p) p) eqn:Ec; [|discriminate]. apply beqb_eq in Ec. unfold handler. destruct (beqb p (b "/")) eqn:Ep.
    + apply beqb_eq in Ep. cbv zeta. destruct (exists_file (join2 dir _)) eqn:E; [|discriminate]. intros [= <-]. split; [exact E|]. now left.
    + unfold file_server. cbv zeta. assert (R : rooted p = true).
      { destruct p as [|c p]; [discriminate Ec|]. unfold clean_path in Ec. destruct (rooted (c :: p)) eqn:R; [reflexivity|]. exfalso.
        revert Ec. unfold clean at 1 2 3 4. change (rooted (47 :: c :: p)) with true. cbv iota beta zeta. cbn in R.
        destruct (_ && _); [destruct (_ && _)|]; intros E; injection E as E _; subst; discriminate R. }
      rewrite R. destruct (ends_with _ p); [discriminate|]. destruct (exists_file (lookup _ _)) eqn:E; [|discriminate]. destruct (listed _ E) as (I & El). rewrite El in *.
      destruct (last p 0 =? 47) eqn:Sl; [discriminate|]. intros [= <-]. split; [exact E|]. right. exists (io_name (clean p)). split; [exact I|]. split; [|reflexivity].
      unfold clean_path in Ec. destruct p as [|c p]; [discriminate R|]. rewrite R, Sl in Ec. cbn [andb] in Ec. rewrite Ec. unfold io_name. rewrite Ep. cbn in R. rewrite R. apply N.eqb_eq in R. now subst.
  - intros (E & [(-> & ->)|(x & I & -> & ->)]).
    + unfold handler. replace (beqb (clean_path (b "/")) (b "/")) with true by reflexivity. replace (beqb (b "/") (b "/")) with true by reflexivity. cbv zeta. now rewrite E.
    + assert (Q : forallb (fun x => beqb (clean_path (47 :: x)) (47 :: x) && negb (beqb (47 :: x) (b "/")) && negb (ends_with (b "/index.html") (47 :: x)) && beqb (io_name (clean (47 :: x))) x && negb (last (47 :: x) 0 =? 47)) names = true) by reflexivity.
      rewrite forallb_forall in Q. specialize (Q x I). apply andb_true_iff in Q as [Q Q5]. apply andb_true_iff in Q as [Q Q4]. apply andb_true_iff in Q as [Q Q3]. apply andb_true_iff in Q as [Q1 Q2].
      rewrite Q1. unfold handler. apply negb_true_iff in Q2, Q3, Q5. rewrite Q2. unfold file_server. cbv zeta. change (rooted (47 :: x)) with true. cbv iota. rewrite Q3.
      apply beqb_eq in Q4. rewrite Q4, C121_lookup. replace (existsb (beqb x) names) with true by (symmetry; apply existsb_exists; exists x; split; [exact I|apply beqb_refl]).
      rewrite E, Q5. reflexivity.
Qed.
(** Files other than the index are closed again. *)
Theorem C121_closed_partial connect p f : p <> b "/" -> In (EOpen f) (fst (serve exists_file cwd dir connect p)) ->
  fst (serve exists_file cwd dir connect p) = [EOpen f; EClose f].
Proof.
  intros Np. assert (H : In (EOpen f) (fst (handler exists_file cwd dir p)) -> fst (handler exists_file cwd dir p) = [EOpen f; EClose f]).
  { unfold handler. destruct (beqb p (b "/")) eqn:E; [apply beqb_eq in E; contradiction|]. unfold file_server. cbv zeta.
    destruct (ends_with _ _); [intros []|]. destruct (exists_file (lookup _ _)); [|intros []]. destruct (last _ 0 =? 47); cbn [fst snd]; intros [[= <-]|[H|[]]]; try discriminate H; reflexivity. }
  unfold serve. destruct connect; [destruct (rooted p)|destruct (beqb _ p)]; try exact H; intros [].
Qed.
End Serving.
Print Assumptions C121_opened.
Print Assumptions C121_served.
Print Assumptions C121_closed_partial.
(** The index is opened for each request and never closed. *)
Theorem C121_closed_refuted : exists f, forall cwd exists_file, exists_file f = true ->
  serve exists_file cwd (b "/srv") false (b "/") = ([EOpen f], SFile f).
Proof. exists (b "/srv/index.html"). intros cwd ex E. unfold serve, handler. change (join2 (b "/srv") (b "index.html")) with (b "/srv/index.html"). cbv zeta. rewrite E. reflexivity. Qed.
Print Assumptions C121_closed_refuted.

Definition here (f : bytes) : bool := existsb (beqb f) [b "/srv/index.html"; b "/srv/hwt.css"; b "/etc/passwd"].
Example C121_example : here [] = false /\
  map (fun p => snd (serve here (b "/srv") (b "x/..") false (b p))) ["/hwt.css"; "/style.css"; "/hwt.css/"; "//hwt.css"; "/../etc/passwd"; "/index.html"; "/a/../hwt.css"; "/hwt.css/x"]%string =
    [SFile (b "/srv/hwt.css"); SNotFound; SRedirect (b "../hwt.css"); SRedirect (b "/hwt.css"); SRedirect (b "/etc/passwd"); SRedirect (b "./"); SRedirect (b "/hwt.css"); SNotFound] /\
  snd (serve here (b "/srv") (b "x/..") true (b "/../etc/../hwt.css")) = SFile (b "/srv/hwt.css") /\
  snd (serve here (b "/srv") (b "/srv/") true (b "/")) = SFile (b "/srv/index.html").
Proof. repeat split; vm_compute; reflexivity. Qed.
