(** C121, C129: where the files of the web page are and where redirects lead, in terms of walks through directories. *)
From Verif Require Import Bytes Ast Server Prop_Server PathSpec.
From Coq Require Import ZifyBool ZifyN ZifyNat.

(** ** Walks and parts *)
Lemma walk_parts s : forall a name, walk a name s = fold_left step (match parts s with p :: l => (name ++ p) :: l | [] => [] end) a.
Proof.
  induction s as [|c s IH]; intros a name; [cbn; now rewrite app_nil_r|]. cbn [walk parts]. destruct (c =? 47).
  - rewrite IH, app_nil_r. cbn [fold_left]. destruct (parts s) as [|p l] eqn:E; [now apply parts_ne in E|]. reflexivity.
  - rewrite IH. destruct (parts s) as [|p l] eqn:E; [now apply parts_ne in E|]. now rewrite <- app_assoc.
Qed.
Lemma walk_fold s a : walk a [] s = fold_left step (parts s) a.
Proof. rewrite walk_parts. destruct (parts s) as [|p l] eqn:E; [now apply parts_ne in E|]. reflexivity. Qed.
Lemma leads_fold a s : leads a s = fold_left step (parts s) (if rooted s then [] else a).
Proof.
  unfold leads, rooted. destruct s as [|c s]; [reflexivity|]. destruct (N.eqb_spec c 47) as [->|Nc].
  - cbn [parts]. change (47 =? 47) with true. cbn [fold_left]. now rewrite walk_fold.
  - now rewrite <- walk_fold.
Qed.
Lemma beqb_no x y : x <> y -> beqb x y = false.
Proof. intros H. destruct (beqb x y) eqn:E; [|reflexivity]. apply beqb_eq in E. contradiction. Qed.
Lemma step_plain a x : x <> [] -> x <> b "." -> x <> b ".." -> step a x = a ++ [x].
Proof. intros H1 H2 H3. unfold step. now rewrite !beqb_no by assumption. Qed.
Lemma fold_plain l : forall a, Forall plain_name l -> fold_left step l a = a ++ l.
Proof.
  induction l as [|x l IH]; intros a F; [now rewrite app_nil_r|]. inversion F as [|? ? (P1 & _ & P2 & P3) Fl]; subst. cbn [fold_left]. rewrite step_plain by assumption. rewrite IH by assumption. now rewrite <- app_assoc.
Qed.
Lemma fold_step_plain l : forall a, Forall plain_name a -> Forall (fun x => ~ In 47 x) l -> Forall plain_name (fold_left step l a).
Proof.
  induction l as [|x l IH]; intros a Fa Fl; [exact Fa|]. inversion Fl as [|? ? Nx Fl']; subst. cbn [fold_left]. apply IH; [|exact Fl'].
  unfold step. destruct (beqb x []) eqn:E1; [exact Fa|]. destruct (beqb x (b ".")) eqn:E2; [exact Fa|]. destruct (beqb x (b "..")) eqn:E3.
  - clear -Fa. induction Fa as [|y a Py Fa IHa]; [constructor|]. cbn [removelast]. destruct a; [constructor|]. now constructor.
  - apply Forall_app. split; [exact Fa|]. constructor; [|constructor]. repeat split; try assumption; intros ->; now rewrite beqb_refl in *.
Qed.

(** What Clean keeps of the parts leads to the same place. *)
Lemma clean_parts_leads r : forall l out a, (r = true -> a = [] /\ ~ In (b "..") out) -> ~ In [] out -> ~ In (b ".") out ->
  fold_left step (clean_parts r out l) a = fold_left step l (fold_left step (rev out) a).
Proof.
  induction l as [|p l IH]; intros out a Hr H0 H1; [reflexivity|]. cbn [clean_parts fold_left]. unfold step at 3.
  destruct (beqb p []) eqn:E0; cbn [orb]; [now apply IH|]. destruct (beqb p (b ".")) eqn:E1; [now apply IH|].
  assert (N0 : p <> []) by (intros ->; now rewrite beqb_refl in E0). assert (N1 : p <> b ".") by (intros ->; now rewrite beqb_refl in E1).
  destruct (beqb p (b "..")) eqn:E2.
  - apply beqb_eq in E2. subst p. destruct out as [|q out].
    + destruct r.
      * destruct (Hr eq_refl) as (-> & _). rewrite IH by (auto; intros []). reflexivity.
      * rewrite IH; [reflexivity|discriminate| |]; intros [X|[]]; discriminate X.
    + destruct (beqb q (b "..")) eqn:Eq.
      * apply beqb_eq in Eq. subst q. destruct r; [destruct (Hr eq_refl) as (_ & X); destruct X; now left|].
        rewrite IH; [|discriminate| |]; [|intros [X|X]; [discriminate X|auto]..]. cbn [rev]. rewrite !fold_left_app. reflexivity.
      * rewrite IH; [|intros Er; destruct (Hr Er) as (Ea & X); split; [exact Ea|intros Y; apply X; now right]|intros Y; apply H0; now right|intros Y; apply H1; now right].
        f_equal. cbn [rev]. rewrite fold_left_app. cbn [fold_left]. rewrite step_plain; [now rewrite removelast_last| | |].
        -- intros ->. apply H0. now left.
        -- intros ->. apply H1. now left.
        -- intros ->. now rewrite beqb_refl in Eq.
  - assert (N2 : p <> b "..") by (intros ->; now rewrite beqb_refl in E2).
    rewrite IH; [|intros Er; destruct (Hr Er) as (Ea & X); split; [exact Ea|intros [Y|Y]; [congruence|contradiction]]|intros [Y|Y]; [congruence|contradiction]|intros [Y|Y]; [congruence|contradiction]].
    f_equal. cbn [rev]. rewrite fold_left_app. cbn [fold_left]. now apply step_plain.
Qed.
(** The parts that are kept *)
Lemma clean_parts_kept r : forall l out, Forall (fun x => x <> [] /\ ~ In 47 x /\ x <> b "." /\ (r = true -> x <> b "..")) out -> Forall (fun x => ~ In 47 x) l ->
  Forall (fun x => x <> [] /\ ~ In 47 x /\ x <> b "." /\ (r = true -> x <> b "..")) (clean_parts r out l).
Proof.
  induction l as [|p l IH]; intros out Fo Fl; [cbn; now apply Forall_rev|]. inversion Fl as [|? ? Np Fl']; subst. cbn [clean_parts].
  destruct (beqb p []) eqn:E0; cbn [orb]; [now apply IH|]. destruct (beqb p (b ".")) eqn:E1; [now apply IH|].
  assert (N0 : p <> []) by (intros ->; now rewrite beqb_refl in E0). assert (N1 : p <> b ".") by (intros ->; now rewrite beqb_refl in E1).
  destruct (beqb p (b "..")) eqn:E2.
  - apply beqb_eq in E2. subst p. destruct out as [|q out].
    + destruct r; [now apply IH|]. apply IH; [|exact Fl']. repeat constructor; auto. discriminate.
    + inversion Fo as [|? ? Hq Fo']; subst. destruct (beqb q (b "..")) eqn:Eq; [|now apply IH]. apply beqb_eq in Eq. subst q.
      apply IH; [|exact Fl']. constructor; assumption.
  - apply IH; [|exact Fl']. constructor; [|exact Fo]. repeat split; auto. intros _ ->. now rewrite beqb_refl in E2.
Qed.
Lemma join_slashed l : l <> [] -> 47 :: join (b "/") l = slashed l.
Proof.
  induction l as [|x l IH]; intros H; [congruence|]. destruct l as [|y l]; [cbn; now rewrite app_nil_r|].
  change (47 :: join (b "/") (x :: y :: l)) with (47 :: x ++ (47 :: join (b "/") (y :: l))). now rewrite IH by discriminate.
Qed.

(** Clean of a path from the root is the path without detours to the same place; *)
Theorem C121_clean s : rooted s = true -> clean s = match leads [] s with [] => b "/" | l => slashed l end.
Proof.
  intros R. rewrite leads_fold, R. unfold clean. destruct s as [|c s]; [discriminate R|]. rewrite R.
  set (ps := parts (c :: s)). assert (Nps : Forall (fun x => ~ In 47 x) ps) by apply parts_no_slash.
  assert (F : Forall plain_name (clean_parts true [] ps)).
  { eapply Forall_impl; [|apply (clean_parts_kept true ps []); [constructor|exact Nps]]. intros x (A & B & C & D). repeat split; auto. }
  pose proof (clean_parts_leads true ps [] [] ltac:(intros _; split; [reflexivity|intros []]) ltac:(intros []) ltac:(intros [])) as L. cbn [rev fold_left] in L. rewrite <- L. rewrite fold_plain by exact F. cbn [app].
  destruct (clean_parts true [] ps) as [|x l]; [reflexivity|]. now apply join_slashed.
Qed.
Print Assumptions C121_clean.
(** any other leads to the same place as before, from wherever. *)
Theorem C121_clean_leads a s : leads a (clean s) = leads a s.
Proof.
  destruct (rooted s) eqn:R.
  - rewrite C121_clean by exact R. rewrite (leads_fold a s), R. rewrite (leads_fold [] s), R.
    assert (F : Forall plain_name (fold_left step (parts s) [])) by (apply fold_step_plain; [constructor|apply parts_no_slash]).
    destruct (fold_left step (parts s) []) as [|x l]; [reflexivity|]. rewrite leads_fold. rewrite <- join_slashed by discriminate. cbn [rooted]. change (47 =? 47) with true. cbv iota.
    change (parts (47 :: join (b "/") (x :: l))) with ([] :: parts (join (b "/") (x :: l))). rewrite parts_join; [|eapply Forall_impl; [|exact F]; intros y (_ & Y & _); exact Y|discriminate].
    change (fold_left step ([] :: x :: l) []) with (fold_left step (x :: l) []). now apply fold_plain.
  - rewrite (leads_fold a s), R. unfold clean. destruct s as [|c s]; [reflexivity|]. rewrite R. cbv zeta. set (ps := parts (c :: s)).
    assert (F : Forall (fun x => x <> [] /\ ~ In 47 x /\ x <> b "." /\ (false = true -> x <> b "..")) (clean_parts false [] ps)) by (apply clean_parts_kept; [constructor|apply parts_no_slash]). pose proof (clean_parts_leads false ps [] a ltac:(discriminate) ltac:(intros []) ltac:(intros [])) as L. cbn [rev fold_left] in L. rewrite <- L.
    destruct (clean_parts false [] ps) as [|x l]; [reflexivity|]. assert (Fs : Forall (fun x => ~ In 47 x) (x :: l)) by (eapply Forall_impl; [|exact F]; intros y Y; apply Y).
    pose proof (parts_join (x :: l) Fs ltac:(discriminate)) as J. assert (Hx : x <> [] /\ ~ In 47 x) by (inversion F as [|? ? Hx ?]; split; apply Hx).
    assert (Rj : rooted (join (b "/") (x :: l)) = false).
    { destruct Hx as (X1 & X2). destruct x as [|d x]; [congruence|]. assert (d <> 47) by (intros ->; apply X2; now left). destruct l; cbn; now apply N.eqb_neq. }
    destruct (join (b "/") (x :: l)) as [|d j] eqn:Ej; [destruct Hx as (X1 & _); destruct x as [|? ?]; [congruence|destruct l; discriminate Ej]|].
    rewrite leads_fold, Rj, J. reflexivity.
Qed.
Print Assumptions C121_clean_leads.

(** ** Joining *)
Lemma leads_slash a d x : rooted d = true \/ d <> [] -> plain_name x -> leads a (d ++ 47 :: x) = leads a d ++ [x].
Proof.
  intros H (X0 & Xs & X1 & X2). assert (D : d <> []) by (destruct H as [H|H]; [intros ->; discriminate H|exact H]).
  rewrite !leads_fold, parts_slash, fold_left_app, (parts_plain x Xs). cbn [fold_left]. rewrite step_plain by assumption.
  destruct d as [|c d]; [congruence|]. reflexivity.
Qed.
Lemma leads_join2 a d x : plain_name x -> leads a (join2 d x) = leads a d ++ [x].
Proof.
  intros P. pose proof P as (X0 & Xs & X1 & X2). unfold join2. destruct d as [|c d].
  - destruct x as [|y x]; [congruence|]. rewrite C121_clean_leads. rewrite !leads_fold. rewrite (parts_plain _ Xs). cbn [fold_left rooted parts].
    assert (y <> 47) by (intros ->; apply Xs; now left). destruct (N.eqb_spec y 47); [contradiction|]. now rewrite step_plain.
  - rewrite C121_clean_leads. change (b "/" ++ x) with (47 :: x). apply leads_slash; [now right|exact P].
Qed.
(** The absolute path of a path leads to the same place. *)
Lemma leads_rooted s a a' : rooted s = true -> leads a s = leads a' s.
Proof. intros R. now rewrite !leads_fold, R. Qed.
Lemma leads_abs cwd s a : rooted cwd = true -> s <> [] -> leads a (abs cwd s) = leads (leads [] cwd) s.
Proof.
  intros Rc Ns. unfold abs. destruct (rooted s) eqn:Rs; [rewrite C121_clean_leads; now apply leads_rooted|].
  unfold join2. destruct cwd as [|c cwd]; [discriminate Rc|]. rewrite C121_clean_leads. change (b "/" ++ s) with (47 :: s). rewrite (leads_fold a), parts_slash, fold_left_app.
  replace (rooted ((c :: cwd) ++ 47 :: s)) with true by (symmetry; exact Rc). rewrite (leads_fold _ s), Rs, (leads_fold [] (c :: cwd)), Rc. reflexivity.
Qed.

(** ** The files of the page *)
Definition five : list bytes := b "index.html" :: names.
Lemma index_plain : plain_name (b "index.html").
Proof. repeat split; try discriminate. cbn. intros X. repeat (destruct X as [X|X]; [discriminate X|]). exact X. Qed.
Lemma join2_ne d x : x <> [] -> join2 d x <> [].
Proof.
  assert (C : forall s, clean s <> []).
  { intros s. unfold clean. destruct s; [discriminate|]. destruct (rooted _); [discriminate|]. cbv zeta. destruct (join _ _); discriminate. }
  intros Nx. unfold join2. destruct d; [destruct x; [congruence|apply C]|apply C].
Qed.
Section Where.
Context (exists_file : bytes -> bool) (cwd dir : bytes).
Context (no_name : exists_file [] = false).   (* os.OpenFile of the empty name fails *)
Context (absolute : rooted cwd = true).       (* os.Getwd returns a path from the root *)
(** The directory the server is started in and the one it was given *)
Let here := leads [] cwd.
Let given := leads here dir.

Lemma place_where x : plain_name x -> leads here (place cwd dir x) = given ++ [x].
Proof. intros P. unfold place. rewrite leads_abs by (try assumption; apply join2_ne, P). now apply leads_join2. Qed.
(** Whatever is asked for, only the five files in the given directory are opened or sent, *)
Theorem C121_where connect p f : In (EOpen f) (fst (serve exists_file cwd dir connect p)) \/ snd (serve exists_file cwd dir connect p) = SFile f ->
  exists x, In x five /\ leads here f = given ++ [x].
Proof.
  intros H. destruct (C121_opened exists_file cwd dir no_name connect p f H) as [|x I].
  - exists (b "index.html"). split; [now left|]. apply leads_join2, index_plain.
  - exists x. split; [now right|]. apply place_where, names_plain, I.
Qed.
(** each of the four for its name after a slash; *)
Theorem C121_each x : In x names -> exists f, leads here f = given ++ [x] /\
  snd (serve exists_file cwd dir false (47 :: x)) = if exists_file f then SFile f else SNotFound.
Proof.
  intros I. exists (place cwd dir x). split; [apply place_where, names_plain, I|]. destruct (exists_file (place cwd dir x)) eqn:E.
  - apply C121_served; [exact no_name|]. split; [exact E|]. right. now exists x.
  - assert (Q : forallb (fun x => beqb (clean_path (47 :: x)) (47 :: x) && negb (beqb (47 :: x) (b "/")) && negb (ends_with (b "/index.html") (47 :: x)) && beqb (io_name (clean (47 :: x))) x) names = true) by reflexivity.
    rewrite forallb_forall in Q. specialize (Q x I). apply andb_true_iff in Q as [Q Q4]. apply andb_true_iff in Q as [Q Q3]. apply andb_true_iff in Q as [Q1 Q2].
    unfold serve. rewrite Q1. unfold handler. apply negb_true_iff in Q2, Q3. rewrite Q2. unfold file_server. cbv zeta. change (rooted (47 :: x)) with true. cbv iota. rewrite Q3.
    apply beqb_eq in Q4. rewrite Q4, C121_lookup. replace (existsb (beqb x) names) with true by (symmetry; apply existsb_exists; exists x; split; [exact I|apply beqb_refl]). now rewrite E.
Qed.
(** the index for the slash; without the file the handler panics. *)
Theorem C121_index connect : exists f, leads here f = given ++ [b "index.html"] /\
  snd (serve exists_file cwd dir connect (b "/")) = if exists_file f then SFile f else SPanic.
Proof.
  exists (join2 dir (b "index.html")). split; [apply leads_join2, index_plain|]. unfold serve.
  replace (beqb (clean_path (b "/")) (b "/")) with true by reflexivity. change (rooted (b "/")) with true. unfold handler. change (beqb (b "/") (b "/")) with true. cbv zeta iota.
  destruct connect; now destruct (exists_file (join2 dir _)).
Qed.

End Where.
Print Assumptions C121_where.
Print Assumptions C121_each.
Print Assumptions C121_index.

(** ** Redirects *)
Lemma slashed_last l : Forall plain_name l -> l <> [] -> last (slashed l) 0 <> 47.
Proof.
  induction 1 as [|x l (X0 & Xs & _) F IH]; intros Ne; [congruence|]. cbn [slashed]. destruct l as [|y l].
  - cbn [slashed]. rewrite app_nil_r. destruct (exists_last X0) as (x' & a & ->). replace (last (47 :: x' ++ [a]) 0) with a by (symmetry; exact (last_last (47 :: x') a 0)). intros ->. apply Xs, in_or_app. right. now left.
  - replace (last (47 :: x ++ slashed (y :: l)) 0) with (last (slashed (y :: l)) 0); [apply IH; discriminate|].
    set (t := slashed (y :: l)). assert (T : t <> []) by discriminate. destruct (exists_last T) as (t' & a & ->). rewrite last_last, app_assoc.
    symmetry. exact (last_last (47 :: x ++ t') a 0).
Qed.
(** The address of a place, as a directory or as a file *)
Definition address (l : list bytes) (slash : bool) : bytes :=
  match l with [] => b "/" | _ => slashed l ++ (if slash then b "/" else []) end.
Lemma leads_plain p : Forall plain_name (leads [] p).
Proof. rewrite leads_fold. destruct (rooted p); apply fold_step_plain; try constructor; apply parts_no_slash. Qed.
Lemma has_prefix_app np p : has_prefix np p = true -> exists t, p = np ++ t.
Proof. revert p. induction np as [|c np IH]; intros p H; [now exists p|]. destruct p as [|d p]; [discriminate H|]. cbn in H. apply andb_true_iff in H as [H1 H2]. apply N.eqb_eq in H1. destruct (IH p H2) as (t & ->). exists t. now subst. Qed.
Lemma clean_path_address p : p <> [] -> clean_path p = address (leads [] p) (last p 0 =? 47).
Proof.
  intros Np. unfold clean_path. destruct p as [|c p]; [congruence|]. cbv zeta. match goal with |- context [clean ?t] => set (q := t) end.
  assert (Rq : rooted q = true) by (unfold q; destruct (rooted (c :: p)) eqn:R; [exact R|reflexivity]).
  assert (Lq : leads [] q = leads [] (c :: p)).
  { unfold q. destruct (rooted (c :: p)) eqn:R; [reflexivity|]. rewrite !leads_fold, R. reflexivity. }
  assert (Eq : last q 0 = last (c :: p) 0) by (unfold q; destruct (rooted (c :: p)); reflexivity).
  rewrite <- Eq, <- Lq, (C121_clean q Rq). pose proof (leads_plain q) as F. destruct (leads [] q) as [|x l].
  - cbv zeta. cbn [address]. change (beqb (b "/") (b "/")) with true. now rewrite andb_false_r.
  - cbv zeta. set (np := slashed (x :: l)) in *. assert (B : beqb np (b "/") = false).
    { apply beqb_no. unfold np. cbn [slashed]. inversion F as [|? ? (X0 & _) _]; subst. destruct x; [congruence|discriminate]. }
    rewrite B, andb_true_r. cbn [address]. destruct (last q 0 =? 47) eqn:E; [|now rewrite app_nil_r].
    destruct (_ && _) eqn:G; [|reflexivity]. apply andb_true_iff in G as [G1 G2]. apply has_prefix_app in G2 as (t & Et). fold np in Et. rewrite Et in *. apply Nat.eqb_eq in G1. rewrite app_length in G1.
    destruct t as [|d [|? ?]]; cbn [length] in G1; [lia| |lia]. rewrite last_last in E. apply N.eqb_eq in E. now subst.
Qed.
Lemma slashed_app l l' : slashed (l ++ l') = slashed l ++ slashed l'.
Proof. induction l as [|x l IH]; [reflexivity|]. cbn [app slashed]. rewrite IH. cbn [app]. now rewrite app_assoc. Qed.
Lemma parts_slashed l : Forall plain_name l -> l <> [] -> parts (slashed l) = [] :: l.
Proof.
  intros F Ne. rewrite <- join_slashed by exact Ne. change (parts (47 :: ?s)) with ([] :: parts s). f_equal.
  apply parts_join; [|exact Ne]. eapply Forall_impl; [|exact F]. intros y Y. apply Y.
Qed.
Lemma leads_address l sl : Forall plain_name l -> leads [] (address l sl) = l.
Proof.
  intros F. destruct l as [|x l]; [reflexivity|]. cbn [address]. rewrite leads_fold. set (t := slashed (x :: l)).
  assert (E : fold_left step (parts t) [] = x :: l).
  { unfold t. rewrite parts_slashed by (try exact F; discriminate). change (fold_left step ([] :: x :: l) []) with (fold_left step (x :: l) []). now apply fold_plain. }
  destruct sl.
  - change (b "/") with [47]. rewrite parts_slash, fold_left_app. destruct (rooted _); rewrite E; reflexivity.
  - rewrite app_nil_r. destruct (rooted t); exact E.
Qed.
Lemma address_last l sl : Forall plain_name l -> l <> [] -> (last (address l sl) 0 =? 47) = sl.
Proof.
  intros F Ne. destruct l as [|x l]; [congruence|]. cbn [address]. destruct sl.
  - change (b "/") with [47]. now rewrite last_last.
  - rewrite app_nil_r. apply N.eqb_neq. now apply slashed_last.
Qed.
(** Cleaning an address twice is cleaning it once. *)
Lemma clean_path_idem p : clean_path (clean_path p) = clean_path p.
Proof.
  destruct p as [|c p]; [reflexivity|]. rewrite (clean_path_address (c :: p)) by discriminate. pose proof (leads_plain (c :: p)) as F. set (sl := _ =? 47).
  destruct (leads [] (c :: p)) as [|x l]; [reflexivity|]. assert (Na : address (x :: l) sl <> []) by discriminate.
  rewrite clean_path_address by exact Na. rewrite leads_address by exact F. now rewrite address_last by (try exact F; discriminate).
Qed.
Lemma follow_rel p c to d : c <> 47 -> upto_slash p = Some d -> follow p (c :: to) = d ++ c :: to.
Proof. intros H E. unfold follow. rewrite E. now apply N.eqb_neq in H as ->. Qed.
Lemma upto_end d e : ~ In 47 e -> upto_slash (d ++ 47 :: e) = Some (d ++ [47]).
Proof.
  intros Ne. assert (E : upto_slash e = None).
  { induction e as [|c e IH]; [reflexivity|]. cbn [upto_slash]. rewrite IH by (intros X; apply Ne; now right). destruct (N.eqb_spec c 47) as [->|]; [destruct Ne; now left|reflexivity]. }
  induction d as [|c d IH]; cbn [app upto_slash]; [now rewrite E|now rewrite IH].
Qed.
Lemma has_prefix_intro x t : has_prefix x (x ++ t) = true.
Proof. induction x as [|c x IH]; [reflexivity|]. cbn. now rewrite N.eqb_refl. Qed.
Lemma ends_with_app x p : ends_with x p = true -> exists d, p = d ++ x.
Proof. unfold ends_with. intros H. apply has_prefix_app in H as (t & E). exists (rev t). rewrite <- (rev_involutive p), E, rev_app_distr, rev_involutive. reflexivity. Qed.

Section Hops.
Context (exists_file : bytes -> bool) (cwd dir : bytes).
Context (no_name : exists_file [] = false).
Notation answer_to p := (snd (serve exists_file cwd dir false p)).

(** The requests that lead to a redirect *)
Lemma redirect_cases p to : answer_to p = SRedirect to ->
  (clean_path p <> p /\ to = clean_path p) \/
  (clean_path p = p /\ exists d, p = d ++ b "/index.html" /\ to = b "./") \/
  (exists x, In x names /\ p = 47 :: x ++ [47] /\ to = b "../" ++ x).
Proof.
  unfold serve. destruct (beqb (clean_path p) p) eqn:Ec.
  2: { intros [= <-]. left. split; [|reflexivity]. intros E. rewrite E, beqb_refl in Ec. discriminate. }
  apply beqb_eq in Ec. right. revert H. unfold handler. destruct (beqb p (b "/")) eqn:Ep; [cbv zeta; destruct (exists_file (join2 dir _)); intros X; discriminate X|].
  assert (Np : p <> []) by (intros ->; discriminate Ec). pose proof (clean_path_address p Np) as A. rewrite Ec in A. pose proof (leads_plain p) as F.
  assert (R : rooted p = true) by (rewrite A; destruct (leads [] p); reflexivity).
  unfold file_server. cbv zeta. rewrite R. destruct (ends_with (b "/index.html") p) eqn:Ei.
  - intros [= <-]. left. split; [exact Ec|]. apply ends_with_app in Ei as (d & ->). now exists d.
  - destruct (exists_file (lookup _ _)) eqn:E; [|discriminate]. destruct (listed _ _ _ no_name _ E) as (I & _).
    destruct (last p 0 =? 47) eqn:Sl; [|discriminate]. intros [= <-]. right. exists (io_name (clean p)). split; [exact I|].
    rewrite (C121_clean p R) in *. destruct (leads [] p) as [|x l]; [rewrite A in Ep; discriminate Ep|].
    assert (Q : exists y, slashed (x :: l) = 47 :: y /\ y <> []) by (cbn [slashed]; inversion F as [|? ? (X0 & _) _]; destruct x; [congruence|eexists; split; [reflexivity|discriminate]]).
    destruct Q as (y & Ey & Ny). rewrite Ey in *. assert (Ei' : io_name (47 :: y) = y) by (unfold io_name; replace (beqb (47 :: y) (b "/")) with false by (symmetry; apply beqb_no; intros [= X]; contradiction); reflexivity).
    rewrite Ei' in *. cbn [address] in A. rewrite Ey in A. change (b "/") with [47] in A. split; [exact A|]. f_equal. rewrite A.
    assert (Y : plain_name y) by now apply names_plain. destruct Y as (_ & Ys & _).
    unfold base. cbn [app]. rewrite rev_unit || idtac. destruct (exists_last Ny) as (y' & a & ->).
    assert (Na : a <> 47) by (intros ->; apply Ys, in_or_app; right; now left).
    replace (drop_slashes (rev (47 :: (y' ++ [a]) ++ [47]))) with (rev (47 :: y' ++ [a])).
    2: { change (47 :: (y' ++ [a]) ++ [47]) with ((47 :: y' ++ [a]) ++ [47]). rewrite rev_app_distr. change (rev [47] ++ ?z) with (47 :: z). cbn [drop_slashes]. change (47 =? 47) with true. cbv iota.
         change (47 :: y' ++ [a]) with ((47 :: y') ++ [a]). rewrite rev_app_distr. cbn [rev app drop_slashes]. destruct (N.eqb_spec a 47); [contradiction|reflexivity]. }
    destruct (rev (47 :: y' ++ [a])) as [|z r] eqn:Er; [apply (f_equal (@length N)) in Er; rewrite rev_length in Er; discriminate Er|].
    rewrite <- Er, rev_involutive. change (parts (47 :: y' ++ [a])) with ([] :: parts (y' ++ [a])). now rewrite (parts_plain _ Ys).
Qed.
(** A redirect leads to the place that was asked for, or from an index.html to its directory. *)
Theorem C129_place p to : answer_to p = SRedirect to ->
  leads [] (follow p to) = leads [] p \/ leads [] p = leads [] (follow p to) ++ [b "index.html"].
Proof.
  intros H. destruct (redirect_cases p to H) as [(Nc & ->)|[(Ec & d & -> & ->)|(x & I & -> & ->)]].
  - left. destruct p as [|c p]; [reflexivity|]. rewrite (clean_path_address (c :: p)) by discriminate.
    rewrite <- (leads_address (leads [] (c :: p)) (last (c :: p) 0 =? 47)) at 2 by apply leads_plain. f_equal. unfold address. destruct (leads [] (c :: p)); reflexivity.
  - right. assert (Np : d ++ b "/index.html" <> []) by (destruct d; discriminate). change (b "/index.html") with (47 :: b "index.html").
    assert (R : rooted (d ++ 47 :: b "index.html") = true) by (change (b "/index.html") with (47 :: b "index.html") in *; rewrite <- Ec, clean_path_address by exact Np; destruct (leads [] _); reflexivity).
    unfold follow. change (b "./") with (46 :: b "/") at 1. cbv iota beta. change (46 =? 47) with false. cbv iota. rewrite (upto_end d (b "index.html")) by apply index_plain.
    rewrite !leads_fold, R. replace (rooted ((d ++ [47]) ++ b "./")) with true by (destruct d; [reflexivity|symmetry; exact R]).
    rewrite <- app_assoc. change ([47] ++ b "./") with (47 :: b "./"). rewrite !parts_slash, !fold_left_app. reflexivity.
  - left. assert (P : plain_name x) by now apply names_plain. destruct P as (X0 & Xs & X1 & X2).
    unfold follow. change (b "../" ++ x) with (46 :: 46 :: 47 :: x). cbv iota. change (46 =? 47) with false. cbv iota. change (47 :: x ++ [47]) with ((47 :: x) ++ 47 :: []). rewrite upto_end by (intros []).
    rewrite !leads_fold. change (rooted ((47 :: x) ++ ?z)) with true. rewrite <- app_assoc. change (rooted ((47 :: x) ++ ?z)) with true. cbv iota. change ([47] ++ 46 :: 46 :: 47 :: x) with (47 :: b ".." ++ 47 :: x).
    rewrite !parts_slash. change (parts (47 :: x)) with ([] :: parts x). rewrite (parts_plain x Xs). cbn [parts app fold_left]. change (step [] []) with (@nil bytes). rewrite step_plain by assumption.
    change (parts (b "..")) with [b ".."]. cbn [app fold_left]. change (step [x] (b "..")) with (@nil bytes). rewrite step_plain by assumption. reflexivity.
Qed.
(** Following up to [n] redirects *)
Fixpoint hops (n : nat) (p : bytes) : bytes :=
  match n with
  | O => p
  | S n' => match answer_to p with SRedirect to => hops n' (follow p to) | _ => p end
  end.
Definition over (n : nat) (p : bytes) : Prop := forall to, answer_to (hops n p) <> SRedirect to.
Lemma over_step n p : (forall to, answer_to p = SRedirect to -> over n (follow p to)) -> over (S n) p.
Proof. intros H to. cbn [hops]. destruct (answer_to p) as [f0|to'| |] eqn:E; try (rewrite E; discriminate). now apply H. Qed.
Lemma over_more n p : over n p -> over (S n) p.
Proof.
  revert p. induction n as [|n IH]; intros p H; apply over_step; intros to E.
  - destruct (H to E).
  - apply IH. intros to'. specialize (H to'). cbn [hops] in H. now rewrite E in H.
Qed.
Lemma redirect_clean p to : answer_to p = SRedirect to -> clean_path p = p -> (exists d, p = d ++ b "/index.html" /\ to = b "./") \/ exists x, In x names /\ p = 47 :: x ++ [47] /\ to = b "../" ++ x.
Proof. intros H E. destruct (redirect_cases p to H) as [(Nc & _)|[(_ & X)|X]]; [contradiction|now left|now right]. Qed.
Lemma redirect_dirty p : clean_path p <> p -> answer_to p = SRedirect (clean_path p) /\ follow p (clean_path p) = clean_path p.
Proof.
  intros H. unfold serve. rewrite (beqb_no _ _ H). split; [reflexivity|]. destruct p as [|c p]; [reflexivity|]. rewrite clean_path_address by discriminate.
  unfold address. destruct (leads [] (c :: p)); reflexivity.
Qed.
Lemma over_name x : In x names -> over 0 (47 :: x).
Proof.
  intros I to E. cbn [hops] in E. assert (Q : clean_path (47 :: x) = 47 :: x /\ last (47 :: x) 0 <> 47 /\ ends_with (b "/index.html") (47 :: x) = false).
  { assert (Q : forallb (fun x => beqb (clean_path (47 :: x)) (47 :: x) && negb (last (47 :: x) 0 =? 47) && negb (ends_with (b "/index.html") (47 :: x))) names = true) by reflexivity.
    rewrite forallb_forall in Q. specialize (Q x I). apply andb_true_iff in Q as [Q Q3]. apply andb_true_iff in Q as [Q1 Q2]. apply beqb_eq in Q1. apply negb_true_iff in Q2, Q3. apply N.eqb_neq in Q2. auto. }
  destruct Q as (Q1 & Q2 & Q3). destruct (redirect_clean _ _ E Q1) as [(d & Ed & _)|(y & _ & Ey & _)].
  - rewrite Ed in Q3. unfold ends_with in Q3. now rewrite rev_app_distr, has_prefix_intro in Q3.
  - rewrite Ey in Q2. apply Q2. exact (last_last (47 :: y) 47 0).
Qed.
Lemma over_clean n p : (forall to, answer_to p = SRedirect to -> clean_path p <> p -> over n (clean_path p)) ->
  (forall to, answer_to p = SRedirect to -> clean_path p = p -> over n (follow p to)) -> over (S n) p.
Proof.
  intros H1 H2. apply over_step. intros to E. destruct (beqb (clean_path p) p) eqn:B.
  - apply beqb_eq in B. now apply H2.
  - assert (Nc : clean_path p <> p) by (intros X; rewrite X, beqb_refl in B; discriminate B). destruct (redirect_dirty p Nc) as (R1 & R2). assert (to = clean_path p) by congruence. subst. rewrite R2. eapply H1; eauto.
Qed.
Lemma over_name_slash x to : In x names -> answer_to (47 :: x ++ [47]) = SRedirect to -> to = b "../" ++ x -> over 1 (follow (47 :: x ++ [47]) to).
Proof.
  intros I E ->. assert (Q : forallb (fun x => beqb (clean_path (follow (47 :: x ++ [47]) (b "../" ++ x))) (47 :: x) && negb (beqb (follow (47 :: x ++ [47]) (b "../" ++ x)) (47 :: x))) names = true) by reflexivity.
  rewrite forallb_forall in Q. specialize (Q x I). apply andb_true_iff in Q as [Q1 Q2]. apply beqb_eq in Q1. set (f := follow _ _) in *.
  apply over_clean; intros to' _ Hc; [rewrite Q1; now apply over_name|]. rewrite Hc in Q1. rewrite Q1, beqb_refl in Q2. discriminate Q2.
Qed.
Lemma over_slash p : clean_path p = p -> last p 0 = 47 -> over 2 p.
Proof.
  intros C L. apply over_step. intros to E. destruct (redirect_clean p to E C) as [(d & Ed & _)|(x & I & -> & ->)].
  - subst p. replace (last (d ++ b "/index.html") 0) with 108 in L; [discriminate L|]. change (b "/index.html") with (b "/index.htm" ++ [108]). now rewrite app_assoc, last_last.
  - now apply over_name_slash.
Qed.
Lemma clean_path_slash p : last p 0 = 47 -> last (clean_path p) 0 = 47.
Proof.
  intros L. assert (Np : p <> []) by (intros ->; discriminate L). rewrite clean_path_address by exact Np. rewrite L. pose proof (leads_plain p) as F. destruct (leads [] p) as [|x l]; [reflexivity|].
  apply N.eqb_eq. now apply address_last.
Qed.
Lemma over_index d : over 3 (follow (d ++ b "/index.html") (b "./")).
Proof.
  apply over_clean.
  - intros _ _ _. apply over_slash; [apply clean_path_idem|]. apply clean_path_slash. unfold follow. change (b "./") with [46; 47]. cbv iota. change (46 =? 47) with false. cbv iota.
    change (b "/index.html") with (47 :: b "index.html"). rewrite (upto_end d _) by apply index_plain. rewrite <- app_assoc. change ([47] ++ [46; 47]) with ([47; 46] ++ [47]). rewrite app_assoc. apply last_last.
  - intros t _ Hx. exfalso. revert Hx. unfold follow. change (b "./") with [46; 47]. cbv iota. change (46 =? 47) with false. cbv iota.
    change (b "/index.html") with (47 :: b "index.html"). rewrite (upto_end d _) by apply index_plain. intros Hx.
    set (r := (d ++ [47]) ++ [46; 47]) in *. assert (Nr : r <> []) by (unfold r; destruct d; discriminate).
    pose proof (leads_plain r) as F. rewrite (clean_path_address r Nr) in Hx. assert (Lr : (last r 0 =? 47) = true) by (apply N.eqb_eq; unfold r; change [46; 47] with ([46] ++ [47]); rewrite app_assoc; apply last_last).
    rewrite Lr in Hx. destruct (leads [] r) as [|y l] eqn:El; [apply (f_equal (@length N)) in Hx; unfold r in Hx; rewrite !app_length in Hx; cbn in Hx; lia|].
    assert (P : parts r = [] :: (y :: l) ++ [[]]).
    { rewrite <- Hx. cbn [address]. change (b "/") with (47 :: []). rewrite parts_slash, parts_slashed by (try exact F; discriminate). reflexivity. }
    unfold r in P. rewrite <- app_assoc in P. change ([47] ++ [46; 47]) with (47 :: b "." ++ 47 :: []) in P. rewrite !parts_slash in P. change (parts (b ".")) with [b "."] in P. change (parts []) with [@nil N] in P.
    rewrite app_assoc in P. change ([] :: (y :: l) ++ [[]]) with (([] :: y :: l) ++ [[]]) in P. apply app_inj_tail in P as [P _].
    assert (J : In (b ".") ([] :: y :: l)) by (rewrite <- P; apply in_or_app; right; now left). destruct J as [J|J]; [discriminate J|]. rewrite Forall_forall in F. now destruct (F _ J) as (_ & _ & X & _).
Qed.
Lemma over_4 q to : answer_to q = SRedirect to -> clean_path q = q -> over 3 (follow q to).
Proof. intros E C. destruct (redirect_clean q to E C) as [(d & -> & ->)|(x & I & -> & ->)]; [apply over_index|now apply over_more, over_more, over_name_slash]. Qed.
(** Following redirects comes to an end after at most five of them. *)
Theorem C129_ends p to : answer_to (hops 5 p) <> SRedirect to.
Proof.
  apply (over_clean 4); intros to' E Hc; [|now apply over_more, over_4]. apply over_clean; intros t E' Hc'; [destruct Hc'; apply clean_path_idem|]. now apply over_4.
Qed.
(** Wherever it ends, it is the place asked for, up to names of indices. *)
Lemma hops_place n : forall p, exists k, leads [] p = leads [] (hops n p) ++ repeat (b "index.html") k.
Proof.
  induction n as [|n IH]; intros p; [exists O; cbn; now rewrite app_nil_r|]. cbn [hops]. destruct (answer_to p) as [f0|to| |] eqn:E; try (exists O; cbn; now rewrite app_nil_r).
  destruct (IH (follow p to)) as (k & Ek). destruct (C129_place p to E) as [Ep|Ep]; [exists k; congruence|]. exists (S k). rewrite Ep, Ek, <- app_assoc. f_equal.
  change [b "index.html"] with (repeat (b "index.html") 1). rewrite <- repeat_app. f_equal. lia.
Qed.
(** Whoever asks for one of the four files gets it, however the path is written, *)
Theorem C129_found p x : rooted cwd = true -> In x names -> leads [] p = [x] ->
  exists f, leads (leads [] cwd) f = leads (leads [] cwd) dir ++ [x] /\ (exists_file f = true -> answer_to (hops 5 p) = SFile f).
Proof.
  intros Rc I L. exists (place cwd dir x). split; [apply place_where; [exact Rc|now apply names_plain]|]. intros Ef.
  destruct (hops_place 5 p) as (k & Ek). pose proof (C129_ends p) as T. set (q := hops 5 p) in *. clearbody q. rewrite L in Ek.
  assert (Lq : leads [] q = [x]).
  { destruct k as [|k]; [cbn in Ek; now rewrite app_nil_r in Ek|]. exfalso. change (S k) with (1 + k)%nat in Ek. rewrite Nat.add_comm, repeat_app in Ek. cbn [repeat] in Ek. rewrite app_assoc in Ek.
    change [x] with ([] ++ [x]) in Ek. apply app_inj_tail in Ek as [_ ->]. cbn in I. repeat (destruct I as [I|I]; [discriminate I|]). exact I. }
  assert (C : clean_path q = q).
  { destruct (beqb (clean_path q) q) eqn:B; [now apply beqb_eq in B|]. exfalso. apply (T (clean_path q)). apply redirect_dirty. intros X. rewrite X, beqb_refl in B. discriminate B. }
  assert (Nq : q <> []) by (intros ->; discriminate C). rewrite (clean_path_address q Nq), Lq in C. cbn [address slashed] in C. rewrite app_nil_r in C.
  destruct (last q 0 =? 47) eqn:Sl.
  - exfalso. change (b "/") with [47] in C. apply (T (b "../" ++ x)). rewrite <- C. clear -I Ef no_name.
    assert (Q : forallb (fun x => beqb (clean_path ((47 :: x) ++ [47])) ((47 :: x) ++ [47]) && negb (beqb ((47 :: x) ++ [47]) (b "/")) && negb (ends_with (b "/index.html") ((47 :: x) ++ [47])) && beqb (io_name (clean ((47 :: x) ++ [47]))) x && beqb (base ((47 :: x) ++ [47])) x && (last ((47 :: x) ++ [47]) 0 =? 47)) names = true) by reflexivity.
    rewrite forallb_forall in Q. specialize (Q x I). apply andb_true_iff in Q as [Q Q6]. apply andb_true_iff in Q as [Q Q5]. apply andb_true_iff in Q as [Q Q4]. apply andb_true_iff in Q as [Q Q3]. apply andb_true_iff in Q as [Q1 Q2].
    unfold serve. rewrite Q1. unfold handler. apply negb_true_iff in Q2, Q3. rewrite Q2. unfold file_server. cbv zeta. change (rooted ((47 :: x) ++ [47])) with true. cbv iota. rewrite Q3.
    apply beqb_eq in Q4, Q5. rewrite Q4, C121_lookup. replace (existsb (beqb x) names) with true by (symmetry; apply existsb_exists; exists x; split; [exact I|apply beqb_refl]). now rewrite Ef, Q6, Q5.
  - rewrite app_nil_r in C. rewrite <- C. apply C121_served; [exact no_name|]. split; [exact Ef|]. right. now exists x.
Qed.
(** and whoever gets a file has asked for it, or for an index below it. *)
Theorem C129_only n p f : rooted cwd = true -> answer_to (hops n p) = SFile f ->
  exists k, leads [] p = repeat (b "index.html") k /\ leads (leads [] cwd) f = leads (leads [] cwd) dir ++ [b "index.html"] \/
    exists x, In x names /\ leads [] p = x :: repeat (b "index.html") k /\ leads (leads [] cwd) f = leads (leads [] cwd) dir ++ [x].
Proof.
  intros Rc H. destruct (hops_place n p) as (k & Ek). exists k. apply C121_served in H; [|exact no_name]. destruct H as (_ & [(E & ->)|(x & I & E & ->)]); rewrite E in Ek; rewrite Ek.
  - left. split; [reflexivity|]. apply leads_join2, index_plain.
  - right. exists x. split; [exact I|]. destruct (names_plain x I) as (X0 & Xs & X1 & X2). split; [|apply place_where; [exact Rc|now apply names_plain]]. rewrite leads_fold. change (rooted (47 :: x)) with true. change (parts (47 :: x)) with ([] :: parts x).
    rewrite (parts_plain x Xs). change (fold_left step [[]; x] []) with (step [] x). now rewrite step_plain.
Qed.
End Hops.
Print Assumptions C129_place.
Print Assumptions C129_ends.
Print Assumptions C129_found.
Print Assumptions C129_only.

Definition hall (f : bytes) : bool := existsb (beqb f) [b "/srv/www/index.html"; b "/srv/www/hwt.css"; b "/etc/passwd"].
Definition from (p : bytes) := let q := hops hall (b "/srv") (b "/etc/../srv/x/../www") 5 p in (q, snd (serve hall (b "/srv") (b "/etc/../srv/x/../www") false q)).
Example C129_example :
  hall [] = false /\ rooted (b "/srv") = true /\ leads [b "srv"] (b "/etc/../srv/x/../www") = [b "srv"; b "www"] /\ leads [b "srv"] (b "../../../a/./b//") = [b "a"; b "b"] /\
  map (fun p => from (b p)) ["/..//hwt.css/./index.html"; "//x/../hwt.css"; "/index.html"; "/style.css"; "/../../etc/passwd"; "/x/index.html"; ""]%string =
    [(b "/hwt.css", SFile (b "/srv/www/hwt.css")); (b "/hwt.css", SFile (b "/srv/www/hwt.css")); (b "/", SFile (b "/srv/www/index.html")); (b "/style.css", SNotFound);
     (b "/etc/passwd", SNotFound); (b "/x/", SNotFound); (b "/", SFile (b "/srv/www/index.html"))] /\
  leads [] (b "/..//hwt.css/./index.html") = [b "hwt.css"; b "index.html"] /\ leads [] (b "//x/../hwt.css") = [b "hwt.css"] /\
  snd (serve hall (b "/srv") (b "www") false (b "/a/../hwt.css/")) = SRedirect (b "/hwt.css/") /\ follow (b "/hwt.css/") (b "../hwt.css") = b "/hwt.css/../hwt.css".
Proof. repeat split; vm_compute; reflexivity. Qed.
