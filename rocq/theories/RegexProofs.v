(** A leading or trailing .* of a regular expression changes nothing in what it finds. *)
From Verif Require Import Bytes Utf8 Oracles RegexSpec.
From Coq Require Import ZifyBool ZifyN ZifyNat.

Section Syntax.
Context (same : N -> N -> Prop).
Notation dot := (XSet (fun c => c <> 10)).
Notation sequence := (RegexSpec.sequence same). Notation alternatives := (RegexSpec.alternatives same).
Notation piece := (RegexSpec.piece same). Notation atom := (RegexSpec.atom same).

Lemma dot_star : piece (b ".*") (XStar dot).
Proof. change (b ".*") with (b "." ++ b "*" ++ []). apply pc_star; [constructor|now left]. Qed.

Lemma finds_alt r s x : finds (XAlt r s) x <-> finds r x \/ finds s x.
Proof.
  split.
  - intros (a & m & z & -> & H). inversion H; subst; [left|right]; exists a, m, z; auto.
  - intros [(a & m & z & -> & H)|(a & m & z & -> & H)]; exists a, m, z; (split; [reflexivity|]); [now apply rm_alt1|now apply rm_alt2].
Qed.
Lemma finds_skip r s x : (forall a z, rx_matches r a [] z) -> finds (XSeq r s) x <-> finds s x.
Proof.
  intros E. split.
  - intros (a & m & z & -> & H). inversion H as [| |r0 s0 a0 y y' z0 H1 H2| | | | | | | |]; subst. exists (a ++ y), y', z. split; [now rewrite !app_assoc|exact H2].
  - intros (a & m & z & -> & H). exists a, m, z. split; [reflexivity|]. change m with ([] ++ m). apply rm_seq; [apply E|]. now rewrite app_nil_r.
Qed.
Lemma leading u v : alternatives u v -> exists r, alternatives (b ".*" ++ u) r /\ forall x, finds r x <-> finds v x.
Proof.
  assert (St : forall a z, rx_matches (XStar dot) a [] z) by (intros; apply rm_star0).
  intros A. destruct A as [t r H|t r u s H A].
  - exists (XSeq (XStar dot) r). split; [apply al_last, sq_piece; [apply dot_star|exact H]|]. intros x. now apply finds_skip.
  - exists (XAlt (XSeq (XStar dot) r) s). split.
    + rewrite app_assoc. apply al_more; [|exact A]. apply sq_piece; [apply dot_star|exact H].
    + intros x. rewrite !finds_alt, (finds_skip _ _ _ St). reflexivity.
Qed.

(** At the end: the same beginnings of matches *)
Definition extends (r' r : rx) : Prop :=
  (forall x y z, rx_matches r x y z -> rx_matches r' x y z) /\
  (forall x y z, rx_matches r' x y z -> exists y1 y2, y = y1 ++ y2 /\ rx_matches r x y1 (y2 ++ z)).
Lemma extends_finds r' r x : extends r' r -> finds r' x <-> finds r x.
Proof.
  intros [E F]. split; intros (a & m & z & -> & H).
  - apply F in H as (y1 & y2 & -> & H). exists a, y1, (y2 ++ z). split; [now rewrite <- !app_assoc|exact H].
  - exists a, m, z. auto.
Qed.
Lemma sequence_trailing t r : sequence t r -> exists r', sequence (t ++ b ".*") r' /\ extends r' r.
Proof.
  intros H. induction H as [|t r u s P H (r' & H' & E)].
  - exists (XSeq (XStar dot) XEmpty). split; [change ([] ++ b ".*") with (b ".*" ++ []); apply sq_piece; [apply dot_star|constructor]|]. split.
    + intros x y z M. inversion M; subst. exact (rm_seq _ _ x [] [] z (rm_star0 _ _ _) (rm_empty _ _)).
    + intros x y z M. exists [], y. split; [reflexivity|constructor].
  - exists (XSeq r r'). split; [rewrite <- app_assoc; now apply sq_piece|]. destruct E as [E F]. split.
    + intros x y z M. inversion M; subst. apply rm_seq; auto.
    + intros x y z M. inversion M as [| |r0 s0 a0 y1 y' z0 H1 H2| | | | | | | |]; subst. apply F in H2 as (y2 & y3 & -> & H2).
      exists (y1 ++ y2), y3. split; [now rewrite app_assoc|]. apply rm_seq; [now rewrite app_assoc|exact H2].
Qed.
Lemma trailing u v : alternatives u v -> exists r, alternatives (u ++ b ".*") r /\ forall x, finds r x <-> finds v x.
Proof.
  intros A. induction A as [t r H|t r u s H A (r' & A' & E)].
  - destruct (sequence_trailing t r H) as (r' & H' & E). exists r'. split; [now apply al_last|]. intros x. now apply extends_finds.
  - exists (XAlt r r'). split.
    + rewrite <- !app_assoc. now apply al_more.
    + intros x. rewrite !finds_alt, E. reflexivity.
Qed.

(** ** What an expression starts with *)
Definition escape_char (c : N) : Prop := ascii_punct c \/ In c (b "dDsSwWAzbB").
Lemma atom_start t r : atom t r -> exists c u, t = c :: u /\ (c = 92 -> exists d w, u = d :: w /\ escape_char d) /\ (~ rx_meta c -> u = []) /\ (c = 92 \/ ~ In c (b "+*?)|{")).
Proof.
  Ltac esc tac := exists 92; eexists; split; [reflexivity|]; split; [intros _; do 2 eexists; split; [reflexivity|]; tac|];
    split; [intros X; exfalso; apply X; cbn; tauto|now left].
  Ltac oth k := exists k; eexists; split; [reflexivity|]; split; [discriminate|]; split; [intros X; exfalso; apply X; cbn; tauto|right; cbn; intuition discriminate].
  intros A. destruct A as [c H|c H|c P H| |t P H M|t P H M| | | | | | |t r H|t r H].
  - exists c, []. split; [reflexivity|]. split; [intros ->; exfalso; apply H; cbn; tauto|]. split; [auto|]. right. intros I. apply H. unfold rx_meta. cbn in *. tauto.
  - esc ltac:(now left).
  - esc ltac:(right; destruct H; cbn; tauto).
  - oth 46.
  - oth 91.
  - oth 91.
  - oth 94.
  - esc ltac:(right; cbn; tauto).
  - oth 36.
  - esc ltac:(right; cbn; tauto).
  - esc ltac:(right; cbn; tauto).
  - esc ltac:(right; cbn; tauto).
  - oth 40.
  - oth 40.
Qed.
Lemma piece_start t r : piece t r -> exists a l r', t = a ++ l /\ atom a r' /\ (l = [] \/ exists c m, l = c :: m /\ In c (b "*+?")).
Proof.
  intros P. destruct P as [t r A|t r l A L|t r l A L|t r l A L].
  - exists t, [], r. rewrite app_nil_r. auto.
  - exists t, (b "*" ++ l), r. split; [reflexivity|]. split; [exact A|]. right. do 2 eexists. split; [reflexivity|]. cbn. tauto.
  - exists t, (b "+" ++ l), r. split; [reflexivity|]. split; [exact A|]. right. do 2 eexists. split; [reflexivity|]. cbn. tauto.
  - exists t, (b "?" ++ l), r. split; [reflexivity|]. split; [exact A|]. right. do 2 eexists. split; [reflexivity|]. cbn. tauto.
Qed.
(** After a backslash comes one of the characters that make an escape. *)
Lemma sequence_escape u r : sequence (92 :: u) r -> exists d w, u = d :: w /\ escape_char d.
Proof.
  intros H. inversion H as [|t r1 v s P H' E]; subst. destruct (piece_start t r1 P) as (a & l & r' & -> & A & _).
  destruct (atom_start a r' A) as (c & w & -> & Es & _ & _). cbn in E. injection E as -> <-. destruct (Es eq_refl) as (d & w' & -> & D). do 2 eexists. split; [reflexivity|exact D].
Qed.
(** An ordinary character is followed by a sequence, unless by a repetition. *)
Lemma sequence_char c u r : ~ rx_meta c -> (forall d v, u = d :: v -> ~ In d (b "*+?")) -> sequence (c :: u) r -> exists s, sequence u s.
Proof.
  intros Nm Nr H. inversion H as [|t r1 v s P H' E]; subst. destruct (piece_start t r1 P) as (a & l & r' & -> & A & L).
  destruct (atom_start a r' A) as (c' & w & -> & _ & On & _). cbn in E. injection E as -> <-. rewrite (On Nm) in *. cbn in *.
  destruct L as [->|(d & m & -> & I)]; [eauto|]. exfalso. apply (Nr d (m ++ v)); auto.
Qed.
End Syntax.

(** ** Literal text *)
Lemma literal_matches t : forall x y z, rx_matches (literal_rx t) x y z <-> y = t.
Proof.
  induction t as [|c t IH]; intros x y z; cbn [literal_rx].
  - split; [intros H; now inversion H|intros ->; constructor].
  - split.
    + intros H. inversion H as [| |r0 s0 a0 y1 y' z0 H1 H2| | | | | | | |]; subst. inversion H1; subst. apply IH in H2. now subst.
    + intros ->. change (c :: t) with ([c] ++ t). apply rm_seq; [now constructor|now apply IH].
Qed.
Lemma finds_literal t x : finds (literal_rx t) x <-> exists u v, x = u ++ t ++ v.
Proof.
  split.
  - intros (a & m & z & -> & H). apply literal_matches in H. subst. eauto.
  - intros (u & v & ->). exists u, t, v. split; [reflexivity|]. now apply literal_matches.
Qed.

Fixpoint begins (t x : list N) : bool :=
  match t, x with [], _ => true | c :: t, d :: x => (c =? d) && begins t x | _, _ => false end.
Fixpoint occurs (t x : list N) : bool := begins t x || match x with [] => false | _ :: x' => occurs t x' end.
Lemma begins_spec t : forall x, begins t x = true <-> exists v, x = t ++ v.
Proof.
  induction t as [|c t IH]; intros x; cbn; [split; [eauto|auto]|]. destruct x as [|d x]; [split; [discriminate|intros (v & E); discriminate]|].
  rewrite andb_true_iff, IH, N.eqb_eq. split; [intros [-> (v & ->)]; eauto|]. intros (v & E). injection E as -> ->. eauto.
Qed.
Lemma occurs_spec t x : occurs t x = true <-> exists u v, x = u ++ t ++ v.
Proof.
  induction x as [|d x IH]; cbn [occurs]; rewrite orb_true_iff, begins_spec.
  - split; [intros [(v & E)|]; [exists [], v; exact E|discriminate]|]. intros (u & v & E). left. destruct u; [eauto|discriminate].
  - rewrite IH. split.
    + intros [(v & E)|(u & v & ->)]; [exists [], v; exact E|exists (d :: u), v; reflexivity].
    + intros ([|c u] & v & E); [left; eauto|right]. injection E as -> ->. eauto.
Qed.

(** ** Reading a few patterns *)
Section Reading.
Context (same : N -> N -> Prop).
Lemma atom_dot w r : atom same (46 :: w) r -> w = [] /\ r = XSet (fun c => c <> 10).
Proof. intros A. inversion A; subst; try discriminate; auto. exfalso. match goal with H : ~ rx_meta 46 |- _ => apply H; cbn; tauto end. Qed.
Lemma atom_plain c w r : ~ rx_meta c -> atom same (c :: w) r -> w = [] /\ r = one_of same c.
Proof. intros Nm A. inversion A; subst; auto; exfalso; apply Nm; cbn; tauto. Qed.
Lemma atom_not_rep c w r : In c (b "+*?)|{") -> ~ atom same (c :: w) r.
Proof.
  intros I A. destruct (atom_start same _ _ A) as (c' & u & E & _ & _ & [X|X]); injection E; intros; subst; [cbn in I; intuition discriminate|tauto].
Qed.
Lemma sequence_not_rep c w r : In c (b "+*?)|{") -> ~ sequence same (c :: w) r.
Proof.
  intros I H. inversion H as [|t r1 v s P H' E]; subst. destruct (piece_start same t r1 P) as (a & l & r' & -> & A & _).
  destruct (atom_start same a r' A) as (c' & w' & -> & _). injection E as -> _. exact (atom_not_rep c w' r' I A).
Qed.
Lemma sequence_nil r : sequence same [] r -> r = XEmpty.
Proof.
  intros H. inversion H as [|t r1 v s P H' E]; subst; [reflexivity|]. destruct (piece_start same t r1 P) as (a & l & r' & -> & A & _).
  destruct (atom_start same a r' A) as (c' & w' & -> & _). discriminate.
Qed.
Lemma one_alternative t r : ~ In 124 t -> alternatives same t r -> sequence same t r.
Proof. intros Nb A. inversion A as [|t1 r1 u s H A' E]; subst; [assumption|]. exfalso. apply Nb, in_or_app. right. now left. Qed.
Lemma sequence_one c r : ~ rx_meta c -> sequence same [c] r -> r = XSeq (one_of same c) XEmpty.
Proof.
  intros Nm H. inversion H as [|t r1 v s P H' E]; subst.
  destruct P as [t r A|t r l A L|t r l A L|t r l A L]; destruct (atom_start same _ _ A) as (c' & w' & -> & _); cbn in E; injection E as -> E.
  - destruct (atom_plain c w' r Nm A) as [-> ->]. cbn in E. subst v. apply sequence_nil in H'. now subst.
  - destruct w'; discriminate.
  - destruct w'; discriminate.
  - destruct w'; discriminate.
Qed.
Lemma sequence_dot_star u r : (forall d v, u = d :: v -> d <> 63) -> sequence same (b ".*" ++ u) r -> exists s, sequence same u s /\ r = XSeq (XStar (XSet (fun c => c <> 10))) s.
Proof.
  intros Nq H. inversion H as [|t r1 v s P H' E]; subst.
  destruct P as [t r A|t r l A L|t r l A L|t r l A L]; destruct (atom_start same _ _ A) as (c' & w' & -> & _); cbn in E; injection E as -> E; destruct (atom_dot w' r A) as [-> ->]; cbn in E.
  - subst v. exfalso. refine (sequence_not_rep 42 u s _ H'). cbn. tauto.
  - injection E as E. destruct L as [->| ->]; cbn in E; [subst v; eauto|]. exfalso. exact (Nq 63 v (eq_sym E) eq_refl).
  - discriminate.
  - discriminate.
Qed.
Lemma finds_one c x : (forall d, same c d <-> c = d) -> finds (XSeq (one_of same c) XEmpty) x <-> In c x.
Proof.
  intros Sm. split.
  - intros (a & m & z & -> & H). inversion H as [| |r0 s0 a0 y y' z0 H1 H2| | | | | | | |]; subst. inversion H1; subst. match goal with X : same c _ |- _ => apply Sm in X; subst end. apply in_or_app. right. now left.
  - intros I. apply in_split in I as (u & v & ->). exists u, [c], v. split; [reflexivity|]. change [c] with ([c] ++ []). apply rm_seq; constructor. now apply Sm.
Qed.
End Reading.
