(** Byte strings.  A Go [string] or [[]byte] is a list of numbers; values of 256
    and more never occur in Go and are simply treated as bytes that are not UTF-8. *)
From Coq Require Export Ascii String NArith ZArith Bool Lia List.
Export ListNotations.
Open Scope list_scope.
Open Scope bool_scope.
Open Scope N_scope.

Definition bytes := list N.

(** Literal notation: [b "abc"] is the byte string abc. *)
Definition b (s : string) : bytes := map N_of_ascii (list_ascii_of_string s).

Fixpoint beqb (x y : bytes) : bool :=
  match x, y with
  | [], [] => true
  | a :: x', c :: y' => (a =? c) && beqb x' y'
  | _, _ => false
  end.

Lemma beqb_eq x y : beqb x y = true <-> x = y.
Proof.
  revert y; induction x as [|a x IH]; destruct y as [|c y]; cbn; split; try congruence; try discriminate.
  - rewrite andb_true_iff, N.eqb_eq, IH. intros [-> ->]; reflexivity.
  - intros [= -> ->]. rewrite N.eqb_refl. cbn. now apply IH.
Qed.

Lemma beqb_refl x : beqb x x = true.
Proof. now apply beqb_eq. Qed.

Lemma beqb_neq x y : beqb x y = false <-> x <> y.
Proof.
  split.
  - intros H ->. now rewrite beqb_refl in H.
  - intros H. destruct (beqb x y) eqn:E; [|reflexivity]. now apply beqb_eq in E.
Qed.

Definition bytes_eq_dec (x y : bytes) : {x = y} + {x <> y} := list_eq_dec N.eq_dec x y.

(** [strings.HasPrefix] *)
Fixpoint has_prefix (p s : bytes) : bool :=
  match p, s with
  | [], _ => true
  | a :: p', c :: s' => (a =? c) && has_prefix p' s'
  | _ :: _, [] => false
  end.

Lemma has_prefix_spec p s : has_prefix p s = true <-> exists t, s = p ++ t.
Proof.
  revert s; induction p as [|a p IH]; intros s; cbn.
  - split; [now exists s|reflexivity].
  - destruct s as [|c s]; [split; [discriminate|intros [t [=]]]|].
    rewrite andb_true_iff, N.eqb_eq, IH. split.
    + intros [-> [t ->]]. now exists t.
    + intros [t [= -> ->]]. split; [reflexivity|now exists t].
Qed.

(** [strings.Contains s (string of one byte)] *)
Definition has_byte (c : N) (s : bytes) : bool := existsb (N.eqb c) s.

Definition is_digit (c : N) : bool := (48 <=? c) && (c <=? 57).
Definition digit_val (c : N) : N := c - 48.
