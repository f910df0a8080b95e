(** Specification: a JSON document that shows a tree of integers, strings, lists and named
    members (C97). *)
From Verif Require Import Bytes Utf8 Utf8Proofs Json JsonSpec DecodeSpec Marshal.

(** The number written with decimal digits and an optional minus sign. *)
Definition decimal (ds : bytes) : Z := fold_left (fun z c => (10 * z + (Z.of_N c - 48))%Z) ds 0%Z.
Inductive writes_int : bytes -> Z -> Prop :=
| wi_plus ds : Forall digit ds -> writes_int ds (decimal ds)
| wi_minus ds : Forall digit ds -> writes_int (45 :: ds) (- decimal ds).

Inductive shows : jtree -> json -> Prop :=
| sh_null : shows TNull JNull
| sh_int z raw : writes_int raw z -> shows (TInt z) (JNum raw)
| sh_str s raw : decodes raw s -> shows (TStr s) (JStr raw)
| sh_list l vs : Forall2 shows l vs -> shows (TList l) (JArr vs)
| sh_obj l ms : Forall2 (fun m m' => decodes (fst m') (b (fst m)) /\ shows (snd m) (snd m')) l ms -> shows (TObj l) (JObj ms).

(** All texts are UTF-8. *)
Definition is_utf8 (s : bytes) : Prop := exists u, scalars u /\ s = encode u.
Inductive utf8_tree : jtree -> Prop :=
| ut_null : utf8_tree TNull
| ut_int z : utf8_tree (TInt z)
| ut_str s : is_utf8 s -> utf8_tree (TStr s)
| ut_list l : Forall utf8_tree l -> utf8_tree (TList l)
| ut_obj l : Forall (fun m => is_utf8 (b (fst m)) /\ utf8_tree (snd m)) l -> utf8_tree (TObj l).

(** How deeply lists and members are nested. *)
Fixpoint levels (t : jtree) : nat :=
  match t with
  | TList l => S (fold_right (fun v n => Nat.max (levels v) n) 0%nat l)
  | TObj l => S (fold_right (fun m n => Nat.max (levels (snd m)) n) 0%nat l)
  | _ => 0%nat
  end.
