(** What a JSON document is (RFC 8259), independently of any parser. *)
From Verif Require Import Bytes Json.

Definition ws_char (c : N) : Prop := c = 32 \/ c = 9 \/ c = 10 \/ c = 13.
Definition ws (s : bytes) : Prop := Forall ws_char s.

Definition digit (c : N) : Prop := 48 <= c <= 57.
Definition hexdigit (c : N) : Prop := 48 <= c <= 57 \/ 65 <= c <= 70 \/ 97 <= c <= 102.

(** int = 0 / digit1-9 digits *)
Inductive int_text : bytes -> Prop :=
| it_zero : int_text [48]
| it_digits c ds : 49 <= c <= 57 -> Forall digit ds -> int_text (c :: ds).

Inductive frac_text : bytes -> Prop :=
| ft_none : frac_text []
| ft_some ds : Forall digit ds -> ds <> [] -> frac_text (46 :: ds).

Inductive exp_text : bytes -> Prop :=
| et_none : exp_text []
| et_some e sg ds : e = 101 \/ e = 69 -> sg = [] \/ sg = [43] \/ sg = [45] ->
    Forall digit ds -> ds <> [] -> exp_text (e :: sg ++ ds).

Inductive number_text : bytes -> Prop :=
| nt sg i f e : sg = [] \/ sg = [45] -> int_text i -> frac_text f -> exp_text e ->
    number_text (sg ++ i ++ f ++ e).

(** The text between the quotes.  Bytes of 128 and above are not checked to be UTF-8. *)
Inductive string_text : bytes -> Prop :=
| st_end : string_text []
| st_char c s : 32 <= c -> c <> 34 -> c <> 92 -> string_text s -> string_text (c :: s)
| st_esc e s : In e (b "bfnrt\/") \/ e = 34 -> string_text s -> string_text (92 :: e :: s)
| st_uni h1 h2 h3 h4 s : hexdigit h1 -> hexdigit h2 -> hexdigit h3 -> hexdigit h4 ->
    string_text s -> string_text (92 :: 117 :: h1 :: h2 :: h3 :: h4 :: s).

Inductive value_text : bytes -> json -> Prop :=
| vt_null : value_text (b "null") JNull
| vt_true : value_text (b "true") (JBool true)
| vt_false : value_text (b "false") (JBool false)
| vt_num s : number_text s -> value_text s (JNum s)
| vt_str s : string_text s -> value_text (34 :: s ++ [34]) (JStr s)
| vt_arr0 w : ws w -> value_text (91 :: w ++ [93]) (JArr [])
| vt_arr s vs : elements_text s vs -> value_text (91 :: s ++ [93]) (JArr vs)
| vt_obj0 w : ws w -> value_text (123 :: w ++ [125]) (JObj [])
| vt_obj s ms : members_text s ms -> value_text (123 :: s ++ [125]) (JObj ms)
with elements_text : bytes -> list json -> Prop :=
| el_one w1 s w2 v : ws w1 -> value_text s v -> ws w2 -> elements_text (w1 ++ s ++ w2) [v]
| el_more w1 s w2 v t vs : ws w1 -> value_text s v -> ws w2 -> elements_text t vs ->
    elements_text (w1 ++ s ++ w2 ++ 44 :: t) (v :: vs)
with members_text : bytes -> list (bytes * json) -> Prop :=
| mb_one w1 k w2 w3 s w4 v : ws w1 -> string_text k -> ws w2 -> ws w3 -> value_text s v -> ws w4 ->
    members_text (w1 ++ 34 :: k ++ 34 :: w2 ++ 58 :: w3 ++ s ++ w4) [(k, v)]
| mb_more w1 k w2 w3 s w4 v t ms : ws w1 -> string_text k -> ws w2 -> ws w3 -> value_text s v -> ws w4 ->
    members_text t ms ->
    members_text (w1 ++ 34 :: k ++ 34 :: w2 ++ 58 :: w3 ++ s ++ w4 ++ 44 :: t) ((k, v) :: ms).

(** How deeply containers are nested. *)
Fixpoint nesting (j : json) : nat :=
  match j with
  | JArr vs => S (fold_right (fun v n => Nat.max (nesting v) n) 0%nat vs)
  | JObj ms => S (fold_right (fun m n => Nat.max (nesting (snd m)) n) 0%nat ms)
  | _ => 0%nat
  end.

(** [text] is a JSON document with tree [j]; the Go library additionally refuses documents
    nested more than 10000 deep. *)
Definition document (text : bytes) (j : json) : Prop :=
  exists w1 s w2, text = w1 ++ s ++ w2 /\ ws w1 /\ value_text s j /\ ws w2 /\
                  (nesting j <= N.to_nat 10000)%nat.
