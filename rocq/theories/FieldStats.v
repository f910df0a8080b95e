(** jsonmatcher/field_stats.go: statistics about the values of a field.  Calls are modelled one
    after another; counters are unbounded.  Of MarshalJson, the counters and the calls of Get are modelled. *)
From Verif Require Import Bytes Json Values JsonParser.

(** 13-17 *)
Definition field_mark_window : N := 1000.
Definition field_num_examples : nat := 10.
Definition field_map_max_keys : nat := 10.

(** 178-182 ExampleList *)
Record example_list := { el_examples : list bytes; el_idx : nat }.
Definition empty_examples : example_list := {| el_examples := repeat [] field_num_examples; el_idx := 0 |}.

Fixpoint set_nth {A} (n : nat) (x : A) (l : list A) : list A :=
  match l, n with
  | [], _ => []
  | _ :: r, O => x :: r
  | y :: r, S n' => y :: set_nth n' x r
  end.

(** 184-192 addExample *)
Definition add_example (x : bytes) (el : example_list) : example_list :=
  let i := S (el_idx el) in
  let i := if Nat.eqb i (length (el_examples el)) then 0%nat else i in
  {| el_examples := set_nth i x (el_examples el); el_idx := i |}.

(** 194-205 Get: up to the first empty one *)
Fixpoint leading (l : list bytes) : list bytes :=
  match l with
  | [] => []
  | [] :: _ => []
  | x :: r => x :: leading r
  end.
Definition get_examples (el : example_list) : list bytes := leading (el_examples el).

(** 172-176 EncounteredStats; Examples is a pointer *)
Record encountered := { en_seen : N; en_matched : N; en_examples : option example_list }.
(** 61-65 FieldStats *)
Record field_stats := { fs_sampled : N; fs_types : list encountered }.

(** 67-77 NewFieldStats: the example lists are given to copies, and another value is returned *)
Definition new_field_stats : field_stats :=
  {| fs_sampled := 0; fs_types := repeat {| en_seen := 0; en_matched := 0; en_examples := None |} 12 |}.

(** 28-42 and the switch of 106-121 *)
Definition type_index (t : vtype) : nat :=
  match t with
  | TString => 0 | TNumber => 2 | TObject => 4 | TBoolean => 6 | TArray => 8 | TNull => 10
  end.
Definition which (t : vtype) (in_array : bool) : nat := type_index t + (if in_array then 1 else 0).

(** 44-57 encounteredName *)
Definition encountered_name : list bytes :=
  [b "string"; b "string (in array)"; b "number"; b "number (in array)"; b "object"; b "object (in array)";
   b "boolean"; b "boolean (in array)"; b "array"; b "array (in array)"; b "null"; b "null (in array)"].
(** 83-92: the counters MarshalJson puts under each name *)
Definition shown_counts (fs : field_stats) : list (bytes * (N * N)) :=
  map (fun x => (fst x, (en_seen (snd x), en_matched (snd x))))
    (filter (fun x => negb (en_seen (snd x) =? 0)) (combine encountered_name (fs_types fs))).

(** 127-166: the example of a value *)
Definition key_shown (k : bytes) : bytes :=
  b """" ++ match unescape k with Some s => s | None => b "<invalid key>" end ++ b """".
Fixpoint commas (l : list bytes) : bytes :=
  match l with
  | [] => []
  | [x] => x
  | x :: r => x ++ b "," ++ commas r
  end.
Definition example_of (v : jvalue) : bytes :=
  match snd v with
  | TObject =>
    b "<object with keys: " ++ commas (map (fun m => key_shown (fst m)) (firstn (S field_map_max_keys) (fst (object_each (fst v))))) ++ b ">"
  | TString => match unescape (fst v) with
               | Some [] => b "empty string"
               | Some s => s
               | None => b "invalid string"
               end
  | _ => fst v
  end.

(** 101-170 mark, one value.  An example list that is not there makes addExample panic. *)
Definition mark_value (in_array : bool) (fs : field_stats) (v : jvalue) : res field_stats :=
  let i := which (snd v) in_array in
  match nth_error (fs_types fs) i with
  | None => Panic
  | Some e =>
    let e1 := {| en_seen := en_seen e + 1; en_matched := en_matched e; en_examples := en_examples e |} in
    let put e' := {| fs_sampled := fs_sampled fs; fs_types := set_nth i e' (fs_types fs) |} in
    if (i <? 6)%nat && (fs_sampled fs mod field_mark_window =? 0) then
      match en_examples e1 with
      | None => Panic
      | Some el => Ok (put {| en_seen := en_seen e1; en_matched := en_matched e1; en_examples := Some (add_example (example_of v) el) |})
      end
    else Ok (put e1)
  end.
Fixpoint mark_values (in_array : bool) (fs : field_stats) (vs : list jvalue) : res field_stats :=
  match vs with
  | [] => Ok fs
  | v :: r => bind (mark_value in_array fs v) (fun fs' => mark_values in_array fs' r)
  end.
(** The second argument of mark, the index of the matched value, is not used by it. *)
Definition mark (fs : field_stats) (vs : list jvalue) (match_idx : Z) (in_array : bool) : res field_stats :=
  mark_values in_array {| fs_sampled := fs_sampled fs + 1; fs_types := fs_types fs |} vs.

(** 79-97 MarshalJson: the Get calls on the types that were seen *)
Definition marshal_examples (fs : field_stats) : res unit :=
  fold_right (fun e r => if en_seen e =? 0 then r else match en_examples e with Some _ => r | None => Panic end) (Ok tt) (fs_types fs).
