(** The JSON of field statistics (jsonmatcher/field_stats.go:61-65, 79-97, 172-182): what encoding/json
    writes for a FieldStats, and what its method MarshalJson returns.

    encoding/json looks for a method MarshalJSON; the one declared here is called MarshalJson, so that
    the structs are written member by member.  atomic.Int64 (go.uber.org/atomic v1.9.0) has MarshalJSON
    for *Int64, which encoding/json calls only for a field it can take the address of (encode.go
    condAddrEncoder); otherwise the counter is a struct without exported fields. *)
From Verif Require Import Bytes Json Values JsonParser FieldStats Marshal.
From Coq Require Import String.

(** atomic.Int64; the counters of the model are not negative *)
Definition counter_tree (addressed : bool) (n : N) : jtree := if addressed then TInt (Z.of_N n) else TObj [].
(** 172-182: a nil pointer is omitted; an ExampleList has no exported fields *)
Definition encountered_tree (addressed : bool) (e : encountered) : jtree :=
  TObj ([("times_seen", counter_tree addressed (en_seen e)); ("times_matched", counter_tree addressed (en_matched e))]%string ++
        match en_examples e with Some _ => [("examples", TObj [])]%string | None => [] end).
(** a slice of strings, nil or not *)
Definition strings_tree (l : option (list bytes)) : jtree := match l with Some l => TList (map TStr l) | None => TNull end.
(** 61-65; the field Expecting is not part of [field_stats] *)
Definition field_tree (addressed : bool) (expecting : option (list bytes)) (fs : field_stats) : jtree :=
  TObj [("expecting", strings_tree expecting); ("times_sampled", counter_tree addressed (fs_sampled fs));
        ("types_encountered", TList (map (encountered_tree addressed) (fs_types fs)))]%string.

(** 44-57 encounteredName, as names of members *)
Definition encountered_key : list string :=
  ["string"; "string (in array)"; "number"; "number (in array)"; "object"; "object (in array)";
   "boolean"; "boolean (in array)"; "array"; "array (in array)"; "null"; "null (in array)"]%string.
(** encode.go mapEncoder: the members of a map are sorted by name *)
Fixpoint put_sorted (m : string * jtree) (l : list (string * jtree)) : list (string * jtree) :=
  match l with
  | [] => [m]
  | x :: r => if String.leb (fst m) (fst x) then m :: l else x :: put_sorted m r
  end.
Definition map_tree (l : list (string * jtree)) : jtree := TObj (fold_right put_sorted [] l).
(** 84-92; a nil list of examples makes Get panic *)
Fixpoint encountered_map (l : list (string * encountered)) : res (list (string * jtree)) :=
  match l with
  | [] => Ok []
  | (name, e) :: r =>
    if en_seen e =? 0 then encountered_map r
    else match en_examples e with
         | None => Panic
         | Some el =>
           bind (encountered_map r) (fun l =>
             Ok ((name, map_tree [("times_seen", TInt (Z.of_N (en_seen e))); ("times_matched", TInt (Z.of_N (en_matched e)));
                                  ("examples", strings_tree (Some (get_examples el)))]%string) :: l))
         end
  end.
(** 79-97 MarshalJson, before json.Marshal *)
Definition marshal_json (expecting : option (list bytes)) (fs : field_stats) : res jtree :=
  bind (encountered_map (combine encountered_key (fs_types fs))) (fun l =>
    Ok (map_tree ([("expecting", strings_tree expecting); ("times_seen", TInt (Z.of_N (fs_sampled fs)))]%string ++
                  match l with [] => [] | _ => [("encountered", map_tree l)]%string end))).
