(** Specification: two documents that say the same.  Written without reference to the
    matcher; of the library models it uses ParseFloat and jsonparser.ParseString. *)
From Verif Require Import Bytes GoFloat Oracles Json Values.

(** Every member name can be decoded and no two names are the same. *)
Definition well_named (ms : list (bytes * json)) : Prop :=
  exists names, map (fun m => unescape (fst m)) ms = map Some names /\ NoDup names.

Section WithOracles.
Context (O : oracles).

(** The two spellings are of the same number, or neither is a number. *)
Definition same_number (x y : bytes) : Prop :=
  parse_float (o_float_other O) x = parse_float (o_float_other O) y.

(** [alike j k]: the same value up to the order of members, the order and repetition of array
    elements, and the spelling of names, numbers and strings.  A string that is spelled like
    a number must still be spelled like that number. *)
Inductive alike : json -> json -> Prop :=
| al_same j : alike j j
| al_number x y : same_number x y -> alike (JNum x) (JNum y)
| al_string x y : unescape x = unescape y -> same_number x y -> alike (JStr x) (JStr y)
| al_array els els' :
    (forall e, In e els -> exists e', In e' els' /\ alike e e') ->
    (forall e', In e' els' -> exists e, In e els /\ alike e e') ->
    alike (JArr els) (JArr els')
| al_object ms ms' : well_named ms -> well_named ms' ->
    (forall x v, In (x, v) ms -> exists x' v', In (x', v') ms' /\ unescape x' = unescape x /\ alike v v') ->
    (forall x' v', In (x', v') ms' -> exists x v, In (x, v) ms /\ unescape x' = unescape x /\ alike v v') ->
    alike (JObj ms) (JObj ms').
End WithOracles.
