(** Specification of the key sampler, on the trees of documents. *)
From Verif Require Import Bytes Json Values MatchSpec Sampler.
From Verif Require JsonSpec.

(** [leads d j p]: going down from [j] through the members named by [p], at most [d] of them,
    ends at a scalar.  An array stands for its elements that are not arrays. *)
Inductive leads : nat -> json -> list bytes -> Prop :=
| ld_here d v : scalar v -> leads d v []
| ld_member d ms raw name v p : In (raw, v) ms -> unescape raw = Some name -> leads d v p ->
    leads (S d) (JObj ms) (name :: p)
| ld_array d els e p : In e els -> (forall l, e <> JArr l) -> leads d e p -> leads d (JArr els) p.

(** A path as it is reported: joined with dots, names with a space in quotes. *)
Definition shown_name (name : bytes) : bytes :=
  if existsb (N.eqb 32) name then b """" ++ name ++ b """" else name.
Fixpoint shown (p : list bytes) : bytes :=
  match p with
  | [] => []
  | [n] => shown_name n
  | n :: p' => shown_name n ++ b "." ++ shown p'
  end.

(** All the ways that lead to a scalar, one for every scalar. *)
Fixpoint scalars_below (d : nat) (j : json) : list (list bytes) :=
  match j with
  | JObj ms =>
    match d with
    | 0%nat => []
    | S d' => flat_map (fun m => match unescape (fst m) with
                                 | Some name => map (cons name) (scalars_below d' (snd m))
                                 | None => []
                                 end) ms
    end
  | JArr els => flat_map (fun e => match e with JArr _ => [] | _ => scalars_below d e end) els
  | _ => [[]]
  end.

(** A name anywhere in a document. *)
Inductive has_name : json -> bytes -> Prop :=
| hn_here ms raw v : In (raw, v) ms -> has_name (JObj ms) raw
| hn_member ms k v raw : In (k, v) ms -> has_name v raw -> has_name (JObj ms) raw
| hn_element els e raw : In e els -> has_name e raw -> has_name (JArr els) raw.
Definition decodable (j : json) : Prop := forall raw, has_name j raw -> unescape raw <> None.

(** A document the sampler is meant for: an object, or an array without scalar elements; the
    text has no blanks around it; the names can be decoded. *)
Definition sampleable (text : bytes) (j : json) : Prop :=
  JsonSpec.value_text text j /\ decodable j /\
  ((exists ms, j = JObj ms) \/ (exists els, j = JArr els /\ forall e, In e els -> ~ scalar e)).

(** A history of calls of Sample, all without error. *)
Inductive samples : sampler -> list bytes -> sampler -> Prop :=
| sm_none s : samples s [] s
| sm_more s text s1 texts s2 : sample s text = Sampled false s1 -> samples s1 texts s2 ->
    samples s (text :: texts) s2.

(** The count of a key. *)
Definition count_of (k : bytes) (s : sampler) : N :=
  match sp_keys s with
  | Some m => fold_right (fun e n => if beqb k (fst e) then snd e + n else n) 0 m
  | None => 0
  end.
