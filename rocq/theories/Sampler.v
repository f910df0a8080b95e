(** sampler/sampler.go.  Counters (uint and int, 64 bit) are modelled without bound. *)
From Verif Require Import Bytes GoStrconv GoFloat Json Values JsonParser.

(** A map[string]uint: every key once. *)
Definition kmap := list (bytes * N).

(** m[k]++ *)
Fixpoint incr (k : bytes) (m : kmap) : kmap :=
  match m with
  | [] => [(k, 1)]
  | (k', n) :: m' => if beqb k k' then (k', n + 1) :: m' else (k', n) :: incr k m'
  end.

(** sampler.go:23-27; [None] is the nil map *)
Record sampler := { sp_max : Z; sp_keys : option kmap; sp_docs : Z }.

(** 31-38 New *)
Definition new_sampler (max_depth : Z) : sampler :=
  {| sp_max := max_depth; sp_keys := Some []; sp_docs := 0 |}.

(** The outcome of the inner sample: the map, an error, a panic; [SFuel] when the recursion
    bound of the model is reached. *)
Inductive sres := SOk (keys : option kmap) | SErr | SPanic | SFuel.

(** 83-90: the path with one more name *)
Definition add_segment (path key : bytes) : bytes :=
  path ++ b "." ++ (if has_byte 32 key then [34] ++ key ++ [34] else key).

(** A loop that stops at the first error or panic; [ok] is false if the iteration itself ends
    with an error. *)
Fixpoint each {A} (step : option kmap -> A -> sres) (l : list A) (ok : bool) (keys : option kmap) : sres :=
  match l with
  | [] => if ok then SOk keys else SErr
  | x :: l' => match step keys x with SOk keys' => each step l' ok keys' | r => r end
  end.

(** 75-122 sample.  The case jsonparser.Unknown (115) does not occur: jsonparser returns an
    error for such a value instead of handing it out. *)
Fixpoint sample_in (fuel : nat) (max_depth : Z) (path : bytes) (depth : Z) (keys : option kmap) (v : jvalue) : sres :=
  match fuel with
  | 0%nat => SFuel
  | S f =>
    if (max_depth <? depth)%Z then SOk keys
    else
      match snd v with
      | TObject =>                                                          (* 80-96 *)
        let (ms, ok) := object_each (fst v) in
        each (fun ks m => sample_in f max_depth (add_segment path (fst m)) (depth + 1) ks (snd m)) ms ok keys
      | TArray =>                                                           (* 97-114 *)
        let (els, ok) := array_each (fst v) in
        each (fun ks e => match snd e with TArray => SOk ks | _ => sample_in f max_depth path depth ks e end) els ok keys
      | _ =>                                                                (* 119 *)
        match path, keys with
        | _ :: k, Some m => SOk (Some (incr k m))
        | _, _ => SPanic                              (* slice bounds; assignment to nil map *)
        end
      end
  end.

(** The outcome of Sample: the error value and the new state, or a panic. *)
Inductive sample_result := Sampled (err : bool) (s : sampler) | SamplePanic | SampleFuel.

Definition last_byte (s : bytes) : N := last s 0.

(** 40-73 Sample *)
Definition sample (s : sampler) (data : bytes) : sample_result :=
  match data with
  | [] => SamplePanic                                                       (* 48: sample[0] *)
  | c :: _ =>
    let go ty :=
      match sample_in (S (length data)) (sp_max s) [] 0 (sp_keys s) (data, ty) with
      | SOk keys => Sampled false {| sp_max := sp_max s; sp_keys := keys; sp_docs := sp_docs s + 1 |}
      | SErr => Sampled true {| sp_max := sp_max s; sp_keys := None; sp_docs := sp_docs s |}
      | SPanic => SamplePanic
      | SFuel => SampleFuel
      end in
    if c =? 123 then if last_byte data =? 125 then go TObject else Sampled true s
    else if c =? 91 then if last_byte data =? 93 then go TArray else Sampled true s
    else Sampled true s
  end.

(** 124-130 Keys; the order is that of a Go map iteration, which is not specified *)
Definition keys (s : sampler) : list bytes :=
  match sp_keys s with Some m => map fst m | None => [] end.

(** Division of float64 values *)
Definition f_div (x y : f64) : f64 := SFdiv 53 1024 x y.

(** 132-141 KeysAtThreshold, up to the same order *)
Definition at_threshold (docs t : Z) (count : N) : bool :=
  f_ge (f_div (f_of_Z (Z.of_N count)) (f_of_Z docs)) (f_div (f_of_Z t) (f_of_Z 100)).
Definition keys_at_threshold (s : sampler) (t : Z) : list bytes :=
  match sp_keys s with
  | Some m => map fst (filter (fun e => at_threshold (sp_docs s) t (snd e)) m)
  | None => []
  end.

(** 143-149 Reset: deletes from the map that is there *)
Definition reset (s : sampler) : sampler :=
  {| sp_max := sp_max s; sp_keys := match sp_keys s with Some _ => Some [] | None => None end; sp_docs := 0 |}.

(** 151-153 Scanned *)
Definition scanned (s : sampler) : Z := sp_docs s.
