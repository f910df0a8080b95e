(** jsonmatcher/field_stats.go mark (101-170), called by several goroutines at a time.  What is
    indivisible: TimesSampled.Inc (102), TimesSeen.Inc (124), TimesSampled.Load (126), and addExample
    (144, 166), which holds a lock (185). *)
From Verif Require Import Bytes Json Values JsonParser FieldStats.

(** The parts of a call that are still to be done; [i] is the Go variable which. *)
Inductive micro := MInc | MSeen (i : nat) | MLoad (i : nat) (v : jvalue) | MAdd (i : nat) (v : jvalue).
(** 101-126 *)
Definition call_micros (vs : list jvalue) (in_array : bool) : list micro :=
  MInc :: flat_map (fun v => [MSeen (which (snd v) in_array); MLoad (which (snd v) in_array) v]) vs.

(** One part: the new state and what the call has to do next because of it. *)
Definition do_micro (m : micro) (fs : field_stats) : res (field_stats * list micro) :=
  let at_type i (f : encountered -> res encountered) :=
    match nth_error (fs_types fs) i with
    | None => Panic
    | Some e => bind (f e) (fun e' => Ok ({| fs_sampled := fs_sampled fs; fs_types := set_nth i e' (fs_types fs) |}, []))
    end in
  match m with
  | MInc => (* 102 *) Ok ({| fs_sampled := fs_sampled fs + 1; fs_types := fs_types fs |}, [])
  | MSeen i => (* 124 *) at_type i (fun e => Ok {| en_seen := en_seen e + 1; en_matched := en_matched e; en_examples := en_examples e |})
  | MLoad i v => (* 126 *) Ok (fs, if (i <? 6)%nat && (fs_sampled fs mod field_mark_window =? 0) then [MAdd i v] else [])
  | MAdd i v => (* 144, 166 *)
    at_type i (fun e => match en_examples e with
                        | None => Panic
                        | Some el => Ok {| en_seen := en_seen e; en_matched := en_matched e; en_examples := Some (add_example (example_of v) el) |}
                        end)
  end.

(** Any of the calls goes on by one part. *)
Inductive cstep : field_stats * list (list micro) -> field_stats * list (list micro) -> Prop :=
| cs_go fs ts1 m t ts2 fs' ms : do_micro m fs = Ok (fs', ms) -> cstep (fs, ts1 ++ (m :: t) :: ts2) (fs', ts1 ++ (ms ++ t) :: ts2).
Inductive crun : field_stats * list (list micro) -> field_stats * list (list micro) -> Prop :=
| cr_done s : crun s s
| cr_more s s1 s2 : cstep s s1 -> crun s1 s2 -> crun s s2.
(** A call is about to panic. *)
Definition panics_next (s : field_stats * list (list micro)) : Prop :=
  exists m t, In (m :: t) (snd s) /\ do_micro m (fst s) = Panic.
