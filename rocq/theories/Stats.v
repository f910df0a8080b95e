(** jsonmatcher: the counters of the nodes as shared memory, and goroutines using one matcher. *)
From Verif Require Import Bytes GoTime Oracles Ast Json Values StrMatch Matcher.

(** A node of a matcher, by the way to it from the root. *)
Inductive dir := DLeft | DRight | DSub.

Definition node_stat (m : mnode) : node_stats :=
  match m with MAnd _ _ st | MOr _ _ st | MNot _ st | MExpr _ _ st => st end.

(** nodes.go:14-17, 32-35, 50-53: the fields left, right and sub *)
Definition child (m : mnode) (d : dir) : option mnode :=
  match m, d with
  | MAnd l _ _, DLeft | MOr l _ _, DLeft => Some l
  | MAnd _ r _, DRight | MOr _ r _, DRight => Some r
  | MNot e _, DSub => Some e
  | _, _ => None
  end.
Fixpoint node_at (m : mnode) (p : list dir) : option node_stats :=
  match p with
  | [] => Some (node_stat m)
  | d :: p' => match child m d with Some c => node_at c p' | None => None end
  end.

(** node_stats.go:16-20: the two counters of a node *)
Inductive counter := Checked | Matched.

(** The atomic steps of a goroutine; between them it touches only its own data and the parts
    of the matcher that are never written after NewMatcher. *)
Inductive action :=
| AInc (p : list dir) (w : counter)       (** node_stats.go:23, 25 atomic Inc *)
| ALoad (p : list dir) (w : counter)      (** node_stats.go:32, 33 atomic Load *)
| ARet (r : option bool).                 (** jsonmatcher.go:39, 41: Match returns *)

(** node_stats.go:22-27 mark *)
Definition mark_steps (p : list dir) (matched : bool) : list action :=
  AInc p Checked :: if matched then [AInc p Matched] else [].

(** nodes.go:19-25, 37-43, 55-61, 98-114: the result and the steps of evaluating the node at
    [p] *)
Fixpoint trace (O : oracles) (m : mnode) (p : list dir) (root : json) : res (bool * list action) :=
  match m with
  | MAnd l r _ =>
    bind (trace O l (p ++ [DLeft]) root) (fun x =>
      let '(a, t1) := x in
      if a then
        bind (trace O r (p ++ [DRight]) root) (fun y => let '(c, t2) := y in Ok (c, t1 ++ t2 ++ mark_steps p c))
      else Ok (false, t1 ++ mark_steps p false))
  | MOr l r _ =>
    bind (trace O l (p ++ [DLeft]) root) (fun x =>
      let '(a, t1) := x in
      if a then Ok (true, t1 ++ mark_steps p true)
      else
        bind (trace O r (p ++ [DRight]) root) (fun y => let '(c, t2) := y in Ok (c, t1 ++ t2 ++ mark_steps p c)))
  | MNot e _ =>
    bind (trace O e (p ++ [DSub]) root) (fun x => let '(a, t) := x in Ok (negb a, t ++ mark_steps p (negb a)))
  | MExpr path es _ =>
    bind (expr_result O path es root) (fun a => Ok (a, mark_steps p a))
  end.

(** The calls of one goroutine. *)
Inductive api := CMatch (data : bytes) | CStats.

(** jsonmatcher.go:37-42 Match and 55-57 Stats (the root's two counters, see [stats]) *)
Definition program (O : oracles) (m : mnode) (c : api) : res (list action) :=
  match c with
  | CMatch data =>
    match parse_json data with
    | None => Ok [ARet None]
    | Some root => bind (trace O m [] root) (fun x => let '(a, t) := x in Ok (t ++ [ARet (Some a)]))
    end
  | CStats => Ok [ALoad [] Checked; ALoad [] Matched]
  end.
Fixpoint programs (O : oracles) (m : mnode) (cs : list api) : res (list action) :=
  match cs with
  | [] => Ok []
  | c :: cs' => bind (program O m c) (fun t => bind (programs O m cs') (fun u => Ok (t ++ u)))
  end.

(** Shared memory. *)
Definition memory := list dir -> counter -> Z.
Definition mem_of (m : mnode) : memory := fun p w =>
  match node_at m p with
  | Some st => match w with Checked => ns_checked st | Matched => ns_matched st end
  | None => 0%Z
  end.

Definition dir_eqb (x y : dir) : bool :=
  match x, y with DLeft, DLeft | DRight, DRight | DSub, DSub => true | _, _ => false end.
Fixpoint way_eqb (x y : list dir) : bool :=
  match x, y with
  | [], [] => true
  | a :: x', c :: y' => dir_eqb a c && way_eqb x' y'
  | _, _ => false
  end.
Definition counter_eqb (x y : counter) : bool :=
  match x, y with Checked, Checked | Matched, Matched => true | _, _ => false end.

(** 64-bit increment *)
Definition bump (z : Z) : Z := wrap64 (z + 1).

(** What a goroutine has seen: the value of which counter, or the answer of Match. *)
Inductive event := Loaded (w : counter) (z : Z) | Returned (r : option bool).
Definition exec (mu : memory) (a : action) : memory * list event :=
  match a with
  | AInc p w => (fun p' w' => if way_eqb p p' && counter_eqb w w' then bump (mu p' w') else mu p' w', [])
  | ALoad p w => (mu, [Loaded w (mu p w)])
  | ARet r => (mu, [Returned r])
  end.

(** A goroutine: the steps still to be done and what it has seen. *)
Record thread := { todo : list action; seen : list event }.
Definition start (acts : list action) : thread := {| todo := acts; seen := [] |}.

(** The scheduler lets any goroutine make its next step. *)
Inductive step : memory * list thread -> memory * list thread -> Prop :=
| step_one mu before a rest ev after :
    step (mu, before ++ {| todo := a :: rest; seen := ev |} :: after)
         (fst (exec mu a), before ++ {| todo := rest; seen := ev ++ snd (exec mu a) |} :: after).
Inductive steps : memory * list thread -> memory * list thread -> Prop :=
| steps_none s : steps s s
| steps_more s1 s2 s3 : steps s1 s2 -> step s2 s3 -> steps s1 s3.
