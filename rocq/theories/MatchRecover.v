(** Calls of Match whose panic the caller recovers: what they leave behind in the matcher. *)
From Verif Require Import Bytes Oracles Json Values StrMatch Matcher.

Section WithOracles.
Context (O : oracles).

(** jsonmatcher/nodes.go:18-24, 35-41, 52-58, 98-114: the result, or the panic, and the node as it is afterwards.  A node
    is marked after its parts have given their results, so a panic leaves the counters of the node as they were, and
    keeps those of the parts that had given a result. *)
Fixpoint result_left (m : mnode) (root : json) : res bool * mnode :=
  match m with
  | MAnd l r st =>
    match result_left l root with
    | (Ok true, l') =>
      match result_left r root with
      | (Ok c, r') => (Ok c, MAnd l' r' (mark st c))
      | (Panic, r') => (Panic, MAnd l' r' st)
      end
    | (Ok false, l') => (Ok false, MAnd l' r (mark st false))
    | (Panic, l') => (Panic, MAnd l' r st)
    end
  | MOr l r st =>
    match result_left l root with
    | (Ok true, l') => (Ok true, MOr l' r (mark st true))
    | (Ok false, l') =>
      match result_left r root with
      | (Ok c, r') => (Ok c, MOr l' r' (mark st c))
      | (Panic, r') => (Panic, MOr l' r' st)
      end
    | (Panic, l') => (Panic, MOr l' r st)
    end
  | MNot e st =>
    match result_left e root with
    | (Ok a, e') => (Ok (negb a), MNot e' (mark st (negb a)))
    | (Panic, e') => (Panic, MNot e' st)
    end
  | MExpr path es st =>
    match expr_result O path es root with
    | Ok a => (Ok a, MExpr path es (mark st a))
    | Panic => (Panic, MExpr path es st)
    end
  end.

(** What a caller of Match gets who recovers a panic: the answer, the error for a text that is no JSON, or the panic. *)
Inductive outcome := Answer (a : bool) | NoJson | Recovered.

(** jsonmatcher/jsonmatcher.go:37-42 Match, called by a function that recovers *)
Definition match_recover (m : mnode) (data : bytes) : outcome * mnode :=
  match parse_json data with
  | None => (NoJson, m)
  | Some root =>
    match result_left m root with
    | (Ok a, m') => (Answer a, m')
    | (Panic, m') => (Recovered, m')
    end
  end.

(** One call after another, panics recovered: the outcomes and the matcher at the end. *)
Fixpoint recover_all (m : mnode) (ds : list bytes) : list outcome * mnode :=
  match ds with
  | [] => ([], m)
  | d :: ds' => let '(x, m1) := match_recover m d in let '(xs, m2) := recover_all m1 ds' in (x :: xs, m2)
  end.
End WithOracles.
