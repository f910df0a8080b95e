(** What paths mean, without the functions of the model: a walk through directories. *)
From Verif Require Import Bytes Ast.

(** One name on the way; [at] are the names of the directories from the root.  Above the root is the root. *)
Definition step (at_ : list bytes) (name : bytes) : list bytes :=
  if beqb name [] then at_
  else if beqb name (b ".") then at_
  else if beqb name (b "..") then removelast at_
  else at_ ++ [name].
(** Reading a path from left to right; [name] is what was read since the last slash. *)
Fixpoint walk (at_ : list bytes) (name s : bytes) : list bytes :=
  match s with
  | [] => step at_ name
  | c :: s' => if c =? 47 then walk (step at_ name) [] s' else walk at_ (name ++ [c]) s'
  end.
(** Where a path leads from a directory *)
Definition leads (at_ : list bytes) (s : bytes) : list bytes :=
  match s with
  | [] => at_
  | c :: s' => if c =? 47 then walk [] [] s' else walk at_ [] s
  end.
(** The path without detours *)
Fixpoint slashed (l : list bytes) : bytes := match l with [] => [] | x :: l' => 47 :: x ++ slashed l' end.

(** Following a redirect from an address, as browsers do (RFC 3986, 5.2.3): what is not a path from the root
    replaces what follows the last slash.  Dots are left for the server. *)
Fixpoint upto_slash (s : bytes) : option bytes :=    (* up to the last slash *)
  match s with
  | [] => None
  | c :: s' => match upto_slash s' with
               | Some d => Some (c :: d)
               | None => if c =? 47 then Some [c] else None
               end
  end.
Definition follow (p to : bytes) : bytes :=
  match to with
  | c :: _ =>
    if c =? 47 then to else
    match upto_slash p with Some d => d ++ to | None => to end
  | [] => p
  end.
