(** Specification of the statistics of a matcher. *)
From Verif Require Import Bytes GoTime Oracles Ast Json JsonSpec Values StrMatch Matcher MatchSpec Stats.

(** [subtree t p n]: [n] is the node of the query tree [t] at [p]. *)
Inductive subtree : node -> list dir -> node -> Prop :=
| st_here t : subtree t [] t
| st_and_l l r p n : subtree l p n -> subtree (NAnd l r) (DLeft :: p) n
| st_and_r l r p n : subtree r p n -> subtree (NAnd l r) (DRight :: p) n
| st_or_l l r p n : subtree l p n -> subtree (NOr l r) (DLeft :: p) n
| st_or_r l r p n : subtree r p n -> subtree (NOr l r) (DRight :: p) n
| st_not e p n : subtree e p n -> subtree (NNot e) (DSub :: p) n.

(** [evaluated O t j p]: short-circuit evaluation of [t] on [j] reaches the node at [p]. *)
Inductive evaluated (O : oracles) : node -> json -> list dir -> Prop :=
| vl_here t j : evaluated O t j []
| vl_and_l l r j p : evaluated O l j p -> evaluated O (NAnd l r) j (DLeft :: p)
| vl_and_r l r j p : holds O l j -> evaluated O r j p -> evaluated O (NAnd l r) j (DRight :: p)
| vl_or_l l r j p : evaluated O l j p -> evaluated O (NOr l r) j (DLeft :: p)
| vl_or_r l r j p : ~ holds O l j -> evaluated O r j p -> evaluated O (NOr l r) j (DRight :: p)
| vl_not e j p : evaluated O e j p -> evaluated O (NNot e) j (DSub :: p).

(** [tally P docs n]: [n] of the texts are JSON documents with property [P]. *)
Inductive tally (P : json -> Prop) : list bytes -> nat -> Prop :=
| tl_nil : tally P [] 0
| tl_invalid d ds n : (~ exists j, document d j) -> tally P ds n -> tally P (d :: ds) n
| tl_yes d j ds n : document d j -> P j -> tally P ds n -> tally P (d :: ds) (S n)
| tl_no d j ds n : document d j -> ~ P j -> tally P ds n -> tally P (d :: ds) n.

(** [session O m ds m']: Match is called on the texts one after another and always returns. *)
Inductive session (O : oracles) : mnode -> list bytes -> mnode -> Prop :=
| ss_nil m : session O m [] m
| ss_match m1 m2 m3 d r ds : match_doc O m1 d = Ok (r, m2) -> session O m2 ds m3 -> session O m1 (d :: ds) m3.

(** The texts Match is called on, and the results of Match a goroutine has seen. *)
Definition texts (cs : list api) : list bytes :=
  flat_map (fun c => match c with CMatch d => [d] | CStats => [] end) cs.
Definition results (ev : list event) : list (option bool) :=
  flat_map (fun e => match e with Returned r => [r] | Loaded _ _ => [] end) ev.

(** Goroutines about to make the calls [gs] of a matcher. *)
Definition ready (O : oracles) (m : mnode) (gs : list (list api)) (ts : list thread) : Prop :=
  Forall2 (fun cs th => exists acts, programs O m cs = Ok acts /\ th = start acts) gs ts.
Definition finished (ts : list thread) : Prop := Forall (fun th => todo th = []) ts.
