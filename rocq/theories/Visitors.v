(** parser/visitors.go, parser/message.go *)
From Verif Require Import Bytes Ast.

Section Visitors.
(** [W]: the state user-supplied visitors may read and change; [E]: errors that are not
    *ParseError; [T]: message texts. *)
Context {W E T : Type}.

(** The error a visitor returns. *)
Inductive verdict :=
| VNone                                  (** nil *)
| VSkip                                  (** Skip, visitors.go:11 *)
| VSkipAll                               (** SkipAll, visitors.go:12 *)
| VParseErr (p : pos) (msg : T)          (** a *ParseError *)
| VOtherErr (e : E).

(** message.go:17-23 *)
Inductive msg_type := MHint | MWarning | MError.

(** message.go:47-51 *)
Record message := { m_type : msg_type; m_pos : pos; m_text : T }.

(** visitors.go:101-104 *)
Record tape := { first_err : option message; messages : list message }.
Definition empty_tape : tape := {| first_err := None; messages := [] |}.

(** visitors.go:167-173 addMsg *)
Definition add_msg (t : tape) (m : message) : tape :=
  {| first_err :=
       match m_type m, first_err t with
       | MError, Some _ => Some m     (* if msgType == MsgError && mt.firstErr != nil *)
       | _, fe => fe
       end;
     messages := messages t ++ [m] |}.

(** A Visitor (21-23, 66, 73-81): a function, or a MessageVisitor whose function may append
    any number of messages to its tape before returning. *)
Inductive visitor :=
| VFunc (f : node -> W -> verdict * W)
| VMsg (f : node -> W -> list message * verdict * W).

(** Visit on a node, with the tape of the visitor. *)
Definition visit (v : visitor) (n : node) (s : W * tape) : verdict * (W * tape) :=
  match v with
  | VFunc f => let '(r, w) := f n (fst s) in (r, (w, snd s))
  | VMsg f => let '(ms, r, w) := f n (fst s) in (r, (w, fold_left add_msg ms (snd s)))
  end.

(** 34-61 walkr *)
Fixpoint walkr (v : visitor) (n : node) (s : W * tape) : verdict * (W * tape) :=
  let '(r, s1) := visit v n s in
  match r with
  | VNone =>
    match n with
    | NAnd x y | NOr x y =>
      let '(r1, s2) := walkr v x s1 in
      match r1 with
      | VNone | VSkip => walkr v y s2
      | _ => (r1, s2)
      end
    | NNot x => walkr v x s1
    | NExpr _ _ _ _ => (VNone, s1)
    end
  | VSkip => (VNone, s1)
  | _ => (r, s1)
  end.

(** 25-31 walk *)
Definition walk (v : visitor) (n : node) (s : W * tape) : verdict * (W * tape) :=
  let '(r, s') := walkr v n s in
  match r with
  | VSkip | VSkipAll => (VNone, s')
  | _ => (r, s')
  end.
End Visitors.
Arguments verdict : clear implicits.
Arguments message : clear implicits.
Arguments tape : clear implicits.
Arguments visitor : clear implicits.
