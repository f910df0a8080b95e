(** parser/visitors.go 83-173, parser/message.go 75-81: what a message visitor's function can do
    with its tape.  The texts are those fmt.Sprintf makes of the format and its arguments. *)
From Verif Require Import Bytes Ast Visitors.

Section Tape.
Context {W E T : Type}.

(** The nine methods of *MessageTape, by the word (Hint, Warning, Error) and the way the place is
    given: not at all (111-113, 130-132, 151-153), by a value having a method Pos (116-118, 136-138,
    157-159) or as a position (122-124, 142-144, 163-165). *)
Inductive method :=
| Hint | HintWith | HintAt | Warning | WarningWith | WarningAt | Error | ErrorWith | ErrorAt.

(** One call: the method, the position handed to it (not looked at by Hint, Warning and Error) and
    the text. *)
Record tape_call := { c_method : method; c_arg : pos; c_text : T }.

(** message.go:75-81 newMessage *)
Definition new_message (t : msg_type) (p : pos) (m : T) : message T :=
  {| m_type := t; m_pos := p; m_text := m |}.

(** visitors.go:111-165 the methods *)
Definition make_call (t : tape T) (c : tape_call) : tape T :=
  let '{| c_method := m; c_arg := p; c_text := s |} := c in
  match m with
  | Hint => add_msg t (new_message MHint no_position s)
  | HintWith => add_msg t (new_message MHint p s)
  | HintAt => add_msg t (new_message MHint p s)
  | Warning => add_msg t (new_message MWarning no_position s)
  | WarningWith => add_msg t (new_message MWarning p s)
  | WarningAt => add_msg t (new_message MWarning p s)
  | Error => add_msg t (new_message MError no_position s)
  | ErrorWith => add_msg t (new_message MError p s)
  | ErrorAt => add_msg t (new_message MError p s)
  end.

(** visitors.go:93-98 NewMessageVisitor: a visitor made of a function that makes calls on its
    tape, and a new tape.  The calls of one visit are made one after the other before the function
    returns; a function reading its tape back is not modelled (the package offers it no way to).
    The calls are made on an empty tape here and their messages then added to the tape of the
    visitor by [visit], see [visit_calls] in Prop_Tape.v. *)
Definition new_message_visitor (f : node -> W -> list tape_call * verdict E T * W)
  : visitor W E T * tape T :=
  (VMsg (fun n w => let '(cs, r, w') := f n w in
                    (messages (fold_left make_call cs empty_tape), r, w')), empty_tape).

(** visitors.go:83-87 Messages *)
Definition messages_of (t : tape T) : list (message T) := messages t.
End Tape.
Arguments tape_call : clear implicits.
