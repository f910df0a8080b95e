(** parser/parser.go *)
From Verif Require Import Bytes Oracles Ast PegSyntax Engine Validators Visitors.

Section ParseQuery.
Context {W E T : Type} (O : oracles).

(** The *ParseError returned. *)
Inductive qerr :=
| QSyntax (e : perr)                     (** 31: the first error of the generated parser *)
| QNil                                   (** 38: parser returned nil output *)
| QUnknownType                           (** 42: parser returned unknown type *)
| QInvalid (k : verr) (p : pos)          (** 51: a built-in check failed *)
| QVisitor (p : pos) (msg : T)           (** 51: *ParseError from a visitor *)
| QVisitorOther (e : E)                  (** 53: validation failure: ... *)
| QTape (m : message T).                 (** 59 *)

Inductive qres :=
| QOk (n : node)
| QErr (e : qerr)
| QPanic                                 (** a panic that leaves ParseQuery *)
| QFuel.                                 (** the model ran out of fuel *)

(** 21-24: VisitorFunc(opValidator), the first visitor.  A panic inside it is represented by
    [VOtherErr]. *)
Definition validator_visitor : visitor unit unit verr :=
  VFunc (fun n w => (match op_validator O n with
                     | COk => VNone
                     | CErr k p => VParseErr p k
                     | CPanic => VOtherErr tt
                     end, w)).
Definition walk_validator (n : node) : chk :=
  match fst (walk validator_visitor n (tt, empty_tape)) with
  | VParseErr p k => CErr k p
  | VOtherErr _ => CPanic
  | _ => COk
  end.

(** 47-62: the registered visitors; each comes with its own tape.  Returns the error, the
    world and the tapes. *)
Fixpoint run_visitors (vs : list (visitor W E T * tape T)) (root : node) (w : W)
  : option qerr * W * list (tape T) :=
  match vs with
  | [] => (None, w, [])
  | (v, t) :: vs' =>
    let '(r, (w', t')) := walk v root (w, t) in
    let stop e := (Some e, w', t' :: map snd vs') in
    let go :=
      let '(e, w'', ts) := run_visitors vs' root w' in (e, w'', t' :: ts) in
    match r with
    | VParseErr p m => stop (QVisitor p m)
    | VOtherErr e => stop (QVisitorOther e)
    | _ =>
      match v, first_err t' with
      | VMsg _, Some m => stop (QTape m)
      | _, _ => go
      end
    end
  end.

(** 16-81 ParseQuery; a reader never fails here (strings.NewReader) *)
Definition parse_query (vs : list (visitor W E T * tape T)) (q : bytes) (w : W)
  : qres * W * list (tape T) :=
  let fail r := (r, w, map snd vs) in
  match parse O q with
  | PFuel => fail QFuel
  | PErr e _ => fail (QErr (QSyntax e))
  | PVal v =>
    match v with
    | VNil => fail (QErr QNil)
    | VNode root =>
      match walk_validator root with
      | CErr k p => fail (QErr (QInvalid k p))
      | CPanic => fail QPanic
      | COk =>
        let '(e, w', ts) := run_visitors vs root w in
        match e with
        | Some e => (QErr e, w', ts)
        | None => (QOk root, w', ts)
        end
      end
    | _ => fail (QErr QUnknownType)
    end
  end.

(** Position of a returned *ParseError. *)
Definition qerr_pos (e : qerr) : pos :=
  match e with
  | QSyntax e => err_pos e
  | QNil | QUnknownType | QVisitorOther _ => no_position
  | QInvalid _ p => p
  | QVisitor p _ => p
  | QTape m => m_pos m
  end.
End ParseQuery.
Arguments qerr : clear implicits.
Arguments qres : clear implicits.

(** ParseQuery without additional visitors. *)
Definition parse_plain (O : oracles) (q : bytes) : qres unit unit :=
  fst (fst (parse_query (W := unit) O [] q tt)).
