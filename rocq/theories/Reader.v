(** parser/parser.go:20-33 ParseQueryReader with parser_gen.go:2434-2442 ParseReader: queries that come from an
    io.Reader. *)
From Verif Require Import Bytes Oracles Ast PegSyntax Engine Visitors ParseQuery.

(** What the second result of Read may be besides nil *)
Inductive read_err := REof | ROther (msg : bytes).
(** io.Reader: asked to fill a buffer of a length, the reader puts bytes into it and changes its state.  A reader
    that puts in more than there is room for breaks the contract of io.Reader. *)
Definition reader (S : Type) := S -> nat -> bytes * option read_err * S.

Section Reader.
Context {S : Type} (rd : reader S).
(** The new capacity when append finds none left (runtime.growslice); at least one more *)
Context (grow : nat -> nat).

Inductive all := AData (data : bytes) (e : option bytes) | APanic | ARunning.
(** io.ReadAll (called as ioutil.ReadAll), Go 1.20: the buffer starts with room for 512 bytes. *)
Fixpoint read_loop (fuel : nat) (st : S) (got : bytes) (cap : nat) : all :=
  match fuel with
  | 0%nat => ARunning
  | Datatypes.S fuel' =>
    let cap := if (cap <=? length got)%nat then Nat.max (length got + 1) (grow cap) else cap in
    let '(c, e, st') := rd st (cap - length got)%nat in
    if (cap - length got <? length c)%nat then APanic
    else
      match e with
      | None => read_loop fuel' st' (got ++ c) cap
      | Some REof => AData (got ++ c) None
      | Some (ROther m) => AData (got ++ c) (Some m)
      end
  end.
Definition read_all (fuel : nat) (st : S) : all := read_loop fuel st [] 512.

Context {W E T : Type} (O : oracles).
Inductive rres :=
| RQuery (r : qres E T)
| RRead (p : pos) (msg : bytes)      (** parser_gen.go:69-72: an error that is not from the parser *)
| RReaderPanic
| RRunning.
(** parser.go:20-33; the rest is [parse_query] *)
Definition parse_query_reader (fuel : nat) (vs : list (visitor W E T * tape T)) (st : S) (w : W) : rres * W * list (tape T) :=
  match read_all fuel st with
  | AData data None => let '(r, w', ts) := parse_query O vs data w in (RQuery r, w', ts)
  | AData _ (Some m) => (RRead {| p_line := 0; p_col := 0; p_off := -1; p_len := 0 |} m, w, map snd vs)
  | APanic => (RReaderPanic, w, map snd vs)
  | ARunning => (RRunning, w, map snd vs)
  end.
End Reader.
Arguments rres : clear implicits.

(** strings.Reader.Read: the state is what is left *)
Definition strings_reader : reader bytes :=
  fun s k => match s with [] => ([], Some REof, []) | _ => (firstn k s, None, skipn k s) end.
