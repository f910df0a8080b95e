(** JSON documents: an executable model of encoding/json.Valid that also returns the tree of
    the document.  Numbers and strings keep their text: aql never decodes a whole document,
    it looks at the bytes of single values. *)
From Verif Require Import Bytes GoStrconv.

(** [JStr] and member names hold the text between the quotes, escapes included. *)
Inductive json :=
| JNull
| JBool (v : bool)
| JNum (raw : bytes)
| JStr (raw : bytes)
| JArr (els : list json)
| JObj (members : list (bytes * json)).

(** encoding/json/scanner.go isSpace *)
Definition is_ws (c : N) : bool := (c =? 32) || (c =? 9) || (c =? 13) || (c =? 10).

Fixpoint skip_ws (s : bytes) : bytes :=
  match s with
  | c :: r => if is_ws c then skip_ws r else s
  | [] => []
  end.

Definition is_hex (c : N) : bool := match hex_val c with Some _ => true | None => false end.

(** scanner.go stateInStringEsc: the characters that may follow a backslash, except u *)
Definition is_esc (c : N) : bool :=
  (c =? 98) || (c =? 102) || (c =? 110) || (c =? 114) || (c =? 116) || (c =? 92) || (c =? 47) || (c =? 34).

(** scanner.go stateInString, stateInStringEsc, stateInStringEscU...: the text up to the
    closing quote and what follows it. *)
Fixpoint scan_string (s : bytes) : option (bytes * bytes) :=
  match s with
  | [] => None
  | c :: r =>
    if c =? 34 then Some ([], r)
    else if c =? 92 then
      match r with
      | [] => None
      | e :: r1 =>
        if is_esc e then
          match scan_string r1 with Some (a, t) => Some (c :: e :: a, t) | None => None end
        else if e =? 117 then
          match r1 with
          | h1 :: h2 :: h3 :: h4 :: r2 =>
            if is_hex h1 && is_hex h2 && is_hex h3 && is_hex h4 then
              match scan_string r2 with
              | Some (a, t) => Some (c :: e :: h1 :: h2 :: h3 :: h4 :: a, t)
              | None => None
              end
            else None
          | _ => None
          end
        else None
      end
    else if c <? 32 then None
    else match scan_string r with Some (a, t) => Some (c :: a, t) | None => None end
  end.

(** Digits at the front of a text. *)
Fixpoint take_digits (s : bytes) : bytes * bytes :=
  match s with
  | c :: r => if is_digit c then let (a, t) := take_digits r in (c :: a, t) else ([], s)
  | [] => ([], [])
  end.

(** scanner.go state0, state1: a single zero, or digits not starting with zero *)
Definition scan_int (s : bytes) : option (bytes * bytes) :=
  match s with
  | c :: r => if c =? 48 then Some ([c], r)
              else if is_digit c then Some (take_digits s) else None
  | [] => None
  end.

(** scanner.go stateDot, stateDot0 *)
Definition scan_frac (s : bytes) : option (bytes * bytes) :=
  match s with
  | c :: r =>
    if c =? 46 then
      match take_digits r with
      | ([], _) => None
      | (ds, t) => Some (c :: ds, t)
      end
    else Some ([], s)
  | [] => Some ([], s)
  end.

(** scanner.go stateE, stateESign, stateE0 *)
Definition scan_exp (s : bytes) : option (bytes * bytes) :=
  match s with
  | c :: r =>
    if (c =? 101) || (c =? 69) then
      let '(sg, r1) := match r with
                       | d :: r' => if (d =? 43) || (d =? 45) then ([d], r') else ([], r)
                       | [] => ([], r)
                       end in
      match take_digits r1 with
      | ([], _) => None
      | (ds, t) => Some (c :: sg ++ ds, t)
      end
    else Some ([], s)
  | [] => Some ([], s)
  end.

(** scanner.go stateBeginValue: an optional minus sign *)
Definition scan_sign (s : bytes) : bytes * bytes :=
  match s with
  | c :: r => if c =? 45 then ([c], r) else ([], s)
  | [] => ([], s)
  end.

(** scanner.go stateNeg and following *)
Definition scan_number (s : bytes) : option (bytes * bytes) :=
  let '(sg, s1) := scan_sign s in
  match scan_int s1 with
  | None => None
  | Some (i, s2) =>
    match scan_frac s2 with
    | None => None
    | Some (f, s3) =>
      match scan_exp s3 with
      | None => None
      | Some (e, s4) => Some (sg ++ i ++ f ++ e, s4)
      end
    end
  end.

(** A fixed word at the front (scanner.go stateT, stateTr, ...). *)
Definition scan_word (w : bytes) (s : bytes) : option bytes :=
  if has_prefix w s then Some (skipn (length w) s) else None.

(** scanner.go:  maxNestingDepth *)
Definition max_depth : nat := N.to_nat 10000.

(** A value (scanner.go stateBeginValue, stateEndValue, stateBeginString ...).  [room] is the
    number of containers that may still be opened (pushParseState); [fuel] bounds the number
    of values read, exhaustion counts as a failure and does not happen with the fuel used
    below. *)
Fixpoint scan_value (fuel room : nat) (s : bytes) : option (json * bytes) :=
  match fuel with
  | 0%nat => None
  | S f =>
    match s with
    | [] => None
    | c :: r =>
      if c =? 123 then
        match room with
        | 0%nat => None
        | S room' =>
          match skip_ws r with
          | [] => None
          | d :: r1 =>
            if d =? 125 then Some (JObj [], r1)
            else match scan_members f room' (d :: r1) with
                 | Some (ms, t) => Some (JObj ms, t)
                 | None => None
                 end
          end
        end
      else if c =? 91 then
        match room with
        | 0%nat => None
        | S room' =>
          match skip_ws r with
          | [] => None
          | d :: r1 =>
            if d =? 93 then Some (JArr [], r1)
            else match scan_elements f room' (d :: r1) with
                 | Some (vs, t) => Some (JArr vs, t)
                 | None => None
                 end
          end
        end
      else if c =? 34 then
        match scan_string r with Some (a, t) => Some (JStr a, t) | None => None end
      else if c =? 116 then
        match scan_word (b "true") s with Some t => Some (JBool true, t) | None => None end
      else if c =? 102 then
        match scan_word (b "false") s with Some t => Some (JBool false, t) | None => None end
      else if c =? 110 then
        match scan_word (b "null") s with Some t => Some (JNull, t) | None => None end
      else
        match scan_number s with Some (a, t) => Some (JNum a, t) | None => None end
    end
  end
with scan_elements (fuel room : nat) (s : bytes) : option (list json * bytes) :=
  (* at the first byte of an element; stops after the closing bracket *)
  match fuel with
  | 0%nat => None
  | S f =>
    match scan_value f room s with
    | None => None
    | Some (v, t) =>
      match skip_ws t with
      | c :: r =>
        if c =? 93 then Some ([v], r)
        else if c =? 44 then
          match scan_elements f room (skip_ws r) with
          | Some (vs, t') => Some (v :: vs, t')
          | None => None
          end
        else None
      | [] => None
      end
    end
  end
with scan_members (fuel room : nat) (s : bytes) : option (list (bytes * json) * bytes) :=
  match fuel with
  | 0%nat => None
  | S f =>
    match s with
    | [] => None
    | q :: r =>
      if q =? 34 then
        match scan_string r with
        | None => None
        | Some (k, t) =>
          match skip_ws t with
          | [] => None
          | c :: t1 =>
            if c =? 58 then
              match scan_value f room (skip_ws t1) with
              | None => None
              | Some (v, t2) =>
                match skip_ws t2 with
                | d :: r' =>
                  if d =? 125 then Some ([(k, v)], r')
                  else if d =? 44 then
                    match scan_members f room (skip_ws r') with
                    | Some (ms, t') => Some ((k, v) :: ms, t')
                    | None => None
                    end
                  else None
                | [] => None
                end
              end
            else None
          end
        end
      else None
    end
  end.

(** scanner.go checkValid (with stateEndTop): the tree of a valid document. *)
Definition parse_json (s : bytes) : option json :=
  match scan_value (S (length s)) max_depth (skip_ws s) with
  | Some (v, t) => match skip_ws t with [] => Some v | _ => None end
  | None => None
  end.

(** encoding/json.Valid *)
Definition json_valid (s : bytes) : bool :=
  match parse_json s with Some _ => true | None => false end.
