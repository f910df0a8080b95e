(** github.com/buger/jsonparser v1.1.1, the parts used by jsonmatcher and sampler, on bytes.

    The package is not in the repository; this follows its parser.go as published.  An offset
    into the data is represented by the bytes from there on, so that a function returning an
    end offset here returns what follows the end. *)
From Verif Require Import Bytes GoStrconv Json Values.

(** parser.go ValueType *)
Inductive vtype := TString | TNumber | TObject | TArray | TBoolean | TNull.

(** A value as the package hands it out: its bytes, without the quotes of a string. *)
Definition jvalue := (bytes * vtype)%type.

(** parser.go nextToken: skips blanks; [None] for -1 *)
Definition next_token (s : bytes) : option bytes :=
  match skip_ws s with [] => None | t => Some t end.

(** parser.go stringEnd.  [odd]: the number of backslashes directly before is odd (the Go code
    counts them again at every quote); [esc]: some backslash was seen.  Returns the text before
    the closing quote, whether it has backslashes, and what follows the quote. *)
Fixpoint string_end (odd esc : bool) (s : bytes) : option (bytes * bool * bytes) :=
  let more c x := match x with Some (k, e, t) => Some (c :: k, e, t) | None => None end in
  match s with
  | [] => None
  | c :: r =>
    if c =? 34 then
      if odd then more c (string_end false esc r) else Some ([], esc, r)
    else if c =? 92 then more c (string_end (negb odd) true r)
    else more c (string_end false esc r)
  end.

(** parser.go blockEnd.  [st] is [Some odd] inside a string (where the Go code calls stringEnd).
    Returns the block up to the closing symbol and what follows.  It is only called with an
    opening symbol in front, so that the level is positive after the first byte. *)
Fixpoint block_end (op cl : N) (level : nat) (st : option bool) (s : bytes) : option (bytes * bytes) :=
  let more c x := match x with Some (k, t) => Some (c :: k, t) | None => None end in
  match s with
  | [] => None
  | c :: r =>
    match st with
    | Some odd =>
      if c =? 34 then more c (block_end op cl level (if odd then Some false else None) r)
      else more c (block_end op cl level (Some (if c =? 92 then negb odd else false)) r)
    | None =>
      if c =? 34 then more c (block_end op cl level (Some false) r)
      else if c =? op then more c (block_end op cl (S level) None r)
      else if c =? cl then
        match level with
        | 0%nat => None
        | 1%nat => Some ([c], r)
        | S l => more c (block_end op cl l None r)
        end
      else more c (block_end op cl level None r)
    end
  end.

(** parser.go tokenEnd: up to a blank, comma or closing bracket *)
Fixpoint token_end (s : bytes) : bytes * bytes :=
  match s with
  | [] => ([], [])
  | c :: r =>
    if is_ws c || (c =? 44) || (c =? 125) || (c =? 93) then ([], s)
    else let (a, t) := token_end r in (c :: a, t)
  end.

(** parser.go getType, with the removal of the quotes done by internalGet; [None] is an error *)
Definition get_type (s : bytes) : option (bytes * vtype * bytes) :=
  match s with
  | [] => None
  | c :: r =>
    if c =? 34 then
      match string_end false false r with Some (k, _, t) => Some (k, TString, t) | None => None end
    else if c =? 91 then
      match block_end 91 93 0 None s with Some (k, t) => Some (k, TArray, t) | None => None end
    else if c =? 123 then
      match block_end 123 125 0 None s with Some (k, t) => Some (k, TObject, t) | None => None end
    else
      let (v, t) := token_end s in
      if (c =? 116) || (c =? 102) then
        if beqb v (b "true") || beqb v (b "false") then Some (v, TBoolean, t) else None
      else if (c =? 117) || (c =? 110) then
        if beqb v (b "null") then Some (v, TNull, t) else None
      else if is_digit c || (c =? 45) then Some (v, TNumber, t)
      else None
  end.

(** parser.go Get without keys *)
Definition get0 (s : bytes) : option (bytes * vtype * bytes) :=
  match next_token s with Some t => get_type t | None => None end.

(** parser.go ArrayEach: the values the callback is called with, and whether there was no
    error.  The test for a zero offset in the Go loop never succeeds: a value without error is
    not empty.  [fuel] bounds the number of elements. *)
Fixpoint array_loop (fuel : nat) (s : bytes) : list jvalue * bool :=
  match fuel with
  | 0%nat => ([], false)
  | S f =>
    match get0 s with
    | None => ([], false)
    | Some (v, t, r) =>
      match next_token r with
      | Some (c :: r') =>
        if c =? 93 then ([(v, t)], true)
        else if c =? 44 then let (l, ok) := array_loop f r' in ((v, t) :: l, ok)
        else ([(v, t)], false)
      | _ => ([(v, t)], false)
      end
    end
  end.
Definition array_each (s : bytes) : list jvalue * bool :=
  match next_token s with
  | Some (_ :: s1) =>
    match next_token s1 with
    | Some (c :: r) => if c =? 93 then ([], true) else array_loop (S (length (c :: r))) (c :: r)
    | _ => ([], false)
    end
  | _ => ([], false)
  end.

(** parser.go ObjectEach: the names and values the callback is called with, and whether the
    object was read to its end without error.  (A callback that returns an error ends the loop:
    then the rest of this list is not used.) *)
Fixpoint object_loop (fuel : nat) (s : bytes) : list (bytes * jvalue) * bool :=
  match fuel with
  | 0%nat => ([], false)
  | S f =>
    match s with
    | [] => ([], false)
    | c :: r =>
      if c =? 34 then
        match string_end false false r with
        | None => ([], false)
        | Some (k, esc, r1) =>
          match (if esc then unescape k else Some k) with
          | None => ([], false)
          | Some k' =>
            match next_token r1 with
            | Some (d :: r2) =>
              if d =? 58 then
                match get0 r2 with
                | None => ([], false)
                | Some (v, t, r3) =>
                  match next_token r3 with
                  | Some (e :: r4) =>
                    if e =? 125 then ([(k', (v, t))], true)
                    else if e =? 44 then
                      match next_token r4 with
                      | Some r5 => let (l, ok) := object_loop f r5 in ((k', (v, t)) :: l, ok)
                      | None => ([(k', (v, t))], false)
                      end
                    else ([(k', (v, t))], false)
                  | _ => ([(k', (v, t))], false)
                  end
                end
              else ([], false)
            | _ => ([], false)
            end
          end
        end
      else if c =? 125 then ([], true)
      else ([], false)
    end
  end.
Definition object_each (s : bytes) : list (bytes * jvalue) * bool :=
  match next_token s with
  | Some (c :: s1) =>
    if c =? 123 then
      match next_token s1 with
      | Some (d :: r) => if d =? 125 then ([], true) else object_loop (S (length (d :: r))) (d :: r)
      | _ => ([], false)
      end
    else ([], false)
  | _ => ([], false)
  end.

(** What searchKeys finds: the bytes after the colon of the member, or an array element
    (whose offset Get would read the same element from again). *)
Inductive found := FAfter (s : bytes) | FElement (v : jvalue).

(** parser.go searchKeys with one key.  [level] and [klevel] are the Go variables level and
    keyLevel, [last] is lastMatched. *)
Fixpoint search_key (fuel : nat) (key : bytes) (level klevel : Z) (last : bool) (s : bytes) : res (option found) :=
  match fuel with
  | 0%nat => Ok None
  | S f =>
    match s with
    | [] => Ok None
    | c :: r =>
      if c =? 34 then
        match string_end false false r with
        | None => Ok None
        | Some (k, esc, r1) =>
          match next_token r1 with
          | Some (d :: r2) =>
            if d =? 58 then
              if (level <? 1)%Z then Ok None
              else
                match (if esc then unescape k else Some k) with
                | None => Ok None
                | Some k' =>
                  if (level <=? 1)%Z then
                    if beqb k' key then
                      if (klevel =? level - 1)%Z then Ok (Some (FAfter r2))
                      else search_key f key level klevel true r2
                    else search_key f key level klevel false r2
                  else Ok None
                end
            else search_key f key level klevel last (d :: r2)
          | _ => Ok None
          end
        end
      else if c =? 123 then
        if last then search_key f key (level + 1) klevel last r
        else
          match block_end 123 125 0 None s with
          | Some (_, t) => search_key f key level klevel last t
          | None => Ok None
          end
      else if c =? 125 then
        search_key f key (level - 1) (if (level - 1 =? klevel)%Z then klevel - 1 else klevel)%Z last r
      else if c =? 91 then
        let skip :=
          match block_end 91 93 0 None s with
          | Some (_, t) => search_key f key level klevel last t
          | None => Ok None
          end in
        if (klevel =? level)%Z then
          if (level =? 0)%Z then
            match key with
            | [] => Panic                                    (* keys[level][0] *)
            | k0 :: kt =>
              if k0 =? 91 then
                match rev kt with
                | e :: i =>
                  if e =? 93 then
                    match parse_int (rev i) with
                    | Some z =>
                      Ok (if (z <? 0)%Z then None
                          else option_map FElement (nth_error (fst (array_each s)) (Z.to_nat z)))
                    | None => Ok None
                    end
                  else Ok None
                | [] => Ok None
                end
              else skip
            end
          else Panic                                         (* keys[level] *)
        else skip
      else if c =? 58 then Ok None
      else search_key f key level klevel last r
    end
  end.

(** parser.go Get with one key; [None] is a nil value *)
Definition get_key (key data : bytes) : res (option jvalue) :=
  bind (search_key (S (length data)) key 0 0 true data) (fun x =>
    Ok match x with
       | None => None
       | Some (FAfter s) => match get0 s with Some (v, t, _) => Some (v, t) | None => None end
       | Some (FElement v) => Some v
       end).
