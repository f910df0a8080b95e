(** The parts of Go's net/netip used by aql, for IPv4. *)
From Verif Require Import Bytes GoStrconv GoTime.

(** netip.ParseAddr on a text whose first special character is a dot: parseIPv4
    (net/netip/netip.go).  State: fields so far (reversed), current value, digits seen. *)
Fixpoint parse_ipv4_loop (s : bytes) (fields : list N) (val : N) (dig : nat) : option (list N) :=
  match s with
  | [] =>
    (* a trailing dot or a missing field *)
    match dig with O => None | _ => if Nat.eqb (length fields) 3 then Some (rev (val :: fields)) else None end
  | c :: s' =>
    if is_digit c then
      if Nat.eqb dig 1 && (val =? 0) then None
      else let v := val * 10 + digit_val c in
           if 255 <? v then None else parse_ipv4_loop s' fields v (S dig)
    else if c =? 46 then
      match dig with
      | O => None
      | _ => if Nat.eqb (length fields) 3 then None else parse_ipv4_loop s' (val :: fields) 0 0
      end
    else None
  end.

Definition addr_of_fields (l : list N) : N := fold_left (fun a x => a * 256 + x) l 0.

Definition parse_addr4 (s : bytes) : option N :=
  match parse_ipv4_loop s [] 0 0 with
  | Some l => Some (addr_of_fields l)
  | None => None
  end.

(** Split at the last slash (bytealg.LastIndexByteString); the texts considered have at most one. *)
Fixpoint split_slash (s : bytes) : option (bytes * bytes) :=
  match s with
  | [] => None
  | c :: s' =>
    match split_slash s' with
    | Some (x, y) => Some (c :: x, y)
    | None => if c =? 47 then Some ([], s') else None
    end
  end.

Record prefix := { p_addr : N; p_bits : N }.

(** netip.ParsePrefix for IPv4.  [strict] selects the behaviour of newer Go versions,
    which reject a leading zero in the prefix length. *)
Definition parse_prefix (strict : bool) (s : bytes) : option prefix :=
  do (a, bs) <- split_slash s;;
  do ip <- parse_addr4 a;;
  match bs with
  | [] => None
  | c :: r =>
    if strict && negb (Nat.eqb (length r) 0) && (c =? 48) then None else
    do n <- digits_acc 0 bs;;
    if 32 <? n then None else Some {| p_addr := ip; p_bits := n |}
  end.

(** Prefix.Contains: the first [bits] bits agree. *)
Definition net_contains (p : prefix) (ip : N) : bool :=
  p_addr p / 2 ^ (32 - p_bits p) =? ip / 2 ^ (32 - p_bits p).

(** Prefix.Overlaps: the first min(bits, bits') bits agree. *)
Definition net_overlaps (p q : prefix) : bool :=
  let m := 32 - N.min (p_bits p) (p_bits q) in
  p_addr p / 2 ^ m =? p_addr q / 2 ^ m.
