(** UTF-8 as in Go's unicode/utf8 (DecodeRune, AppendRune, RuneCount). *)
From Verif Require Import Bytes.

(** utf8.RuneError *)
Definition rune_error : N := 65533.

(** Second byte ranges accepted after a three- or four-byte leading byte
    (unicode/utf8: acceptRanges). *)
Definition acc_lo (c : N) : N := if c =? 224 then 160 else if c =? 240 then 144 else 128.
Definition acc_hi (c : N) : N := if c =? 237 then 159 else if c =? 244 then 143 else 191.

Definition is_cont (c : N) : bool := (128 <=? c) && (c <=? 191).

(** unicode/utf8.DecodeRune: the rune and its width; (RuneError,0) for empty
    input, (RuneError,1) for an invalid encoding. *)
Definition decode_rune (s : bytes) : N * nat :=
  match s with
  | [] => (rune_error, 0%nat)
  | c :: s1 =>
    if c <? 128 then (c, 1%nat)
    else if (c <? 194) || (244 <? c) then (rune_error, 1%nat)
    else match s1 with
    | [] => (rune_error, 1%nat)
    | c1 :: s2 =>
      if c <? 224 then
        if is_cont c1 then ((c - 192) * 64 + (c1 - 128), 2%nat) else (rune_error, 1%nat)
      else if negb ((acc_lo c <=? c1) && (c1 <=? acc_hi c)) then (rune_error, 1%nat)
      else match s2 with
      | [] => (rune_error, 1%nat)
      | c2 :: s3 =>
        if negb (is_cont c2) then (rune_error, 1%nat)
        else if c <? 240 then ((c - 224) * 4096 + (c1 - 128) * 64 + (c2 - 128), 3%nat)
        else match s3 with
        | [] => (rune_error, 1%nat)
        | c3 :: _ =>
          if negb (is_cont c3) then (rune_error, 1%nat)
          else ((c - 240) * 262144 + (c1 - 128) * 4096 + (c2 - 128) * 64 + (c3 - 128), 4%nat)
        end
      end
    end
  end.

(** A Unicode scalar value. *)
Definition is_scalar (r : N) : bool := (r <? 55296) || ((57344 <=? r) && (r <=? 1114111)).

(** unicode/utf8.AppendRune; surrogates and too large values become RuneError. *)
Definition encode_raw (r : N) : bytes :=
  if r <? 128 then [r]
  else if r <? 2048 then [192 + r / 64; 128 + r mod 64]
  else if r <? 65536 then [224 + r / 4096; 128 + (r / 64) mod 64; 128 + r mod 64]
  else [240 + r / 262144; 128 + (r / 4096) mod 64; 128 + (r / 64) mod 64; 128 + r mod 64].

Definition encode_rune (r : N) : bytes :=
  if is_scalar r then encode_raw r else encode_raw rune_error.

Definition encode (rs : list N) : bytes := concat (map encode_rune rs).

(** Splitting a byte string into runes, as [for range] over a Go string does:
    invalid bytes yield RuneError.  Fuel is the length. *)
Fixpoint decode_fuel (n : nat) (s : bytes) : list N :=
  match n, s with
  | O, _ => []
  | _, [] => []
  | S n', _ => let (r, w) := decode_rune s in r :: decode_fuel n' (skipn w s)
  end.
Definition decode (s : bytes) : list N := decode_fuel (length s) s.

(** unicode/utf8.RuneCount *)
Definition rune_count (s : bytes) : nat := length (decode s).

(** unicode/utf8.Valid, as an executable check. *)
Fixpoint valid_fuel (n : nat) (s : bytes) : bool :=
  match n, s with
  | _, [] => true
  | O, _ => false
  | S n', _ =>
    let (r, w) := decode_rune s in
    negb ((r =? rune_error) && Nat.eqb w 1) && valid_fuel n' (skipn w s)
  end.
Definition valid_utf8 (s : bytes) : bool := valid_fuel (length s) s.
