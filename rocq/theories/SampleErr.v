(** sampler/sampler.go 40-62: the text of the errors about the outer form of a sample. *)
From Verif Require Import Bytes Sampler.

(** 42-47, 51, 56, 60: string(sample[:sampleLen]) *)
Definition quoted_part (data : bytes) : bytes :=
  let n := length data in
  firstn (if (100 <? n)%nat then 100%nat else n) data.

(** 48-61; [None]: no error so far.  Of the empty text see C54. *)
Definition outer_error (data : bytes) : option bytes :=
  match data with
  | [] => None
  | c :: _ =>
    if c =? 123 then
      if negb (last_byte data =? 125) then Some (b "unterminated JSON object: " ++ quoted_part data) else None
    else if c =? 91 then
      if negb (last_byte data =? 93) then Some (b "unterminated JSON array: " ++ quoted_part data) else None
    else Some (b "sample is not an object or array: " ++ quoted_part data)
  end.
