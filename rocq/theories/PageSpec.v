(** Specification: how a browser reads markup (HTML standard, 13.2.5, the states data, tag open and those
    inside a tag), without comments and the text of character references. *)
From Verif Require Import Bytes.

Inductive tok := Ch (c : N) | Ref | Tag (body : bytes).
Definition letter (c : N) : bool := ((65 <=? c) && (c <=? 90)) || ((97 <=? c) && (c <=? 122)).
(** What makes a tag of an angle bracket: a letter, a slash, ! or ? *)
Definition opens (c : N) : bool := letter c || (c =? 47) || (c =? 33) || (c =? 63).
(** What makes a reference of an ampersand *)
Definition refers (c : N) : bool := letter c || (c =? 35) || ((48 <=? c) && (c <=? 57)).
Inductive state := Data | InTag (body : bytes) (quote : option N).
Definition follows (f : N -> bool) (s : bytes) : bool := match s with c :: _ => f c | [] => false end.
Fixpoint tokens (st : state) (s : bytes) : list tok :=
  match s with
  | [] => []
  | c :: s' =>
    match st with
    | Data =>
      if (c =? 60) && follows opens s' then tokens (InTag [] None) s'
      else if (c =? 38) && follows refers s' then Ref :: tokens Data s'
      else Ch c :: tokens Data s'
    | InTag body (Some q) => tokens (InTag (c :: body) (if c =? q then None else Some q)) s'
    | InTag body None =>
      if c =? 62 then Tag (rev body) :: tokens Data s'
      else tokens (InTag (c :: body) (if ((c =? 34) || (c =? 39)) && follows (N.eqb 61) body then Some c else None)) s'
    end
  end.
(** Text that is read as it stands *)
Definition inert (s : bytes) : Prop :=
  (forall x c y, s = x ++ 60 :: c :: y -> opens c = false) /\ (forall x c y, s = x ++ 38 :: c :: y -> refers c = false).

(** ** The strings of JavaScript: a code point as one unit, or as a pair *)
Definition unit_pair (c : N) : list N := if c <? 65536 then [c] else [55296 + (c - 65536) / 1024; 56320 + (c - 65536) mod 1024].
Definition units (cs : list N) : list N := flat_map unit_pair cs.
