(** A concrete value for the oracle record, used only in examples. *)
From Verif Require Import Bytes GoFloat GoTime Oracles.

Definition test_oracle : oracles := {|
  o_re_parse := fun _ => Some (RT OpLiteral []);
  o_re_match := beqb;
  o_fmt_float := fun _ => b "1.5";
  o_float_other := fun _ => None;
  o_is_print := fun _ => true;
  o_dateparse := fun s => if Nat.eqb (length s) 10 then parse_date s else parse_rfc3339 s;
  o_to_lower := fun c => c;
  o_text_search := beqb;
  o_fold := fun c => c;
  o_strict_bits := true |}.
