(** jsonmatcher/json_values.go: the functions that nothing calls (one call is commented out in
    expr_equal_bool.go:24). *)
From Verif Require Import Bytes Utf8 GoFloat Oracles Json Values.

(** 55-63 listValues *)
Definition list_values (vs : list json) : list json := filter (fun v => match v with JArr _ => true | _ => false end) vs.

(** 182 falsyString: letters match in both cases; by the folding tables of package unicode s also matches
    the long s, U+017F *)
Definition falsy_string (raw : bytes) : bool :=
  match decode raw with
  | [c] => c =? 48
  | [c1; c2; c3; c4; c5] =>
    ((c1 =? 102) || (c1 =? 70)) && ((c2 =? 97) || (c2 =? 65)) && ((c3 =? 108) || (c3 =? 76)) &&
    ((c4 =? 115) || (c4 =? 83) || (c4 =? 383)) && ((c5 =? 101) || (c5 =? 69))
  | _ => false
  end.
(** 184-213 getTruthyVal *)
Definition get_truthy_val (O : oracles) (v : json) : option bool :=
  match v with
  | JStr raw => Some (negb (match raw with [] => true | _ => falsy_string raw end))
  | JNum raw => option_map (fun f => negb (f_eq f (S754_zero false))) (parse_float (o_float_other O) raw)
  | JBool x => Some x
  | JNull => Some false
  | _ => None
  end.
