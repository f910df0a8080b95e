(** Specification: what the entries of the list of what was expected stand for.  A literal is
    written between quotation marks, a set of characters between brackets; a letter i behind
    either means that upper and lower case are the same. *)
From Verif Require Import Bytes GrammarSpec.

Definition written : list (string * string) :=
  [("""(""", "("); (""")""", ")"); (""":""", ":"); (""".""", "."); ("""*""", "*"); (""",""", ",");
   ("""/""", "/"); ("""-""", "-"); ("""+""", "+"); (""" """, " "); ("""!""", "!"); ("""~""", "~"); ("""=""", "=");
   ("""><""", "><"); ("""OR""", "OR"); ("""AND""", "AND"); ("""NOT""", "NOT"); ("""exists""", "exists"); ("""null""", "null");
   ("""true""", "true"); ("""false""", "false"); ("""u""", "u"); ("""\""""", """"); ("""\\""", "\")]%string.

Inductive stands_for : string -> text -> Prop :=
| sf_written item w : In (item, w) written -> stands_for item (tx w)
| sf_t c : c = 84 \/ c = 116 -> stands_for """T""i" [c]
| sf_z c : c = 90 \/ c = 122 -> stands_for """Z""i" [c]
| sf_space c : ws_char c -> stands_for "[ \n\t\r]" [c]
| sf_digit c : digit c -> stands_for "[0-9]" [c]
| sf_name c : name_char c -> stands_for "[a-z0-9_-]i" [c]
| sf_hex c : hex c -> stands_for "[0-9a-f]i" [c]
| sf_escape c : In c (tx """\bfnrt") -> stands_for "[""\\bfnrt]" [c]
| sf_order c : c = 60 \/ c = 62 -> stands_for "[<>]" [c].

(** The set of all characters but white space, with which the grammar reads what is no value. *)
Definition anything : string := "[^ \n\t\r]".
