(** The test cases of the repository, evaluated on the model.  These are tests of the model, not
    proofs: they tie it to results that the authors of the code expect.

    parser/parser_test.go, jsonmatcher/testdata/*.input with testdata.json, sampler/sampler_test.go.
    Left out are the cases the repository skips (marked S) and the wording of error messages. *)
From Verif Require Import Bytes Utf8 GoFloat GoTime Oracles Ast PegSyntax Engine Validators Visitors ParseQuery Json Values
  StrMatch Matcher QueryMessages JsonParser MatchBytes Sampler FormatFloat.

Definition day (y m d : N) : instant := {| i_sec := civil_days y m d * 86400; i_nsec := 0 |}.

(** Regular expressions and free-form dates that occur in the test data. *)
Definition conf_oracle : oracles := {|
  o_re_parse := fun p => if beqb p (b "*") then None else Some (RT OpLiteral []);
  o_re_match := fun p s =>
    existsb (fun e => beqb (fst e) p && beqb (snd e) s)
      [(b "^And", b "Andy"); (b "dy$", b "Andy"); (b "nd", b "Andy"); (b "(?i)^andy", b "Andy");
       (b "\p{Han}{3}", [229; 164; 167; 230; 135; 146; 232; 153; 171]%N); (b "^\d+/\d+/\d+", b "1/2/70")] || beqb p (b ".") && negb (beqb s []);
  o_fmt_float := format_float;
  o_float_other := fun _ => None;
  o_is_print := fun _ => true;
  o_dateparse := fun s =>
    if beqb s (b "1/2/70") then Some (day 1970 1 2)
    else if beqb s (b "January 1st, 1970") then Some (day 1970 1 1)
    else if Nat.eqb (length s) 10 then parse_date s else parse_rfc3339 s;
  o_to_lower := fun c => c;
  o_text_search := beqb;
  o_fold := fun c => c;
  o_strict_bits := true |}.

(** TestParseQuery: the printed tree *)
Definition parses (q want : bytes) : bool :=
  match parse_plain conf_oracle q with QOk n => beqb (node_string conf_oracle n) want | _ => false end.

Example parser_tests :
  forallb (fun c => parses (fst c) (snd c)) [
    (b "name:""siegfried""",
     b "(== name ""siegfried"")");
    (b """name"":""siegfried""",
     b "(== name ""siegfried"")");
    (b "_name:""siegfried""",
     b "(== _name ""siegfried"")");
    (b """_name"":""siegfried""",
     b "(== _name ""siegfried"")");
    (b "0:""siegfried""",
     b "(== 0 ""siegfried"")");
    (b "name.givenname:""siegfried""",
     b "(== name.givenname ""siegfried"")");
    (b "name.""GivenName"":""siegfried""",
     b "(== name.GivenName ""siegfried"")");
    (b """na.me"".""Given\""Name"":""siegfried""",
     b "(== ""na.me"".""Given\""Name"" ""siegfried"")");
    (b "name:""Hans"" AND surname:""Wurst""",
     b "(&& (== name ""Hans"") (== surname ""Wurst""))");
    (b "(name:""Hans"" AND surname:""Wurst"")",
     b "(&& (== name ""Hans"") (== surname ""Wurst""))");
    (b "name:""Hans"" OR name:""Siegfried""",
     b "(|| (== name ""Hans"") (== name ""Siegfried""))");
    (b "(name:""Hans"" OR name:""Siegfried"")",
     b "(|| (== name ""Hans"") (== name ""Siegfried""))");
    (b "name:""Hans"" OR (name:""Siegfried"")",
     b "(|| (== name ""Hans"") (== name ""Siegfried""))");
    ([110; 97; 109; 101; 58; 34; 72; 97; 110; 115; 34; 10; 9; 65; 78; 68; 32; 115; 117; 114; 110; 97; 109; 101; 58; 34; 87; 117; 114; 115; 116; 34]%N,
     b "(&& (== name ""Hans"") (== surname ""Wurst""))");
    ([110; 97; 109; 101; 58; 34; 72; 97; 110; 115; 34; 10; 9; 79; 82; 32; 115; 117; 114; 110; 97; 109; 101; 58; 34; 87; 117; 114; 115; 116; 34]%N,
     b "(|| (== name ""Hans"") (== surname ""Wurst""))");
    (b "name:""Hans"" OR name:""Siegfried"" AND age:9001",
     b "(|| (== name ""Hans"") (&& (== name ""Siegfried"") (== age 9001)))");
    (b "(name:""Hans"" OR name:""Siegfried"") AND age:9001",
     b "(&& (|| (== name ""Hans"") (== name ""Siegfried"")) (== age 9001))");
    (b "name:""Hans"" AND age:9001 OR name:""Siegfried""",
     b "(|| (&& (== name ""Hans"") (== age 9001)) (== name ""Siegfried""))");
    (b "name:(""Hans"",""Siegfried"") AND age:9001",
     b "(&& (== name [""Hans"", ""Siegfried""]) (== age 9001))");
    (b "!name:""Hans"" AND surname:""Wurst""",
     b "(&& (! (== name ""Hans"")) (== surname ""Wurst""))");
    (b "NOT name:""Hans"" AND surname:""Wurst""",
     b "(&& (! (== name ""Hans"")) (== surname ""Wurst""))");
    (b "!(name:""Hans"" AND surname:""Wurst"")",
     b "(! (&& (== name ""Hans"") (== surname ""Wurst"")))");
    (b "floppy:1.4",
     b "(== floppy 1.4)");
    (b "floppy:-1.4",
     b "(== floppy -1.4)");
    (b "memory:32",
     b "(== memory 32)");
    (b "memory:-32",
     b "(== memory -32)");
    (b "isAdmin:true",
     b "(== isAdmin true)");
    (b "writesGoodParsers:false",
     b "(== writesGoodParsers false)");
    (b "internal:192.168.1.0/24",
     b "(== internal 192.168.1.0/24)");
    (b "Andy:1979-10-03",
     b "(== Andy 1979-10-03)");
    (b "AndyPrecise:2021-06-08T20:56:33+00:00",
     b "(== AndyPrecise 2021-06-08T20:56:33+00:00)");
    (b "domains:/.*\\.[a-z0-9]*\\.local/",
     b "(== domains /.*\\.[a-z0-9]*\\.local/)");
    (b "answer:42",
     b "(== answer 42)");
    (b "whiskers:><(0,1)",
     b "(>< whiskers [0, 1])");
    (b "over9000:>9000",
     b "(> over9000 9000)");
    (b "almost:>=9000",
     b "(>= almost 9000)");
    (b "alone:<2",
     b "(< alone 2)");
    (b "pair:<=2",
     b "(<= pair 2)");
    (b "pair:exists",
     b "(exists pair)");
    (b "pair:null",
     b "(null pair)");
    (b " name:""Peter""",
     b "(== name ""Peter"")");
    (b "name:""Peter"" ",
     b "(== name ""Peter"")");
    (b "name: ~ ( ""Peter"" , ""Bob"" )",
     b "(~ name [""Peter"", ""Bob""])");
    (b "na-me: ""Peter""",
     b "(== na-me ""Peter"")");
    (b "( name: ""Peter"" )",
     b "(== name ""Peter"")");
    (b "a:<1 AND b:exists AND c:<=2 AND d:null AND e:""hello""",
     b "(&& (< a 1) (&& (exists b) (&& (<= c 2) (&& (null d) (== e ""hello"")))))")] = true.
Proof. vm_compute. reflexivity. Qed.

(** TestParsingErrors, TestValueErrors, TestOpErrors: line, column, offset of the error and its kind *)
Inductive expected := Fine | Fails (k : err_kind) (l c o : Z) | Invalid (k : verr) (l c o : Z).
Definition at_pos (p : pos) (l c o : Z) : bool := ((p_line p =? l) && (p_col p =? c) && (p_off p =? o))%Z.
Definition same_kind (k k' : err_kind) : bool :=
  match k, k' with
  | KUntermStr, KUntermStr | KBadRegex _ _, KBadRegex _ _ | KBadNet _ _, KBadNet _ _ | KBadTime _ _, KBadTime _ _
  | KParenSingle, KParenSingle | KCloseParen, KCloseParen => true
  | _, _ => false
  end.
Definition same_verr (k k' : verr) : bool :=
  match k, k' with
  | VeDuplicate s i n, VeDuplicate s' i' n' => beqb s s' && (i =? i')%Z && (n =? n')%Z
  | VeNeedsNumeric o, VeNeedsNumeric o' => op_eqb o o'
  | VeSecondGreater, VeSecondGreater => true
  | VeExactly o n, VeExactly o' n' => op_eqb o o' && (n =? n')
  | _, _ => false
  end.
Definition reports (q : bytes) (e : expected) : bool :=
  match parse_plain conf_oracle q, e with
  | QOk _, Fine => true
  | QErr (QSyntax pe), Fails k l c o => same_kind (pe_kind pe) k && at_pos (err_pos pe) l c o
  | QErr (QInvalid k' p), Invalid k l c o => same_verr k' k && at_pos p l c o
  | _, _ => false
  end.

Example error_tests :
  forallb (fun c => reports (fst c) (snd c)) [
    (b "name:""foo", Fails KUntermStr 1 10 9);
    (b "name:/*/", Fails (KBadRegex 0 []) 1 6 5);
    (b "name:/.*/", Fine);
    (b "net:500.500.500.500/32", Fails (KBadNet 0 []) 1 5 4);
    (b "net:192.168.0.0/99", Fails (KBadNet 0 []) 1 5 4);
    (b "net:192.168.0.0/24", Fine);
    (b "Andy:1979-13-03", Fails (KBadTime 0 []) 1 6 5);
    (b "Joe:1979-02-31", Fails (KBadTime 0 []) 1 5 4);
    (b "Andy:1979-10-03", Fine);
    (b "AndyPrecise:2021-06-08T20:74:33+00:00", Fails (KBadTime 0 []) 1 13 12);
    (b "AndyPrecise:2021-06-08T20:53:33+00:00", Fine);
    (b "name:(/.*/,/*/)", Fails (KBadRegex 0 []) 1 12 11);
    (b "foo:(""bar"")", Fails KParenSingle 1 5 4);
    (b "name:()", Fails KCloseParen 1 7 6);
    (b "value: (1,2,1)", Invalid (VeDuplicate (b "1") 3 3) 1 13 12);
    (b "value:>< 1", Invalid (VeExactly BET 2) 1 1 0);
    (b "value:>< (1,2,3)", Invalid (VeExactly BET 2) 1 1 0);
    (b "value:>< (1, ""hello"")", Invalid (VeNeedsNumeric BET) 1 14 13);
    (b "value:>< (2, 1)", Invalid VeSecondGreater 1 14 13);
    (b "value:< ""hello""", Invalid (VeNeedsNumeric LT) 1 9 8);
    (b "value:<= ""hello""", Invalid (VeNeedsNumeric LTE) 1 10 9);
    (b "value:> ""hello""", Invalid (VeNeedsNumeric GT) 1 9 8);
    (b "value:>= ""hello""", Invalid (VeNeedsNumeric GTE) 1 10 9);
    (b "value:>< ""hello""", Invalid (VeNeedsNumeric BET) 1 10 9)] = true.
Proof. vm_compute. reflexivity. Qed.

(** TestMatcher, TestMatcher's data and ExampleMatcher *)
Definition answer (data q : bytes) : option bool :=
  match new_matcher conf_oracle q with
  | NewOk m => match match_bytes conf_oracle (mt_root m) data with Ok (r, _) => r | Panic => None end
  | _ => None
  end.
Definition testdata : bytes := [123; 10; 32; 32; 32; 32; 34; 100; 97; 116; 101; 34; 58; 32; 123; 10; 32; 32; 32; 32; 32; 32; 32; 32; 34; 102; 117; 108; 108; 68; 97; 116; 101; 34; 58; 32; 34; 49; 57; 55; 48; 45; 48; 49; 45; 48; 50; 34; 44; 10; 32; 32; 32; 32; 32; 32; 32; 32; 34; 100; 97; 116; 101; 84; 105; 109; 101; 34; 58; 32; 34; 49; 57; 55; 48; 45; 48; 49; 45; 48; 50; 84; 49; 53; 58; 53; 51; 58; 51; 51; 43; 48; 48; 58; 48; 48; 34; 44; 10; 32; 32; 32; 32; 32; 32; 32; 32; 34; 115; 104; 111; 114; 116; 68; 97; 116; 101; 34; 58; 32; 34; 49; 47; 50; 47; 55; 48; 34; 44; 10; 32; 32; 32; 32; 32; 32; 32; 32; 34; 119; 114; 105; 116; 116; 101; 110; 68; 97; 116; 101; 34; 58; 32; 34; 74; 97; 110; 117; 97; 114; 121; 32; 49; 115; 116; 44; 32; 49; 57; 55; 48; 34; 10; 32; 32; 32; 32; 125; 44; 10; 32; 32; 32; 32; 34; 116; 101; 120; 116; 34; 58; 32; 123; 10; 32; 32; 32; 32; 32; 32; 32; 32; 34; 110; 97; 109; 101; 34; 58; 32; 34; 65; 110; 100; 121; 34; 44; 10; 32; 32; 32; 32; 32; 32; 32; 32; 34; 100; 101; 115; 99; 114; 105; 112; 116; 105; 111; 110; 34; 58; 32; 34; 229; 164; 167; 230; 135; 146; 232; 153; 171; 34; 44; 10; 32; 32; 32; 32; 32; 32; 32; 32; 34; 108; 105; 107; 101; 115; 34; 58; 32; 91; 10; 32; 32; 32; 32; 32; 32; 32; 32; 32; 32; 32; 32; 34; 80; 105; 122; 122; 97; 32; 40; 102; 111; 111; 100; 41; 34; 44; 10; 32; 32; 32; 32; 32; 32; 32; 32; 32; 32; 32; 32; 34; 80; 105; 103; 32; 40; 100; 111; 103; 41; 34; 44; 10; 32; 32; 32; 32; 32; 32; 32; 32; 32; 32; 32; 32; 34; 232; 190; 163; 230; 164; 146; 230; 178; 185; 32; 40; 102; 111; 111; 100; 41; 34; 44; 10; 32; 32; 32; 32; 32; 32; 32; 32; 32; 32; 32; 32; 34; 82; 111; 108; 102; 32; 40; 100; 111; 103; 41; 34; 44; 10; 32; 32; 32; 32; 32; 32; 32; 32; 32; 32; 32; 32; 34; 75; 105; 114; 98; 121; 32; 40; 99; 97; 116; 41; 34; 10; 32; 32; 32; 32; 32; 32; 32; 32; 93; 44; 10; 32; 32; 32; 32; 32; 32; 32; 32; 34; 109; 117; 108; 116; 105; 112; 108; 121; 34; 58; 32; 34; 49; 42; 49; 34; 10; 32; 32; 32; 32; 125; 44; 10; 32; 32; 32; 32; 34; 110; 117; 109; 98; 101; 114; 34; 58; 32; 123; 10; 32; 32; 32; 32; 32; 32; 32; 32; 34; 105; 110; 116; 34; 58; 32; 49; 44; 10; 32; 32; 32; 32; 32; 32; 32; 32; 34; 105; 110; 116; 115; 116; 114; 34; 58; 32; 34; 49; 34; 44; 10; 32; 32; 32; 32; 32; 32; 32; 32; 34; 102; 108; 111; 97; 116; 34; 58; 32; 49; 46; 49; 44; 10; 32; 32; 32; 32; 32; 32; 32; 32; 34; 102; 108; 111; 97; 116; 115; 116; 114; 34; 58; 32; 34; 49; 46; 49; 34; 44; 10; 32; 32; 32; 32; 32; 32; 32; 32; 34; 110; 111; 116; 34; 58; 32; 34; 104; 101; 108; 108; 111; 34; 44; 10; 32; 32; 32; 32; 32; 32; 32; 32; 34; 122; 101; 114; 111; 34; 58; 32; 34; 48; 34; 44; 10; 32; 32; 32; 32; 32; 32; 32; 32; 34; 78; 97; 78; 34; 58; 32; 34; 78; 97; 78; 34; 10; 32; 32; 32; 32; 125; 44; 10; 32; 32; 32; 32; 34; 97; 116; 116; 114; 105; 98; 117; 116; 101; 115; 34; 58; 32; 123; 10; 32; 32; 32; 32; 32; 32; 32; 32; 34; 110; 105; 99; 101; 34; 58; 32; 116; 114; 117; 101; 44; 10; 32; 32; 32; 32; 32; 32; 32; 32; 34; 100; 101; 97; 100; 34; 58; 32; 102; 97; 108; 115; 101; 44; 10; 32; 32; 32; 32; 32; 32; 32; 32; 34; 102; 117; 110; 34; 58; 32; 34; 116; 114; 117; 101; 34; 44; 10; 32; 32; 32; 32; 32; 32; 32; 32; 34; 101; 110; 106; 111; 121; 115; 95; 101; 120; 99; 101; 115; 115; 105; 118; 101; 95; 116; 101; 115; 116; 115; 34; 58; 32; 34; 102; 97; 108; 115; 101; 34; 44; 10; 32; 32; 32; 32; 32; 32; 32; 32; 34; 108; 105; 107; 101; 115; 95; 98; 105; 110; 97; 114; 121; 34; 58; 32; 49; 44; 10; 32; 32; 32; 32; 32; 32; 32; 32; 34; 107; 105; 108; 108; 101; 114; 95; 114; 111; 98; 111; 116; 34; 58; 32; 48; 44; 10; 32; 32; 32; 32; 32; 32; 32; 32; 34; 116; 101; 114; 110; 97; 114; 121; 34; 58; 32; 51; 44; 10; 32; 32; 32; 32; 32; 32; 32; 32; 34; 110; 111; 116; 32; 115; 112; 101; 99; 105; 102; 105; 101; 100; 34; 58; 32; 34; 34; 44; 10; 32; 32; 32; 32; 32; 32; 32; 32; 34; 98; 117; 100; 100; 104; 97; 110; 97; 116; 117; 114; 101; 34; 58; 32; 110; 117; 108; 108; 10; 32; 32; 32; 32; 125; 44; 10; 32; 32; 32; 32; 34; 110; 101; 116; 34; 58; 32; 123; 10; 32; 32; 32; 32; 32; 32; 32; 32; 34; 114; 111; 117; 116; 101; 114; 34; 58; 32; 34; 49; 57; 50; 46; 49; 54; 56; 46; 49; 46; 48; 34; 44; 10; 32; 32; 32; 32; 32; 32; 32; 32; 34; 111; 98; 115; 101; 114; 118; 101; 100; 34; 58; 32; 91; 10; 32; 32; 32; 32; 32; 32; 32; 32; 32; 32; 32; 32; 34; 97; 116; 116; 101; 109; 112; 116; 101; 100; 32; 97; 99; 99; 101; 115; 115; 32; 102; 114; 111; 109; 32; 49; 57; 50; 46; 49; 54; 56; 46; 49; 46; 49; 34; 44; 10; 32; 32; 32; 32; 32; 32; 32; 32; 32; 32; 32; 32; 34; 114; 101; 99; 101; 105; 118; 101; 100; 32; 98; 97; 100; 32; 110; 101; 116; 98; 108; 111; 99; 107; 32; 49; 48; 46; 49; 48; 46; 49; 46; 48; 47; 50; 52; 32; 102; 114; 111; 109; 32; 98; 108; 111; 99; 107; 108; 105; 115; 116; 34; 44; 10; 32; 32; 32; 32; 32; 32; 32; 32; 32; 32; 32; 32; 110; 117; 108; 108; 10; 32; 32; 32; 32; 32; 32; 32; 32; 93; 44; 10; 32; 32; 32; 32; 32; 32; 32; 32; 34; 110; 111; 116; 95; 105; 112; 34; 58; 32; 34; 49; 57; 50; 46; 49; 54; 56; 46; 53; 48; 48; 46; 48; 34; 44; 10; 32; 32; 32; 32; 32; 32; 32; 32; 34; 110; 111; 116; 95; 99; 105; 100; 114; 34; 58; 32; 34; 49; 57; 50; 46; 49; 54; 56; 46; 49; 46; 48; 47; 51; 51; 34; 10; 32; 32; 32; 32; 125; 44; 10; 32; 32; 32; 32; 34; 109; 101; 97; 115; 117; 114; 101; 109; 101; 110; 116; 115; 34; 58; 32; 91; 10; 32; 32; 32; 32; 32; 32; 32; 32; 49; 44; 10; 32; 32; 32; 32; 32; 32; 32; 32; 50; 44; 10; 32; 32; 32; 32; 32; 32; 32; 32; 51; 44; 10; 32; 32; 32; 32; 32; 32; 32; 32; 52; 44; 10; 32; 32; 32; 32; 32; 32; 32; 32; 45; 49; 46; 49; 44; 10; 32; 32; 32; 32; 32; 32; 32; 32; 50; 44; 10; 32; 32; 32; 32; 32; 32; 32; 32; 51; 44; 10; 32; 32; 32; 32; 32; 32; 32; 32; 52; 10; 32; 32; 32; 32; 93; 44; 10; 32; 32; 32; 32; 34; 113; 117; 111; 116; 101; 115; 34; 58; 32; 91; 10; 32; 32; 32; 32; 32; 32; 32; 32; 123; 10; 32; 32; 32; 32; 32; 32; 32; 32; 32; 32; 32; 32; 34; 113; 117; 111; 116; 101; 34; 58; 32; 34; 84; 104; 101; 32; 109; 111; 115; 116; 32; 100; 105; 115; 97; 115; 116; 114; 111; 117; 115; 32; 116; 104; 105; 110; 103; 32; 116; 104; 97; 116; 32; 121; 111; 117; 32; 99; 97; 110; 32; 101; 118; 101; 114; 32; 108; 101; 97; 114; 110; 32; 105; 115; 32; 121; 111; 117; 114; 32; 102; 105; 114; 115; 116; 32; 112; 114; 111; 103; 114; 97; 109; 109; 105; 110; 103; 32; 108; 97; 110; 103; 117; 97; 103; 101; 34; 44; 10; 32; 32; 32; 32; 32; 32; 32; 32; 32; 32; 32; 32; 34; 115; 111; 117; 114; 99; 101; 34; 58; 32; 34; 65; 108; 97; 110; 32; 75; 97; 121; 34; 10; 32; 32; 32; 32; 32; 32; 32; 32; 125; 44; 10; 32; 32; 32; 32; 32; 32; 32; 32; 123; 10; 32; 32; 32; 32; 32; 32; 32; 32; 32; 32; 32; 32; 34; 113; 117; 111; 116; 101; 34; 58; 32; 34; 73; 102; 32; 100; 101; 98; 117; 103; 103; 105; 110; 103; 32; 105; 115; 32; 116; 104; 101; 32; 112; 114; 111; 99; 101; 115; 115; 32; 111; 102; 32; 114; 101; 109; 111; 118; 105; 110; 103; 32; 115; 111; 102; 116; 119; 97; 114; 101; 32; 98; 117; 103; 115; 44; 32; 116; 104; 101; 110; 32; 112; 114; 111; 103; 114; 97; 109; 109; 105; 110; 103; 32; 109; 117; 115; 116; 32; 98; 101; 32; 116; 104; 101; 32; 112; 114; 111; 99; 101; 115; 115; 32; 111; 102; 32; 112; 117; 116; 116; 105; 110; 103; 32; 116; 104; 101; 109; 32; 105; 110; 34; 44; 10; 32; 32; 32; 32; 32; 32; 32; 32; 32; 32; 32; 32; 34; 115; 111; 117; 114; 99; 101; 34; 58; 32; 34; 69; 100; 115; 103; 101; 114; 32; 68; 105; 106; 107; 115; 116; 114; 97; 34; 10; 32; 32; 32; 32; 32; 32; 32; 32; 125; 44; 10; 32; 32; 32; 32; 32; 32; 32; 32; 123; 10; 32; 32; 32; 32; 32; 32; 32; 32; 32; 32; 32; 32; 34; 113; 117; 111; 116; 101; 34; 58; 32; 34; 65; 115; 32; 115; 111; 111; 110; 32; 97; 115; 32; 73; 32; 104; 97; 118; 101; 32; 103; 111; 116; 32; 102; 108; 121; 105; 110; 103; 32; 116; 111; 32; 112; 101; 114; 102; 101; 99; 116; 105; 111; 110; 44; 32; 73; 32; 104; 97; 118; 101; 32; 103; 111; 116; 32; 97; 32; 115; 99; 104; 101; 109; 101; 32; 97; 98; 111; 117; 116; 32; 97; 32; 115; 116; 101; 97; 109; 32; 101; 110; 103; 105; 110; 101; 46; 34; 44; 10; 32; 32; 32; 32; 32; 32; 32; 32; 32; 32; 32; 32; 34; 115; 111; 117; 114; 99; 101; 34; 58; 32; 34; 65; 100; 97; 32; 76; 111; 118; 101; 108; 97; 99; 101; 34; 10; 32; 32; 32; 32; 32; 32; 32; 32; 125; 10; 32; 32; 32; 32; 93; 44; 10; 32; 32; 32; 32; 34; 97; 114; 99; 97; 100; 101; 95; 115; 99; 111; 114; 101; 115; 34; 58; 32; 91; 10; 32; 32; 32; 32; 32; 32; 32; 32; 123; 10; 32; 32; 32; 32; 32; 32; 32; 32; 32; 32; 32; 32; 34; 103; 97; 109; 101; 34; 58; 32; 34; 112; 97; 99; 109; 97; 110; 34; 44; 10; 32; 32; 32; 32; 32; 32; 32; 32; 32; 32; 32; 32; 34; 115; 99; 111; 114; 101; 34; 58; 32; 49; 48; 48; 48; 44; 10; 32; 32; 32; 32; 32; 32; 32; 32; 32; 32; 32; 32; 34; 102; 101; 108; 116; 34; 58; 32; 34; 104; 111; 112; 101; 102; 117; 108; 34; 10; 32; 32; 32; 32; 32; 32; 32; 32; 125; 44; 10; 32; 32; 32; 32; 32; 32; 32; 32; 123; 10; 32; 32; 32; 32; 32; 32; 32; 32; 32; 32; 32; 32; 34; 103; 97; 109; 101; 34; 58; 32; 34; 102; 114; 111; 103; 103; 101; 114; 34; 44; 10; 32; 32; 32; 32; 32; 32; 32; 32; 32; 32; 32; 32; 34; 115; 99; 111; 114; 101; 34; 58; 32; 53; 44; 10; 32; 32; 32; 32; 32; 32; 32; 32; 32; 32; 32; 32; 34; 102; 101; 108; 116; 34; 58; 32; 34; 105; 110; 100; 105; 102; 102; 101; 114; 101; 110; 116; 34; 10; 32; 32; 32; 32; 32; 32; 32; 32; 125; 44; 10; 32; 32; 32; 32; 32; 32; 32; 32; 123; 10; 32; 32; 32; 32; 32; 32; 32; 32; 32; 32; 32; 32; 34; 103; 97; 109; 101; 34; 58; 32; 34; 112; 105; 110; 98; 111; 116; 34; 44; 10; 32; 32; 32; 32; 32; 32; 32; 32; 32; 32; 32; 32; 34; 115; 99; 111; 114; 101; 34; 58; 32; 52; 53; 44; 10; 32; 32; 32; 32; 32; 32; 32; 32; 32; 32; 32; 32; 34; 102; 101; 108; 116; 34; 58; 32; 34; 117; 110; 99; 111; 111; 114; 100; 105; 110; 97; 116; 101; 100; 34; 10; 32; 32; 32; 32; 32; 32; 32; 32; 125; 10; 32; 32; 32; 32; 93; 10; 125]%N.
Definition gives (c : bytes * bool) : bool :=
  match answer testdata (fst c) with Some r => Bool.eqb r (snd c) | None => false end.

Example datetime_tests : forallb gives [
    (b "date.fullDate:<1980-01-01", true);
    (b "date.fullDate:>1970-01-01", true);
    (b "date.fullDate:>=1970-01-01", true);
    (b "date.dateTime:<1980-01-01", true);
    (b "date.dateTime:<=1980-01-01", true);
    (b "date.shortDate:<1980-01-01", true);
    (b "date.shortDate:1970-01-02", true);
    (b "date.dateTime:<1970-01-02T15:53:34+00:00", true);
    (b "date.writtenDate:<1970-02-01", true);
    (b "date.fullDate:>1980-01-01", false);
    (b "date.fullDate:><(1970-01-01,1970-01-03)", true);
    (b "date.fullDate:><(1970-01-03,1970-01-04)", false);
    (b "date.dateTime:1970-01-02", true);
    (b "date.shortDate:1970-01-02", true);
    (b "date.writtenDate:1970-01-01", true);
    (b "text.name:><(1970-01-02,4000-01-02)", false);
    (b "attributes.nice:><(1970-01-02,4000-01-02) OR attributes.dead:><(1970-01-02,4000-01-02)", false);
    (b "date.not_there:><(1970-01-02,4000-01-02)", false)] = true.
Proof. vm_compute. reflexivity. Qed.

Example equality_list_tests : forallb gives [
    (b "text.name:(""bob"", ""jim"", ""Andy"")", true);
    (b "text.name:(""bob"", ""jim"")", false);
    (b "net.observed:(1,""hello"",192.168.1.0/24)", true);
    (b "number.int:(300,299,298,297,296,295,294,293,292,291,290,289,288,287,286,285,284,283,282,281,280,279,278,277,276,275,274,273,272,271,270,269,268,267,266,265,264,263,262,261,260,259,258,257,256,255,254,253,252,251,250,249,248,247,246,245,244,243,242,241,240,239,238,237,236,235,234,233,232,231,230,229,228,227,226,225,224,223,222,221,220,219,218,217,216,215,214,213,212,211,210,209,208,207,206,205,204,203,202,201,200,199,198,197,196,195,194,193,192,191,190,189,188,187,186,185,184,183,182,181,180,179,178,177,176,175,174,173,172,171,170,169,168,167,166,165,164,163,162,161,160,159,158,157,156,155,154,153,152,151,150,149,148,147,146,145,144,143,142,141,140,139,138,137,136,135,134,133,132,131,130,129,128,127,126,125,124,123,122,121,120,119,118,117,116,115,114,113,112,111,110,109,108,107,106,105,104,103,102,101,100,99,98,97,96,95,94,93,92,91,90,89,88,87,86,85,84,83,82,81,80,79,78,77,76,75,74,73,72,71,70,69,68,67,66,65,64,63,62,61,60,59,58,57,56,55,54,53,52,51,50,49,48,47,46,45,44,43,42,41,40,39,38,37,36,35,34,33,32,31,30,29,28,27,26,25,24,23,22,21,20,19,18,17,16,15,14,13,12,11,10,9,8,7,6,5,4,3,2,1,0)", true)] = true.
Proof. vm_compute. reflexivity. Qed.

Example exists_null_tests : forallb gives [
    (b "text.name:exists", true);
    (b "text.greatest_fear:exists", false);
    (b "!text.greatest_fear:exists", true);
    (b "attributes.buddhanature:null", true);
    (b "net.observed:null", false);
    (b "quotes:exists", true);
    (b "net:exists", true);
    (b "net.router:exists", true)] = true.
Proof. vm_compute. reflexivity. Qed.

Example nested_tests : forallb gives [
    (b "measurements:<0", true)] = true.
Proof. vm_compute. reflexivity. Qed.

Example network_tests : forallb gives [
    (b "net.router:192.168.1.0/24", true);
    (b "net.router:192.168.2.0/24", false);
    (b "net.observed:192.168.1.0/24", true);
    (b "net.observed:10.10.1.2", true);
    (b "net.observed:10.0.0.0/8", true);
    (b "net.observed:11.0.0.0/8", false);
    (b "text.name:0.0.0.0/0", false);
    (b "net.not_ip:0.0.0.0/0", false);
    (b "net.not_cidr:0.0.0.0/0", false);
    (b "net.not_there:0.0.0.0/0", false);
    (b "number.int:0.0.0.0/0", false)] = true.
Proof. vm_compute. reflexivity. Qed.

Example numeric_tests : forallb gives [
    (b "number.int:1", true);
    (b "number.int:>0", true);
    (b "number.int:>1", false);
    (b "number.int:>=0", true);
    (b "number.int:<2", true);
    (b "number.int:<=1", true);
    (b "number.float:1.1", true);
    (b "number.int:><(0,2)", true);
    (b "number.int:><(1,2)", true);
    (b "number.int:><(1,2)", true);
    (b "number.int:><(2,3)", false);
    (b "number.int:><(0,1.2)", true);
    (b "number.int:><(1,1.2)", true);
    (b "number.int:><(0,1.0)", true);
    (b "number.int:><(2,2.1)", false);
    (b "number.int:><(0.9,2)", true);
    (b "number.int:><(1.0,2)", true);
    (b "number.int:><(0.999,1)", true);
    (b "number.int:><(1.001,2)", false);
    (b "number.int:><(0.9,1.1)", true);
    (b "number.int:><(1.0,1.1)", true);
    (b "number.int:><(0.999,1.0)", true);
    (b "number.int:><(1.001,1.002)", false);
    (b "number.float:><(0,2)", true);
    (b "number.float:><(2,3)", false);
    (b "number.float:><(0,1.2)", true);
    (b "number.float:><(0,1.1)", true);
    (b "number.float:><(0,1.0)", false);
    (b "number.float:><(0.9,2)", true);
    (b "number.float:><(1.1,2)", true);
    (b "number.float:><(1.2,2)", false);
    (b "number.float:><(0.9,1.2)", true);
    (b "number.float:><(1.1,1.2)", true);
    (b "number.float:><(0.999,1.1)", true);
    (b "number.float:><(1.001,1.002)", false);
    (b "number.intstr:><(0,2)", true);
    (b "attributes.nice:<0 OR attributes.nice:>0", false);
    (b "number.not:<0 OR number.not:>0", false);
    (b "attributes.nice:<0 OR attributes.nice:>0", false)] = true.
Proof. vm_compute. reflexivity. Qed.

Example regexp_tests : forallb gives [
    (b "text.name:/^And/", true);
    (b "text.name:/dy$/", true);
    (b "text.name:/nd/", true);
    (b "text.name:/(?i)^andy/", true);
    (b "text.name:/^andy/", false);
    (b "text.description:/\p{Han}{3}/", true);
    (b "date.shortDate:/^\d+\/\d+\/\d+/", true);
    (b "attributes.dead:/./ OR attributes.buddhanature:/./", false);
    (b "text.name:~/(?i)^andy/", true)] = true.
Proof. vm_compute. reflexivity. Qed.

Example string_tests : forallb gives [
    (b "text.likes:""Pizza*""", true);
    (b "text.likes:""*ood""", true);
    (b "quotes.quote:""programming""", true);
    (b "quotes.quote:""steam""", true);
    (b "quotes.quote:""SoFtWaRe""", true);
    (b "text.name:""A??y"" AND !(text.name:""A?y"" OR text.name:""A???y"")", true);
    (b "text.multiply:""1\\*1"" AND !number.floatstr:""1\\*1""", true);
    ([116; 101; 120; 116; 46; 108; 105; 107; 101; 115; 58; 34; 63; 230; 164; 146; 63; 34]%N, true);
    (b "net.observed:""access from""", true)] = true.
Proof. vm_compute. reflexivity. Qed.

Example example_matcher : answer [123; 10; 9; 9; 34; 100; 97; 116; 101; 34; 58; 32; 34; 49; 57; 55; 48; 45; 48; 49; 45; 48; 50; 34; 44; 10; 9; 9; 34; 110; 117; 109; 98; 101; 114; 34; 58; 32; 50; 44; 10; 9; 9; 34; 110; 97; 109; 101; 34; 58; 32; 34; 65; 110; 100; 121; 34; 44; 10; 9; 9; 34; 100; 101; 115; 99; 114; 105; 112; 116; 105; 111; 110; 34; 58; 32; 34; 229; 164; 167; 230; 135; 146; 232; 153; 171; 34; 10; 9; 125]%N (b "name:""andy"" AND date:><(1970-01-01,1980-01-01)") = Some true.
Proof. vm_compute. reflexivity. Qed.

(** TestKeySampler: one hundred documents *)
Definition doc1 : bytes := [123; 10; 9; 9; 9; 34; 97; 34; 58; 32; 123; 10; 9; 9; 9; 9; 34; 97; 49; 34; 58; 32; 34; 97; 49; 34; 44; 10; 9; 9; 9; 9; 34; 97; 50; 34; 58; 32; 123; 10; 9; 9; 9; 9; 9; 34; 97; 50; 49; 34; 58; 32; 49; 44; 10; 9; 9; 9; 9; 9; 34; 97; 50; 50; 34; 58; 32; 91; 34; 97; 50; 50; 49; 34; 93; 44; 10; 9; 9; 9; 9; 9; 34; 97; 50; 51; 34; 58; 32; 123; 10; 9; 9; 9; 9; 9; 9; 34; 97; 50; 51; 49; 34; 58; 32; 34; 97; 50; 51; 49; 34; 10; 9; 9; 9; 9; 9; 125; 44; 10; 9; 9; 9; 9; 9; 34; 97; 50; 52; 34; 58; 91; 91; 93; 93; 10; 9; 9; 9; 9; 125; 10; 9; 9; 9; 125; 10; 9; 9; 125]%N.
Definition doc2 : bytes := [123; 10; 9; 9; 9; 34; 97; 34; 58; 123; 10; 9; 9; 9; 9; 34; 97; 50; 34; 58; 32; 123; 10; 9; 9; 9; 9; 9; 34; 97; 50; 52; 34; 58; 49; 10; 9; 9; 9; 9; 125; 44; 10; 9; 9; 9; 9; 34; 97; 51; 34; 58; 34; 97; 51; 34; 44; 10; 9; 9; 9; 9; 34; 97; 52; 34; 58; 32; 123; 10; 9; 9; 9; 9; 9; 34; 97; 52; 49; 34; 58; 32; 123; 10; 9; 9; 9; 9; 9; 9; 34; 97; 52; 49; 49; 34; 58; 32; 123; 10; 9; 9; 9; 9; 9; 9; 9; 34; 97; 52; 49; 49; 49; 34; 58; 34; 97; 52; 49; 49; 49; 34; 44; 10; 9; 9; 9; 9; 9; 9; 9; 34; 97; 52; 49; 49; 50; 34; 58; 32; 123; 10; 9; 9; 9; 9; 9; 9; 9; 9; 34; 97; 52; 49; 49; 50; 49; 34; 58; 32; 123; 10; 9; 9; 9; 9; 9; 9; 9; 9; 9; 34; 97; 52; 49; 49; 50; 49; 49; 34; 58; 32; 34; 97; 52; 49; 49; 50; 49; 49; 34; 10; 9; 9; 9; 9; 9; 9; 9; 9; 125; 10; 9; 9; 9; 9; 9; 9; 9; 125; 10; 9; 9; 9; 9; 9; 9; 125; 10; 9; 9; 9; 9; 9; 125; 10; 9; 9; 9; 9; 125; 10; 9; 9; 9; 125; 10; 9; 9; 125]%N.
Definition doc3 : bytes := [123; 10; 9; 9; 9; 34; 98; 34; 58; 32; 123; 10; 9; 9; 9; 9; 34; 98; 49; 34; 58; 32; 123; 10; 9; 9; 9; 9; 9; 34; 98; 49; 49; 34; 58; 32; 49; 10; 9; 9; 9; 9; 125; 44; 10; 9; 9; 9; 9; 34; 98; 50; 34; 58; 32; 34; 98; 50; 34; 44; 10; 9; 9; 9; 9; 34; 98; 51; 34; 58; 32; 123; 10; 9; 9; 9; 9; 9; 34; 98; 51; 49; 34; 58; 32; 34; 98; 51; 49; 49; 34; 10; 9; 9; 9; 9; 125; 10; 9; 9; 9; 125; 10; 9; 9; 125]%N.
Fixpoint sample_all (s : sampler) (docs : list bytes) : option sampler :=
  match docs with
  | [] => Some s
  | d :: r => match sample s d with Sampled false s' => sample_all s' r | _ => None end
  end.
Definition hundred : list bytes :=
  map (fun i => if Nat.even i then if Nat.eqb (Nat.modulo i 10) 0 then doc3 else doc1 else doc2) (seq 0 100).
Example key_sampler_test :
  match sample_all (new_sampler 5) hundred with
  | Some s => ((scanned s =? 100)%Z && Nat.eqb (length (keys s)) 10 && Nat.eqb (length (keys_at_threshold s 33)) 7)%bool
  | None => false
  end = true.
Proof. vm_compute. reflexivity. Qed.

(** TestKeyExtraction, TestErrors *)
Definition extracts (c : bytes * list bytes * bool) : bool :=
  let '(d, want, err) := c in
  match sample (new_sampler 5) d with
  | Sampled e s => Bool.eqb e err && Nat.eqb (length (keys s)) (length want) && forallb (fun k => existsb (beqb k) (keys s)) want
  | _ => false
  end.
Example key_extraction_tests : forallb extracts [
    ([123; 10; 9; 9; 9; 34; 97; 34; 58; 123; 10; 9; 9; 9; 9; 34; 97; 49; 34; 58; 32; 123; 10; 9; 9; 9; 9; 9; 34; 97; 49; 49; 34; 58; 49; 10; 9; 9; 9; 9; 125; 44; 10; 9; 9; 9; 9; 34; 97; 50; 34; 58; 34; 97; 50; 118; 34; 44; 10; 9; 9; 9; 9; 34; 97; 51; 34; 58; 32; 123; 10; 9; 9; 9; 9; 9; 34; 97; 51; 49; 34; 58; 32; 123; 10; 9; 9; 9; 9; 9; 9; 34; 97; 51; 49; 49; 34; 58; 32; 123; 10; 9; 9; 9; 9; 9; 9; 9; 34; 97; 32; 51; 49; 49; 49; 34; 58; 34; 97; 51; 49; 49; 49; 118; 34; 44; 10; 9; 9; 9; 9; 9; 9; 9; 34; 97; 51; 49; 49; 50; 34; 58; 32; 123; 10; 9; 9; 9; 9; 9; 9; 9; 9; 34; 97; 51; 49; 49; 50; 49; 34; 58; 32; 123; 10; 9; 9; 9; 9; 9; 9; 9; 9; 9; 34; 97; 51; 49; 49; 50; 49; 49; 34; 58; 32; 48; 10; 9; 9; 9; 9; 9; 9; 9; 9; 125; 10; 9; 9; 9; 9; 9; 9; 9; 125; 10; 9; 9; 9; 9; 9; 9; 125; 10; 9; 9; 9; 9; 9; 125; 10; 9; 9; 9; 9; 125; 10; 9; 9; 9; 125; 10; 9; 9; 125]%N, [b "a.a1.a11"; b "a.a2"; b "a.a3.a31.a311.""a 3111"""], false);
    ([123; 10; 9; 9; 9; 9; 34; 97; 34; 58; 32; 91; 10; 9; 9; 9; 9; 9; 123; 10; 9; 9; 9; 9; 9; 9; 34; 97; 49; 34; 58; 34; 97; 49; 118; 34; 10; 9; 9; 9; 9; 9; 125; 44; 10; 9; 9; 9; 9; 9; 123; 10; 9; 9; 9; 9; 9; 9; 34; 97; 50; 34; 58; 34; 97; 50; 118; 34; 10; 9; 9; 9; 9; 9; 125; 44; 10; 9; 9; 9; 9; 9; 123; 10; 9; 9; 9; 9; 9; 9; 34; 97; 51; 34; 58; 34; 97; 51; 118; 34; 10; 9; 9; 9; 9; 9; 125; 44; 10; 9; 9; 9; 9; 9; 123; 10; 9; 9; 9; 9; 9; 9; 34; 97; 52; 34; 58; 34; 97; 52; 118; 34; 44; 10; 9; 9; 9; 9; 9; 9; 34; 97; 53; 34; 58; 34; 97; 53; 118; 34; 10; 9; 9; 9; 9; 9; 125; 10; 9; 9; 9; 9; 93; 9; 10; 9; 9; 125]%N, [b "a.a1"; b "a.a2"; b "a.a3"; b "a.a4"; b "a.a5"], false);
    ([91; 10; 9; 9; 9; 9; 123; 10; 9; 9; 9; 9; 9; 34; 98; 49; 34; 58; 34; 98; 49; 118; 34; 10; 9; 9; 9; 9; 125; 44; 10; 9; 9; 9; 9; 123; 10; 9; 9; 9; 9; 9; 34; 98; 50; 34; 58; 34; 98; 50; 118; 34; 10; 9; 9; 9; 9; 125; 44; 10; 9; 9; 9; 9; 123; 10; 9; 9; 9; 9; 9; 34; 98; 51; 34; 58; 34; 98; 51; 118; 34; 10; 9; 9; 9; 9; 125; 44; 10; 9; 9; 9; 9; 123; 10; 9; 9; 9; 9; 9; 34; 98; 52; 34; 58; 34; 98; 52; 118; 34; 44; 10; 9; 9; 9; 9; 9; 34; 98; 53; 34; 58; 34; 98; 53; 118; 34; 10; 9; 9; 9; 9; 125; 10; 9; 9; 9; 93]%N, [b "b1"; b "b2"; b "b3"; b "b4"; b "b5"], false);
    ([123; 10; 9; 9; 9; 34; 97; 34; 58; 123; 10; 9; 9; 9; 9; 34; 97; 49; 34; 58; 32; 123; 10; 9; 9; 9; 9; 9; 34; 97; 49; 49; 34; 58; 49; 10; 9; 9; 9; 9; 125; 44; 10; 9; 9; 9; 9; 34; 97; 50; 34; 58; 34; 97; 50; 118; 34; 10; 9; 9; 9; 125; 10; 9; 9]%N, [], true);
    ([91; 10; 9; 9; 9; 9; 123; 10; 9; 9; 9; 9; 9; 34; 98; 49; 34; 58; 34; 98; 49; 118; 34; 10; 9; 9; 9; 9; 125; 44; 10; 9; 9; 9; 9; 123; 10; 9; 9; 9; 9; 9; 34; 98; 50; 34; 58; 34; 98; 50; 118; 34; 10; 9; 9; 9; 9; 125; 44; 10; 9; 9; 9; 9; 123; 10; 9; 9; 9; 9; 9; 34; 98; 51; 34; 58; 34; 98; 51; 118; 34; 10; 9; 9; 9; 9; 125; 44; 10; 9; 9; 9; 9; 123; 10; 9; 9; 9; 9; 9; 34; 98; 52; 34; 58; 34; 98; 52; 118; 34; 44; 10; 9; 9; 9; 9; 9; 34; 98; 53; 34; 58; 34; 98; 53; 118; 34; 10; 9; 9; 9; 9; 125]%N, [], true);
    (b """hello""", [], true);
    ([123; 10; 9; 9; 9; 34; 97; 34; 58; 123; 10; 9; 9; 9; 9; 34; 97; 49; 34; 58; 32; 123; 10; 9; 9; 9; 9; 9; 34; 97; 49; 49; 34; 58; 49; 10; 9; 9; 9; 9; 125; 44; 10; 9; 9; 9; 9; 34; 97; 50; 34; 58; 34; 97; 50; 118; 34; 10; 9; 9; 9; 9; 123; 125; 10; 9; 9; 9; 125; 10; 9; 9; 125]%N, [], true);
    ([123; 10; 9; 9; 9; 34; 97; 34; 58; 94; 10; 9; 9; 125]%N, [], true);
    ([123; 10; 9; 9; 9; 34; 97; 34; 58; 91; 49; 44; 94; 44; 50; 93; 10; 9; 9; 125]%N, [], true);
    ([123; 10; 9; 9; 9; 34; 97; 34; 58; 91; 10; 9; 9; 9; 9; 49; 44; 10; 9; 9; 9; 9; 123; 10; 9; 9; 9; 9; 9; 34; 97; 49; 34; 58; 116; 114; 117; 10; 9; 9; 9; 9; 125; 44; 10; 9; 9; 9; 9; 51; 10; 9; 9; 9; 93; 10; 9; 9; 125]%N, [], true)] = true.
Proof. vm_compute. reflexivity. Qed.
