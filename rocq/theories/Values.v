(** jsonmatcher/json_values.go, on top of the parts of github.com/buger/jsonparser v1.1.1 it
    uses.  jsonparser scans bytes; since Match only runs on valid JSON (jsonmatcher.go:38),
    its functions are modelled on the tree of the document: Get on an object is a search
    through its members, ArrayEach visits the elements of an array. *)
From Verif Require Import Bytes Utf8 GoStrconv GoFloat GoTime Oracles Json.

(** A Go call that returns a value or panics. *)
Inductive res (A : Type) := Ok (a : A) | Panic.
Arguments Ok {A} a.
Arguments Panic {A}.

Definition bind {A B} (x : res A) (f : A -> res B) : res B :=
  match x with Ok a => f a | Panic => Panic end.

(** ** jsonparser: escapes *)

(** escape.go backslashCharEscapeTable *)
Definition esc_byte (e : N) : option N :=
  if e =? 34 then Some 34 else if e =? 92 then Some 92 else if e =? 47 then Some 47
  else if e =? 98 then Some 8 else if e =? 102 then Some 12 else if e =? 110 then Some 10
  else if e =? 114 then Some 13 else if e =? 116 then Some 9 else None.

(** escape.go decodeSingleUnicodeEscape, on the four digits *)
Definition hex4 (h1 h2 h3 h4 : N) : option N :=
  match hex_val h1, hex_val h2, hex_val h3, hex_val h4 with
  | Some a, Some c, Some d, Some e => Some (a * 4096 + c * 256 + d * 16 + e)
  | _, _, _, _ => None
  end.

(** escape.go isUTF16EncodedRune *)
Definition is_utf16 (r : N) : bool := (55296 <=? r) && (r <=? 57343).

(** escape.go Unescape with unescapeToUTF8 and decodeUnicodeEscape.  The six bytes after a
    surrogate are not checked to start with \u. *)
Fixpoint unescape (s : bytes) : option bytes :=
  match s with
  | [] => Some []
  | c :: r =>
    if c =? 92 then
      match r with
      | [] => None
      | e :: r1 =>
        match esc_byte e with
        | Some x => option_map (cons x) (unescape r1)
        | None =>
          if e =? 117 then
            match r1 with
            | h1 :: h2 :: h3 :: h4 :: r2 =>
              match hex4 h1 h2 h3 h4 with
              | None => None
              | Some u =>
                if negb (is_utf16 u) then option_map (app (encode_rune u)) (unescape r2)
                else
                  match r2 with
                  | _ :: _ :: g1 :: g2 :: g3 :: g4 :: r3 =>
                    match hex4 g1 g2 g3 g4 with
                    | None => None
                    | Some v =>
                      if v <? 56320 then None
                      else option_map (app (encode_rune (65536 + (u - 55296) * 1024 + (v - 56320))))
                             (unescape r3)
                    end
                  | _ => None
                  end
              end
            | _ => None
            end
          else None
        end
      end
    else option_map (cons c) (unescape r)
  end.

(** ** jsonparser: look-up *)

(** parser.go searchKeys with one key, inside an object: the first member whose unescaped
    name is the key; a name that cannot be unescaped ends the search. *)
Fixpoint lookup (key : bytes) (ms : list (bytes * json)) : option json :=
  match ms with
  | [] => None
  | (k, v) :: ms' =>
    match unescape k with
    | None => None
    | Some k' => if beqb k' key then Some v else lookup key ms'
    end
  end.

(** parser.go Get(data, key): data is the text of any JSON value.  On an array, searchKeys
    reads the first byte of the key (panicking if there is none) and takes a key of the form
    [n] for an index. *)
Definition json_get (key : bytes) (j : json) : res (option json) :=
  match j with
  | JObj ms => Ok (lookup key ms)
  | JArr els =>
    match key with
    | [] => Panic
    | c :: t =>
      if c =? 91 then
        match rev t with
        | e :: i =>
          if e =? 93 then
            match parse_int (rev i) with
            | Some z => Ok (if (z <? 0)%Z then None else nth_error els (Z.to_nat z))
            | None => Ok None
            end
          else Ok None
        | [] => Ok None
        end
      else Ok None
    end
  | _ => Ok None
  end.

(** ** json_values.go *)

Fixpoint concat_res {A} (l : list (res (list A))) : res (list A) :=
  match l with
  | [] => Ok []
  | x :: l' => bind x (fun a => bind (concat_res l') (fun c => Ok (a ++ c)))
  end.

Definition is_object (j : json) : bool := match j with JObj _ => true | _ => false end.

(** 84-112 getValues.  This is the call with dataType == Object, whatever the data is; the
    recursive calls dispatch on the type of the child. *)
Fixpoint get_values (path : list bytes) (data : json) : res (list json) :=
  match path with
  | [] => Panic                                   (* 80: path.current() is vp[0] *)
  | key :: rest =>
    bind (json_get key data) (fun found =>
      match found with
      | None => Ok []
      | Some child =>
        match rest with
        | [] => Ok [child]                        (* 97: bottom *)
        | _ =>
          match child with
          | JObj _ => get_values rest child
          | JArr els =>
            concat_res (map (fun e => if is_object e then get_values rest e else Ok []) els)
          | _ => Ok []
          end
        end
      end)
  end.

(** 23-28 getField: the root is always taken for an object *)
Definition get_field (path : list bytes) (root : json) : res (list json) := get_values path root.

Definition is_scalar_json (j : json) : bool :=
  match j with JObj _ | JArr _ => false | _ => true end.

(** 30-53 scalarValues *)
Fixpoint scalar_values (vs : list json) : list json :=
  match vs with
  | [] => []
  | v :: vs' =>
    match v with
    | JObj _ => scalar_values vs'
    | JArr els => filter is_scalar_json els ++ scalar_values vs'
    | _ => v :: scalar_values vs'
    end
  end.

Section WithOracles.
Context (O : oracles).

(** 115-132 getStringVal *)
Definition get_string_val (v : json) : option bytes :=
  match v with
  | JStr raw => unescape raw
  | JNum raw => option_map (o_fmt_float O) (parse_float (o_float_other O) raw)
  | _ => None
  end.

(** 134-144 getNumberVal *)
Definition get_number_val (v : json) : option f64 :=
  match v with
  | JStr raw | JNum raw => parse_float (o_float_other O) raw
  | _ => None
  end.

(** 146-155 getBoolVal *)
Definition get_bool_val (v : json) : option bool :=
  match v with JBool x => Some x | _ => None end.

(** 157-171 getDatetimeVal *)
Definition get_datetime_val (v : json) : option Z :=
  do s <- get_string_val v;; do t <- o_dateparse O s;; Some (unix_nano t).
End WithOracles.
