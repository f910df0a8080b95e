(** The JSON of messages: encoding/json on parser.ParserMessage (parser/message.go:12-16, 47-51)
    and ast.Pos (parser/ast/ast.go:136-145). *)
From Verif Require Import Bytes Ast Visitors Marshal Texts.

(** ast.go:136-145 *)
Definition pos_tree (p : pos) : jtree :=
  TObj [("line", TInt (p_line p)); ("column", TInt (p_col p)); ("offset", TInt (p_off p)); ("length", TInt (p_len p))]%string.
(** message.go:18-24 *)
Definition type_num (t : msg_type) : Z := match t with MHint => 1 | MWarning => 2 | MError => 3 end.
(** message.go:47-51.  MarshalJSON (message.go:14-16) is declared for *MessageType, so that encoding/json
    calls it only for a field it can take the address of: if the message is reached through a pointer
    (encode.go condAddrEncoder); otherwise the type is written as the integer it is. *)
Definition message_tree (addressed : bool) (t : msg_type) (p : pos) (msg : bytes) : jtree :=
  TObj [("position", pos_tree p); ("message", TStr msg); ("type", if addressed then TStr (type_str t) else TInt (type_num t))]%string.
(** A slice of pointers, as returned by Matcher.Messages (jsonmatcher/jsonmatcher.go:44), or one of
    values; a nil slice is null. *)
Definition messages_tree (addressed : bool) (l : list (msg_type * pos * bytes)) : jtree :=
  match l with [] => TNull | _ => TList (map (fun x => message_tree addressed (fst (fst x)) (snd (fst x)) (snd x)) l) end.
