(** wasm/aqlparse/index.html: the script of the web page.

    The strings of JavaScript are lists of 16-bit units.  jQuery and highlight-within-textarea are not in
    the repository; they are represented by what the script hands to them: the text of the output, the
    markup appended for the messages, and the ranges to mark. *)
From Verif Require Import Bytes Utf8 Oracles Ast Visitors QueryMessages Marshal Wasm Texts.

(** Value.String of syscall/js (wasm_exec.js:400-407): TextEncoder replaces unpaired surrogates. *)
Fixpoint points (us : list N) : list N :=
  match us with
  | [] => []
  | u :: us' =>
    if (u <? 55296) || (57343 <? u) then u :: points us'
    else
      match us' with
      | v :: us'' =>
        if (u <? 56320) && (56320 <=? v) && (v <=? 57343)
        then (65536 + (u - 55296) * 1024 + (v - 56320)) :: points us''
        else rune_error :: points us'
      | [] => [rune_error]
      end
  end.
Definition go_string (us : list N) : bytes := encode (points us).

(** 42-46 msgicon; a property that does not exist is written as undefined *)
Definition msg_icon (t : bytes) : bytes :=
  if beqb t (b "warning") then b "warning" else if beqb t (b "hint") then b "brain"
  else if beqb t (b "error") then b "times-circle" else b "undefined".
(** 47-49 newMsg *)
Definition new_msg (t content : bytes) : bytes :=
  b "<div class=""alert alert-" ++ t ++ b " alert-white rounded""><div class=""icon""><i class=""fa fa-" ++ msg_icon t ++
  b """></i></div><alerttitle>" ++ t ++ b "</alerttitle> " ++ content ++ b "</div>".

(** The state of the page: the text of the output, whether the messages are shown, their markup, and the ranges
    handed to the highlighter. *)
Record page := { sc_output : bytes; sc_shown : bool; sc_html : list bytes; sc_marks : list (Z * Z) }.

Section Page.
Context (O : oracles) (T : texts).

(** 52-93 aqlUpdate; [None]: the call of parseAQL does not return *)
Definition aql_update (input : list N) : option page :=
  match input with
  | [] => Some {| sc_output := b " "; sc_shown := false; sc_html := []; sc_marks := [] |}
  | _ =>
    match p_wrap O (go_string input) with
    | WebRes ast [] => Some {| sc_output := ast; sc_shown := false; sc_html := []; sc_marks := [] |}
    | WebRes _ ms =>
      let ps := map (page_of O T) ms in
      Some {| sc_output := []; sc_shown := true; sc_html := map (fun p => new_msg (pg_type p) (pg_msg p)) ps;
              sc_marks := map (fun p => (pg_start p, pg_end p)) ps |}
    | WebDeep =>
      (* main.go:43-45: a message with a text only *)
      Some {| sc_output := []; sc_shown := true; sc_html := [new_msg (b "undefined") (b "marshal error: exceeded max depth")]; sc_marks := [] |}
    | WebPanic | WebFuel => None
    end
  end.
End Page.

(** String.prototype.substring, by which the highlighter cuts the text: ends outside the text are moved to it. *)
Definition js_substring (us : list N) (s e : Z) : list N :=
  let n := Z.of_nat (length us) in
  let cl x := Z.to_nat (Z.max 0 (Z.min n x)) in
  let s := cl s in let e := cl e in
  firstn (Nat.max s e - Nat.min s e) (skipn (Nat.min s e) us).
