(** wasm/aqlparse/server/main.go: the server of the web page, with the parts of path, filepath and net/http
    (Go 1.20) it uses, on Unix.  Requests whose target is not a path (RequestURI asterisk), conditional and
    range requests and the log are left out; the listed names are files or absent, not directories. *)
From Verif Require Import Bytes Ast.

(** ** path.Clean, path/filepath.Join, Abs, Base *)
(** The parts between the slashes *)
Fixpoint parts (s : bytes) : list bytes :=
  match s with
  | [] => [[]]
  | c :: s' => if c =? 47 then [] :: parts s' else match parts s' with p :: l => (c :: p) :: l | [] => [[c]] end
  end.
(** path.go Clean, rules 2 to 4 on the parts from left to right; [out] is reversed, so that the last part
    written is its head *)
Fixpoint clean_parts (rooted : bool) (out l : list bytes) : list bytes :=
  match l with
  | [] => rev out
  | p :: l' =>
    if beqb p [] || beqb p (b ".") then clean_parts rooted out l'
    else if beqb p (b "..") then
      match out with
      | q :: out' => if beqb q (b "..") then clean_parts rooted (p :: out) l' else clean_parts rooted out' l'
      | [] => if rooted then clean_parts rooted [] l' else clean_parts rooted [p] l'
      end
    else clean_parts rooted (p :: out) l'
  end.
(** path.go Clean, path/filepath/path.go Clean (the same on Unix) *)
Definition rooted (s : bytes) : bool := match s with c :: _ => c =? 47 | [] => false end.
Definition clean (s : bytes) : bytes :=
  match s with
  | [] => b "."
  | _ =>
    let body := join (b "/") (clean_parts (rooted s) [] (parts s)) in
    if rooted s then 47 :: body else match body with [] => b "." | _ => body end
  end.
(** path/filepath/path_unix.go join: leading empty elements are skipped *)
Definition join2 (x y : bytes) : bytes :=
  match x, y with
  | [], [] => []
  | [], _ => clean y
  | _, _ => clean (x ++ b "/" ++ y)
  end.
(** path/filepath/path.go unixAbs; [cwd] is os.Getwd *)
Definition abs (cwd s : bytes) : bytes := if rooted s then clean s else join2 cwd s.
(** path/filepath/path.go Base: without slashes at the end, what follows the last slash *)
Fixpoint drop_slashes (r : bytes) : bytes := match r with c :: r' => if c =? 47 then drop_slashes r' else r | [] => [] end.
Definition base (s : bytes) : bytes :=
  match s with
  | [] => b "."
  | _ => match drop_slashes (rev s) with [] => b "/" | r => last (parts (rev r)) [] end
  end.

(** ** DiskFS *)
(** The map from names to paths as a list, the newest entry first. *)
Definition disk_fs := list (bytes * bytes).
(** 16-26 AddFile *)
Definition add_file (cwd : bytes) (d : disk_fs) (loc : bytes) : disk_fs :=
  let full := abs cwd loc in (base full, full) :: d.
(** The map's value for a key, the empty string if there is none *)
Fixpoint lookup (d : disk_fs) (name : bytes) : bytes :=
  match d with
  | [] => []
  | (k, v) :: d' => if beqb k name then v else lookup d' name
  end.
Section Serve.
Context (exists_file : bytes -> bool)    (* os.OpenFile on the path succeeds *)
        (cwd dir : bytes).               (* working directory, os.Args[1] *)

(** 39-43 *)
Definition wasm_fs : disk_fs :=
  fold_left (fun d n => add_file cwd d (join2 dir n)) [b "wasm_exec.js"; b "hwt.css"; b "style.css"; b "aqlparse.wasm"] [].

(** What happens to a request: files opened and closed, and the answer. *)
Inductive event := EOpen (path : bytes) | EClose (path : bytes).
Inductive answer :=
| SFile (path : bytes)           (** the content of the file *)
| SRedirect (to : bytes)
| SNotFound
| SPanic.                        (** recovered by net/http, the connection is closed *)

(** net/http/server.go cleanPath *)
Definition clean_path (p : bytes) : bytes :=
  match p with
  | [] => b "/"
  | _ =>
    let p := if rooted p then p else 47 :: p in
    let np := clean p in
    if (last p 0 =? 47) && negb (beqb np (b "/")) then
      (if Nat.eqb (length p) (S (length np)) && has_prefix np p then p else np ++ b "/")
    else np
  end.
(** net/http/fs.go ioFS.Open: the leading slash is dropped *)
Definition io_name (name : bytes) : bytes := if beqb name (b "/") then b "." else match name with c :: n => if c =? 47 then n else name | [] => [] end.
Definition ends_with (x s : bytes) : bool := has_prefix (rev x) (rev s).
(** net/http/fs.go fileHandler.ServeHTTP and serveFile with redirect, for files *)
Definition file_server (p : bytes) : list event * answer :=
  let p := if rooted p then p else 47 :: p in
  let name := clean p in
  if ends_with (b "/index.html") p then ([], SRedirect (b "./"))
  else
    let path := lookup wasm_fs (io_name name) in
    if exists_file path then
      if last p 0 =? 47 then ([EOpen path; EClose path], SRedirect (b "../" ++ base p))
      else ([EOpen path; EClose path], SFile path)
    else ([], SNotFound).
(** 47-58: the handler *)
Definition handler (p : bytes) : list event * answer :=
  if beqb p (b "/") then
    let f := join2 dir (b "index.html") in
    if exists_file f then ([EOpen f], SFile f) else ([], SPanic)
  else file_server p.
(** net/http/server.go ServeMux.Handler with the one pattern slash; paths of CONNECT requests are not cleaned *)
Definition serve (connect : bool) (p : bytes) : list event * answer :=
  if connect then (if rooted p then handler p else ([], SNotFound))
  else if beqb (clean_path p) p then handler p
  else ([], SRedirect (clean_path p)).
End Serve.
