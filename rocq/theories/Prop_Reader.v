(** C131: a query from a reader *)
From Verif Require Import Bytes Oracles Ast PegSyntax Engine Visitors ParseQuery Reader TestOracle Texts.

(** What a reader that keeps the contract of io.Reader delivers: asked for any number of bytes, it gives so many or
    fewer, perhaps none; after at most [n] calls it has given [data] and ends with [e], which may come together with
    the last bytes or alone. *)
Fixpoint delivers {S} (rd : reader S) (n : nat) (st : S) (data : bytes) (e : read_err) : Prop :=
  match n with
  | O => False
  | Datatypes.S n' => forall k, (0 < k)%nat -> let '(c, e', st') := rd st k in (length c <= k)%nat /\
      match e' with
      | Some x => x = e /\ data = c
      | None => exists rest, data = c ++ rest /\ delivers rd n' st' rest e
      end
  end.

Section Reading.
Context {S : Type} (rd : reader S) (grow : nat -> nat).
Lemma read_loop_delivers n : forall fuel st data e got cap, delivers rd n st data e -> (n <= fuel)%nat ->
  read_loop rd grow fuel st got cap = AData (got ++ data) (match e with REof => None | ROther m => Some m end).
Proof.
  induction n as [|n IH]; intros fuel st data e got cap D L; [destruct D|]. destruct fuel as [|fuel]; [lia|].
  cbn [read_loop delivers] in *. match goal with |- context [rd st (?x - _)%nat] => set (cap' := x) end.
  assert (P : (0 < cap' - length got)%nat) by (unfold cap'; destruct (Nat.leb_spec cap (length got)); lia).
  specialize (D _ P). destruct (rd st (cap' - length got)%nat) as [[c e'] st']. destruct D as (Lc & D).
  rewrite (proj2 (Nat.ltb_ge _ _) Lc). destruct e' as [x|].
  - destruct D as (-> & ->). destruct e; reflexivity.
  - destruct D as (rest & -> & D). rewrite app_assoc. apply IH; [exact D|lia].
Qed.

Context {W E T : Type} (O : oracles).
(** However the bytes are cut into pieces, the answer is that for the whole text: the same tree or error, and the
    visitors see the same. *)
Theorem C131_pieces n fuel (vs : list (visitor W E T * tape T)) st data w : delivers rd n st data REof -> (n <= fuel)%nat ->
  parse_query_reader rd grow O fuel vs st w =
  (RQuery (fst (fst (parse_query O vs data w))), snd (fst (parse_query O vs data w)), snd (parse_query O vs data w)).
Proof. intros D L. unfold parse_query_reader, read_all. rewrite (read_loop_delivers n fuel st data REof [] 512 D L). cbn [app]. now destruct (parse_query O vs data w) as [[r w'] ts]. Qed.
(** If reading fails, the error of the reader is returned, without a place, whatever was read before; no visitor runs. *)
Theorem C131_failure n fuel (vs : list (visitor W E T * tape T)) st data m w : delivers rd n st data (ROther m) -> (n <= fuel)%nat ->
  exists p, parse_query_reader rd grow O fuel vs st w = (RRead p m, w, map snd vs) /\ p = no_position /\ error_line p m = b "0:0(-1): " ++ m.
Proof. intros D L. unfold parse_query_reader, read_all. rewrite (read_loop_delivers n fuel st data (ROther m) [] 512 D L). eexists. repeat split. Qed.
End Reading.
Print Assumptions C131_pieces.
Print Assumptions C131_failure.

(** ParseQuery is ParseQueryReader with a strings.Reader. *)
Lemma strings_delivers q : forall n, (length q <= n)%nat -> delivers strings_reader (S n) q q REof.
Proof.
  intros n. revert q. induction n as [|n IH]; intros q L; cbn [delivers]; intros k Hk.
  - destruct q; [|cbn in L; lia]. cbn. split; [lia|auto].
  - destruct q as [|c q]; [cbn; split; [lia|auto]|]. unfold strings_reader. split; [rewrite firstn_length; lia|].
    exists (skipn k (c :: q)). split; [now rewrite firstn_skipn|]. apply IH. rewrite skipn_length. cbn [length] in *. lia.
Qed.
Theorem C131_query {W E T} O grow (vs : list (visitor W E T * tape T)) q w : exists enough, forall fuel, (enough <= fuel)%nat ->
  parse_query_reader strings_reader grow O fuel vs q w =
  (RQuery (fst (fst (parse_query O vs q w))), snd (fst (parse_query O vs q w)), snd (parse_query O vs q w)).
Proof. exists (S (length q)). intros fuel L. eapply C131_pieces; [now apply strings_delivers|exact L]. Qed.
Print Assumptions C131_query.

(** A reader that gives one byte at a time and nothing every other time, and fails or ends with the last byte *)
Definition slow (e : read_err) : reader (bytes * bool) := fun s _ =>
  match s with
  | ([], _) => ([], Some e, s)
  | (c :: [], true) => ([c], Some e, ([], true))
  | (c :: q, true) => ([c], None, (q, false))
  | (q, false) => ([], None, (q, true))
  end.
Example C131_example : delivers (slow REof) 6 (b "a:1", true) (b "a:1") REof /\ delivers (slow (ROther (b "gone"))) 6 (b "a:1", true) (b "a:1") (ROther (b "gone")) /\
  exists t, fst (fst (parse_query_reader (W := unit) (E := unit) (T := unit) (slow REof) (fun n => n) test_oracle 6 [] (b "a:1", true) tt)) = RQuery (QOk t) /\
  fst (fst (parse_query_reader (W := unit) (E := unit) (T := unit) (slow (ROther (b "gone"))) (fun n => n) test_oracle 6 [] (b "a:1", true) tt)) = RRead no_position (b "gone").
Proof.
  split; [|split].
  - cbn. intros k1 H1. split; [lia|]. eexists. split; [reflexivity|]. intros k2 H2. split; [lia|]. eexists. split; [reflexivity|].
    intros k3 H3. split; [lia|]. eexists. split; [reflexivity|]. intros k4 H4. split; [lia|]. eexists. split; [reflexivity|]. intros k5 H5. split; [lia|auto].
  - cbn. intros k1 H1. split; [lia|]. eexists. split; [reflexivity|]. intros k2 H2. split; [lia|]. eexists. split; [reflexivity|].
    intros k3 H3. split; [lia|]. eexists. split; [reflexivity|]. intros k4 H4. split; [lia|]. eexists. split; [reflexivity|]. intros k5 H5. split; [lia|auto].
  - eexists. split; vm_compute; reflexivity.
Qed.
