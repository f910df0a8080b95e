(** C103: documents that say the same get the same answer. *)
From Verif Require Import Bytes Utf8 GoStrconv GoFloat GoTime GoNet Oracles Ast AstSpec Json JsonSpec JsonProofs Values StrMatch Matcher
  QueryMessages MatchApi MatchSpec MatchProofs MatcherTop Visitors ParseQuery OrderSpec TestOracle.
From Verif Require Layout.

Section WithOracles.
Context (O : oracles).

Fixpoint alike_sym j k (H : alike O j k) {struct H} : alike O k j.
Proof.
  destruct H as [j|x y E|x y U E|els els' F G|ms ms' W W' F G].
  - apply al_same.
  - apply al_number. now symmetry.
  - apply al_string; now symmetry.
  - apply al_array.
    + intros e He. destruct (G e He) as (e' & Hi & A). exists e'. split; [exact Hi|exact (alike_sym _ _ A)].
    + intros e He. destruct (F e He) as (e' & Hi & A). exists e'. split; [exact Hi|exact (alike_sym _ _ A)].
  - apply al_object; [assumption..| |].
    + intros x v Hx. destruct (G x v Hx) as (x' & v' & Hi & U & A). exists x', v'. split; [exact Hi|]. split; [now symmetry|exact (alike_sym _ _ A)].
    + intros x v Hx. destruct (F x v Hx) as (x' & v' & Hi & U & A). exists x', v'. split; [exact Hi|]. split; [now symmetry|exact (alike_sym _ _ A)].
Qed.

Lemma well_named_member ms raw v key : well_named ms -> In (raw, v) ms -> unescape raw = Some key -> member key (JObj ms) v.
Proof.
  intros (names & E & Nd) Hin U. apply in_split in Hin. destruct Hin as (l1 & l2 & ->).
  exists l1, raw, l2. split; [reflexivity|]. split; [exact U|].
  rewrite map_app in E. cbn in E. symmetry in E. apply map_eq_app in E. destruct E as (n1 & n2 & -> & E1 & E2).
  destruct n2 as [|k n2]; [discriminate|]. cbn in E2. injection E2 as Ek E2. rewrite U in Ek. injection Ek as ->.
  apply NoDup_remove_2 in Nd. apply Forall_forall. intros m Hm.
  assert (Hi : In (unescape (fst m)) (map (fun m => unescape (fst m)) l1)) by (apply in_map_iff; eauto).
  rewrite <- E1 in Hi. apply in_map_iff in Hi. destruct Hi as (k' & Ek & Hk). exists k'. split; [now symmetry|].
  intros ->. apply Nd. apply in_app_iff. now left.
Qed.

Lemma alike_member key j k v : alike O j k -> member key j v -> exists w, member key k w /\ alike O v w.
Proof.
  intros A M. destruct A as [j|x y E|x y U E|els els' F G|ms ms' W W' F G].
  - exists v. split; [exact M|apply al_same].
  - destruct M as (? & ? & ? & ? & _). discriminate.
  - destruct M as (? & ? & ? & ? & _). discriminate.
  - destruct M as (? & ? & ? & ? & _). discriminate.
  - destruct M as (l1 & raw & l2 & E & U & _). injection E as ->.
    destruct (F raw v ltac:(apply in_app_iff; right; now left)) as (x' & v' & Hi & U' & A).
    exists v'. split; [|exact A]. rewrite U in U'. now apply (well_named_member ms' x').
Qed.

Lemma alike_resolves path j v : resolves path j v -> forall k, alike O j k -> exists w, resolves path k w /\ alike O v w.
Proof.
  induction 1 as [key j v M|key path j child v M R IH|key path j els e v M Hi R IH]; intros k A.
  - destruct (alike_member _ _ _ _ A M) as (w & Mw & Aw). exists w. split; [now apply rs_last|exact Aw].
  - destruct (alike_member _ _ _ _ A M) as (c & Mc & Ac). destruct (IH _ Ac) as (w & Rw & Aw).
    exists w. split; [now apply rs_object with c|exact Aw].
  - destruct (alike_member _ _ _ _ A M) as (c & Mc & Ac).
    assert (exists els' e', c = JArr els' /\ In e' els' /\ alike O e e') as (els' & e' & -> & Hi' & Ae).
    { inversion Ac as [|? ?|? ?|? els' F G|]; subst.
      - exists els, e. repeat split; [exact Hi|apply al_same].
      - destruct (F e Hi) as (e' & Hi' & Ae). eauto. }
    destruct (IH _ Ae) as (w & Rw & Aw). exists w. split; [now apply rs_array with els' e'|exact Aw].
Qed.

Lemma alike_scalar s t : alike O s t -> scalar s -> scalar t.
Proof.
  intros A [S1 S2]. destruct A as [j|x y E|x y U E|els els' F G|ms ms' W W' F G]; [now split|split; discriminate..| |].
  - now destruct (S2 els).
  - now destruct (S1 ms).
Qed.

Lemma alike_tested path j k s : alike O j k -> tested path j s -> exists t, tested path k t /\ alike O s t.
Proof.
  intros A [Sc [R|(els & R & Hi)]].
  - destruct (alike_resolves _ _ _ R _ A) as (t & Rt & At). exists t. split; [|exact At].
    split; [now apply alike_scalar with s|now left].
  - destruct (alike_resolves _ _ _ R _ A) as (c & Rt & Ac).
    inversion Ac as [|? ?|? ?|? els' F G|]; subst.
    + exists s. split; [split; [exact Sc|right; eauto]|apply al_same].
    + destruct (F s Hi) as (t & Ht & At). exists t. split; [|exact At].
      split; [now apply alike_scalar with s|right; eauto].
Qed.

Lemma alike_text s t x : alike O s t -> text_of O s x -> text_of O t x.
Proof.
  intros A T. destruct A as [j|y z E|y z U E|els els' F G|ms ms' W W' F G]; [exact T| | |inversion T..].
  - inversion T; subst. apply tof_number. now rewrite <- E.
  - inversion T; subst. apply tof_string. now rewrite <- U.
Qed.

Lemma alike_num s t f : alike O s t -> number_of O s f -> number_of O t f.
Proof.
  intros A (raw & E & P). destruct A as [j|y z En|y z U En|els els' F G|ms ms' W W' F G];
    [exists raw; auto| | |destruct E; discriminate..].
  - destruct E as [E|E]; [discriminate|]. injection E as <-. exists z. split; [now right|]. now rewrite <- En.
  - destruct E as [E|E]; [|discriminate]. injection E as <-. exists z. split; [now left|]. now rewrite <- En.
Qed.

Lemma alike_instant s t i : alike O s t -> instant_of O s i -> instant_of O t i.
Proof. intros A (x & T & D). exists x. split; [now apply alike_text with s|exact D]. Qed.

Lemma alike_equals v s t : alike O s t -> equals O v s -> equals O v t.
Proof.
  intros A. destruct v as [| | | | | |i [] src ps]; cbn [equals];
    try (intros (x & T & H); exists x; split;
         [(now apply alike_text with s) || (now apply alike_num with s) || (now apply alike_instant with s)|exact H]).
  intros ->. now inversion A.
Qed.

Lemma alike_ordered o v s t : alike O s t -> ordered O o v s -> ordered O o v t.
Proof.
  intros A. destruct v; cbn [ordered];
    try (intros (f & g & L & Nm & R); exists f, g; repeat split; [exact L|now apply alike_num with s|exact R]).
  intros (i & T & H). exists i. split; [now apply alike_instant with s|exact H].
Qed.

Lemma alike_range v w s t : alike O s t -> in_range O v w s -> in_range O v w t.
Proof.
  intros A. destruct v; cbn [in_range];
    try (intros (f & g & L & Nm & R); exists f, g; repeat split; [exact L|now apply alike_num with s|apply R..]).
  destruct w; try (now intros []).
  intros (i & T & H). exists i. split; [now apply alike_instant with s|exact H].
Qed.

Lemma alike_null v : alike O JNull v -> v = JNull.
Proof. intros A. now inversion A. Qed.

(** One direction for a single comparison. *)
Lemma alike_expr o path vs p j k : alike O j k -> holds O (NExpr o path vs p) j -> holds O (NExpr o path vs p) k.
Proof.
  intros A. destruct o; cbn [holds];
    try (intros (v & s & E & T & H); destruct (alike_tested _ _ _ _ A T) as (t & Tt & At); exists v, t; split; [exact E|];
         split; [exact Tt|]; (now apply alike_equals with s) || (now apply alike_ordered with s)).
  - intros (v & w & s & E & T & H). destruct (alike_tested _ _ _ _ A T) as (t & Tt & At). exists v, w, t.
    split; [exact E|]. split; [exact Tt|]. now apply alike_range with s.
  - intros (v & R). destruct (alike_resolves _ _ _ R _ A) as (w & Rw & _). eauto.
  - intros [(v & R) H]. split.
    + destruct (alike_resolves _ _ _ R _ A) as (w & Rw & _). eauto.
    + intros w Rw. destruct (alike_resolves _ _ _ Rw _ (alike_sym _ _ A)) as (v' & Rv & Av).
      rewrite (H v' Rv) in Av. apply alike_null. now apply alike_sym.
Qed.

Lemma alike_root j k : alike O j k -> (exists els, j = JArr els) <-> (exists els, k = JArr els).
Proof. intros A. destruct A; split; intros (? & E); try discriminate; eauto. Qed.
End WithOracles.

(** The order of members, the order and repetition of array elements, and the spelling of
    names and numbers are irrelevant to Match (errors and panics included).  An index into a
    top-level array is the exception, so such segments are excluded. *)
Theorem C103_order O q t d1 d2 j1 j2 r : parse_plain O q = QOk t ->
  document d1 j1 -> document d2 j2 -> alike O j1 j2 ->
  (forall o f vs p, subnode (NExpr o f vs p) t -> no_index j1 f) ->
  answers O q d1 r <-> answers O q d2 r.
Proof.
  intros P D1 D2 A Ni. pose proof (accepted_tree_ok O q t P) as T. apply parse_json_spec in D1, D2.
  assert (Ev : forall m, build O t = Ok m -> ev O m j1 = ev O m j2).
  { clear P. induction t as [l IHl rr IHr|l IHl rr IHr|e IHe|o f vs p]; intros m.
    - cbn [build]. destruct (build O l) as [x|]; [|discriminate]. destruct (build O rr) as [y|]; [|discriminate]. cbn. intros [= <-]. cbn [ev].
      rewrite (IHl ltac:(intros; eapply Ni, sub_and_l; eassumption) ltac:(intros ? ? ? ? ?; eapply T, sub_and_l; eassumption) _ eq_refl).
      now rewrite (IHr ltac:(intros; eapply Ni, sub_and_r; eassumption) ltac:(intros ? ? ? ? ?; eapply T, sub_and_r; eassumption) _ eq_refl).
    - cbn [build]. destruct (build O l) as [x|]; [|discriminate]. destruct (build O rr) as [y|]; [|discriminate]. cbn. intros [= <-]. cbn [ev].
      rewrite (IHl ltac:(intros; eapply Ni, sub_or_l; eassumption) ltac:(intros ? ? ? ? ?; eapply T, sub_or_l; eassumption) _ eq_refl).
      now rewrite (IHr ltac:(intros; eapply Ni, sub_or_r; eassumption) ltac:(intros ? ? ? ? ?; eapply T, sub_or_r; eassumption) _ eq_refl).
    - cbn [build]. destruct (build O e) as [x|]; [|discriminate]. cbn. intros [= <-]. cbn [ev].
      now rewrite (IHe ltac:(intros; eapply Ni, sub_not; eassumption) ltac:(intros ? ? ? ? ?; eapply T, sub_not; eassumption) _ eq_refl).
    - intros B.
      assert (Go : path_safe j1 f -> path_safe j2 f -> no_index j2 f -> ev O m j1 = ev O m j2).
      { intros S1 S2 N2.
        destruct (ev_holds O (NExpr o f vs p) j1 T ltac:(intros ? ? ? ? S; inversion S; subst; split; [exact S1|apply (Ni o f vs p), sub_refl]) m B) as (a1 & E1 & H1).
        destruct (ev_holds O (NExpr o f vs p) j2 T ltac:(intros ? ? ? ? S; inversion S; subst; now split) m B) as (a2 & E2 & H2).
        rewrite E1, E2. f_equal.
        assert (a1 = true <-> a2 = true).
        { rewrite H1, H2. split; apply alike_expr; [exact A|now apply alike_sym]. }
        destruct a1, a2; intuition congruence. }
      pose proof (Ni o f vs p (sub_refl _)) as N1. pose proof (alike_root O j1 j2 A) as Rt.
      destruct f as [|[|c f0] rest].
      + cbn [build] in B. destruct (build_exprs O o vs) as [es|]; [|discriminate]. injection B as <-. reflexivity.
      + destruct j1 as [|x|x|x|els|ms];
          try (apply Go; [intros ? ?; discriminate|intros els E; destruct (proj2 Rt (ex_intro _ els E)); discriminate|exact Logic.I]).
        destruct (proj1 Rt (ex_intro _ els eq_refl)) as (els' & ->).
        cbn [build] in B. destruct (build_exprs O o vs) as [es|]; [|discriminate]. injection B as <-. reflexivity.
      + apply Go; [exact Logic.I..|]. cbn in N1 |- *.
        destruct (N.eq_dec c 91) as [->|Nc].
        * intros els E. destruct (proj2 Rt (ex_intro _ els E)) as (els' & E'). now apply (N1 els').
        * destruct c as [|c]; [exact Logic.I|]. repeat (destruct c as [c|c|]; try exact Logic.I). now destruct Nc. }
  rewrite !answers_iff. unfold answer. rewrite D1, D2.
  split; intros (t' & m & P' & B & An); exists t', m; (split; [exact P'|]); (split; [exact B|]);
    rewrite P in P'; injection P' as <-; rewrite <- An; [symmetry|]; f_equal; now apply Ev.
Qed.

(** The two documents of the example: members and elements rearranged, a name written with an
    escape, numbers written differently. *)
Definition doc1 : bytes := b "{""a"":[{""k"":1.50},{""k"":""x""}],""n"":100}".
Definition doc2 : bytes := b "{""n"":1e2, ""a"":[{""k"":""x""},{""k"":15e-1},{""k"":1.5}]}".

Ltac pick := first [left; reflexivity | right; pick].
Ltac named l := exists l; split; [vm_compute; reflexivity|];
  repeat (apply NoDup_cons; [cbn; intuition discriminate|]); apply NoDup_nil.
Ltac one_of H := repeat (destruct H as [H|H]); [injection H as <- <-..|destruct H].

Lemma example_alike : exists j1 j2, document doc1 j1 /\ document doc2 j2 /\ alike test_oracle j1 j2.
Proof.
  do 2 eexists. split; [apply parse_json_spec; vm_compute; reflexivity|]. split; [apply parse_json_spec; vm_compute; reflexivity|].
  assert (N : forall x y, same_number test_oracle x y -> alike test_oracle (JObj [(b "k", JNum x)]) (JObj [(b "k", JNum y)])).
  { intros x y E. apply al_object; [named [b "k"]..| |]; intros z v Hz; one_of Hz; do 2 eexists; (split; [pick|]);
      (split; [reflexivity|]); now apply al_number. }
  apply al_object; [named [b "a"; b "n"]|named [b "n"; b "a"]| |]; intros x v Hx; one_of Hx.
  - do 2 eexists. split; [right; left; reflexivity|]. split; [reflexivity|].
    apply al_array; intros e He.
    + destruct He as [<-|[<-|[]]].
      * eexists. split; [right; left; reflexivity|]. apply N. vm_compute. reflexivity.
      * eexists. split; [left; reflexivity|]. apply al_same.
    + destruct He as [<-|[<-|[<-|[]]]].
      * eexists. split; [right; left; reflexivity|]. apply al_same.
      * eexists. split; [left; reflexivity|]. apply N. vm_compute. reflexivity.
      * eexists. split; [left; reflexivity|]. apply N. vm_compute. reflexivity.
  - do 2 eexists. split; [left; reflexivity|]. split; [reflexivity|]. apply al_number. vm_compute. reflexivity.
  - do 2 eexists. split; [right; left; reflexivity|]. split; [reflexivity|]. apply al_number. vm_compute. reflexivity.
  - do 2 eexists. split; [left; reflexivity|]. split; [reflexivity|].
    apply al_array; intros e He.
    + destruct He as [<-|[<-|[]]].
      * eexists. split; [right; left; reflexivity|]. apply N. vm_compute. reflexivity.
      * eexists. split; [left; reflexivity|]. apply al_same.
    + destruct He as [<-|[<-|[<-|[]]]].
      * eexists. split; [right; left; reflexivity|]. apply al_same.
      * eexists. split; [left; reflexivity|]. apply N. vm_compute. reflexivity.
      * eexists. split; [left; reflexivity|]. apply N. vm_compute. reflexivity.
Qed.

Example C103_example : doc1 <> doc2 /\
  answers test_oracle (b "a.k:1.5 AND n:><(99,101) AND !a.k:null") doc1 (Some true) /\
  answers test_oracle (b "a.k:1.5 AND n:><(99,101) AND !a.k:null") doc2 (Some true).
Proof.
  split; [discriminate|].
  split; do 3 eexists; (split; [vm_compute; reflexivity|]); (split; [apply af_none|]); vm_compute; reflexivity.
Qed.

(** The conditions are needed: the order of members with the same name matters, the spelling
    of a string of digits matters, and an index into a top-level array sees the order. *)
Example C103_needed :
  (answers test_oracle (b "a:1") (b "{""a"":1,""a"":2}") (Some true) /\ answers test_oracle (b "a:1") (b "{""a"":2,""a"":1}") (Some false)) /\
  (answers test_oracle (b "a:1") (b "{""a"":""1""}") (Some true) /\ answers test_oracle (b "a:1") (b "{""a"":""\u0031""}") (Some false)) /\
  (answers test_oracle (b """[0]"":1") (b "[1,2]") (Some true) /\ answers test_oracle (b """[0]"":1") (b "[2,1]") (Some false)).
Proof.
  repeat split; do 3 eexists; (split; [vm_compute; reflexivity|]); (split; [apply af_none|]); vm_compute; reflexivity.
Qed.
