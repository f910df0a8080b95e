(** C114-C116: what the operator checks show, the advice in the text, messages on the page. *)
From Verif Require Import Bytes Utf8 Utf8Proofs GoStrconv Oracles Ast AstSpec PegSyntax Engine Validators Visitors ParseQuery ParserTop QueryMessages MessageSpec
  Marshal GrammarSpec BlameSpec Prop_Blame Wasm WasmSpec WasmProofs Texts TestOracle.
From Verif Require Prop_Repair.

(** An operator check that objects to a value among others shows the value as it is printed, and
    its number; the value has an earlier one like it or the opposite truth value. *)
Theorem C115_checks O q k p sv i n : parse_plain O q = QErr (QInvalid k p) -> k = VeDuplicate sv i n \/ k = VeConflictBool sv i n ->
  exists text t o f us v ws np head, scalars text /\ q = encode text /\ query O text t /\ subnode (NExpr o f (us ++ v :: ws) np) t /\ p = val_pos v /\
    verr_text k = head ++ b "[" ++ val_string O v ++ b "] (value " ++ json_int (Z.of_nat (S (length us))) ++ b "/" ++ json_int (Z.of_nat (length (us ++ v :: ws))) ++ b ")" /\
    (head = b "duplicate argument " /\ (exists u, In u us /\ val_string O u = val_string O v) \/
     head = b "conflicting boolean value " /\ exists u, In u us /\ opposite (val_string O v) (val_string O u)).
Proof.
  intros P K. apply C104_blame in P as (text & t & l1 & [[o vs] p0] & l2 & Hs & -> & Q & El & _ & B).
  assert (Hi : In (o, vs, p0) (comparisons t)) by (rewrite El; apply in_app_iff; right; now left).
  destruct (comparisons_subnode _ _ _ _ Hi) as (f & S).
  inversion B as [| | | |o0 us v ws p1 A D Iv|us v ws p1 x D Nv Ix Op| |]; subst; try (destruct K; discriminate).
  - exists text, t, o, f, us, v, ws, p0, (b "duplicate argument "). do 5 (split; [first [assumption|reflexivity]|]).
    split; [cbn [verr_text]; change (b "duplicate argument [") with (b "duplicate argument " ++ b "["); change (b "] (value ") with (b "]" ++ b " (value "); rewrite <- !app_assoc; reflexivity|]. left. split; [reflexivity|].
    apply in_map_iff in Iv as (u & E & Iu). eauto.
  - exists text, t, EQ, f, us, v, ws, p0, (b "conflicting boolean value "). do 5 (split; [first [assumption|reflexivity]|]).
    split; [cbn [verr_text]; change (b "conflicting boolean value [") with (b "conflicting boolean value " ++ b "["); change (b "] (value ") with (b "]" ++ b " (value "); rewrite <- !app_assoc; reflexivity|]. right. split; [reflexivity|].
    apply in_map_iff in Ix as (u & E & Iu). subst x. eauto.
Qed.
Print Assumptions C115_checks.
Example C115_checks_example : exists p, parse_plain test_oracle (b "a:(1,true,2,1)") = QErr (QInvalid (VeDuplicate (b "1") 4 4) p) /\ verr_text (VeDuplicate (b "1") 4 4) = b "duplicate argument [1] (value 4/4)".
Proof. eexists. split; vm_compute; reflexivity. Qed.
(** The advice of C114 is what the error ends with. *)
Theorem C114_shown O T k t : Prop_Repair.advice O k = Some t -> exists head, error_text O T k = head ++ b " -- did you mean " ++ t ++ b "?".
Proof.
  destruct k as [| | | | | |w| | | | | | | | |]; try discriminate. intros [= <-]. exists (b "unknown type of value [" ++ w ++ b "]"). cbn [error_text]. change (b "] -- did you mean ") with (b "]" ++ b " -- did you mean "). now rewrite <- !app_assoc.
Qed.
Print Assumptions C114_shown.
Example C114_shown_example T : exists e, parse_plain test_oracle (b "a:x\y") = QErr (QSyntax e) /\ Prop_Repair.advice test_oracle (pe_kind e) = Some (b """x\\y""") /\
  error_text test_oracle T (pe_kind e) = b "unknown type of value [x\y] -- did you mean ""x\\y""?".
Proof. eexists. split; [vm_compute; reflexivity|]. split; vm_compute; reflexivity. Qed.

(** Messages reach the page with their kind, their text and where they start and end. *)
Theorem C116_messages O T q t a ms : parse_plain O q = QOk t -> p_wrap O q = WebRes a ms ->
  exists blocks, Forall2 (web_messages_for O) (placed_values t) blocks /\
    map (fun m => let p := page_of O T m in (pg_type p, pg_msg p, pg_start p, pg_end p)) ms =
    map (fun m => (match m_type m with MHint => b "hint" | MWarning => b "warning" | MError => b "error" end, web_hint_text T (m_text m), p_off (m_pos m), p_off (m_pos m) + p_len (m_pos m))%Z) (concat blocks) /\
    map (page_of O T) ms = map (msg_page T) (concat blocks).
Proof.
  intros P W. rewrite (accepted_web O q t P) in W. destruct (marshal_indent _); [|discriminate]. injection W as _ <-.
  destruct (web_blocks O t (fun o f vs p Sb => accepted_regex O q t o f vs p P Sb)) as (bl & E & F). exists bl. split; [exact F|]. rewrite E, !map_map. split; apply map_ext; intros m; reflexivity.
Qed.
Print Assumptions C116_messages.
