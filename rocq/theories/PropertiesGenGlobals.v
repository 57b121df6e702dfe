(** C120: calls of the Go code generator and its package-level variables
    (GenGlobals.v). *)
From Verif Require Import Prelude Strings Version Util GenName GenType GenGlobals GenGlobalsProofs.
Local Open Scope string_scope.
Local Open Scope list_scope.

(** Refuted: generating from two goroutines can end the program, as both assign to
    the map [TemplateFunctions]. *)
Theorem C120_at_once_refuted : forall u, exists cs schedule,
  (forall c, In c cs -> by_thema u c) /\ run schedule zero (map generate cs) = None.
Proof. exact crash_refuted. Qed.
Print Assumptions C120_at_once_refuted.

(** So for any two calls. *)
Theorem C120_any_two_partial : forall u c d, by_thema u c -> by_thema u d ->
  exists schedule, run schedule zero (map generate [c; d]) = None.
Proof. exact crash. Qed.
Print Assumptions C120_any_two_partial.

(** If the program goes on, each call returns what its own document and options
    give, however the goroutines take turns, and whatever the variables held. *)
Theorem C120_same_time_partial : forall u cs schedule g g' ts i c t r, (forall c, In c cs -> by_thema u c) ->
  run schedule g (map generate cs) = Some (g', ts) -> nth_error cs i = Some c -> nth_error ts i = Some t -> returned t r ->
  r = eval (own c "Response") (c_body c).
Proof. exact same_time. Qed.
Print Assumptions C120_same_time_partial.

(** One after the other, calls with any options complete, and return what their own
    document and options give; only the suffix of response types, which thema does not
    set, is that of the last call that set one. *)
Theorem C120_in_turn_partial : forall cs g outs, g_writing g = false -> (turns g cs outs <-> outs = expected (g_suffix g) cs).
Proof. exact turns_expected. Qed.
Print Assumptions C120_in_turn_partial.

Theorem C120_suffix_partial :
  turns zero [asks ""] [Ok "GetResponse"] /\ turns zero [asks "Reply"; asks ""] [Ok "GetReply"; Ok "GetReply"].
Proof. exact suffix_kept. Qed.
Print Assumptions C120_suffix_partial.

(** In documents made from CUE a reference is named after its last part, whatever
    document is read; so GenType.v may leave the document out. *)
Theorem C120_references_partial : forall u g r k, o_imports (g_opts g) = [] -> g_imports g = [] ->
  (exists s, plain_spec s /\ g_spec g = Some s) ->
  eval g (refPathToGoTypeG u r k) = eval g (k (if String.eqb r "" then Panic else refPathToGoType u r)).
Proof. exact eval_ref. Qed.
Print Assumptions C120_references_partial.

(** A call that reads options, imports and a reference, beside another. *)
Definition names (p : string) (r : string) (u : unicode) : call :=
  mkCall thema_opts (Some (mkComponents [(p, mkComponent false None)] [] [] []))
    (BCompat (fun c => BImports (fun m => refPathToGoTypeG u r (fun o => BDone
       (if AlwaysPrefixEnumValues c then match o with Ok t => Ok (p ++ ":" ++ t)%string | o => o end else Err (new_err "options")))))).
Example C120_cases : forall u,
  by_thema u (names "a" "#/components/schemas/b" u) /\ by_thema u (names "b" "other.json#/x" u) /\
  exists g ts t, run (repeat 0 8 ++ repeat 1 8 ++ repeat 0 3 ++ repeat 1 3) zero
      (map generate [names "a" "#/components/schemas/b" u; names "b" "other.json#/x" u]) = Some (g, ts) /\
    nth_error ts 0 = Some t /\ returned t (Ok ("a:" ++ schemaNameToTypeName u "b")%string).
Proof.
  intros u.
  assert (P : forall p r, by_thema u (names p r u)).
  { intros p r. split; [reflexivity|]. split.
    - eexists. split; [reflexivity|]. cbn. intros n c [H|[]]. injection H as <- <-. reflexivity.
    - apply tb_compat. intros c. apply tb_imports. intros m. apply tb_ref. intros o. apply tb_done. }
  split; [apply P|]. split; [apply P|].
  destruct (run (repeat 0 8 ++ repeat 1 8 ++ repeat 0 3 ++ repeat 1 3) zero
    (map generate [names "a" "#/components/schemas/b" u; names "b" "other.json#/x" u])) as [[g ts]|] eqn:R; [|lazy in R; discriminate R].
  exists g, ts, (nth 0 ts (mkThread [] (BDone Panic))). split; [reflexivity|].
  lazy -[schemaNameToTypeName] in R. injection R as _ <-. split; [reflexivity|]. split; [reflexivity|].
  cbn [nth t_body]. destruct (schemaNameToTypeName u "b"); reflexivity.
Qed.
