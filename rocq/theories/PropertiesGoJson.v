(** Properties of data in generated Go types: C101. GoJsonSpec.v says which data
    schemas allow and which of it is kept. *)
From Verif Require Import Prelude Strings Version Util GenName GenNameProofs GenType GenTypeSpec GenTypeProofs
  GenDeclProofs GenTypeFacts PropertiesGenName PropertiesGenType GoJson GoJsonSpec GoJsonProofs GoJsonFacts.
From Verif Require Gocode.
Require Import ZArith.
Local Open Scope string_scope.
Local Open Scope list_scope.

(** *** C101 *)

(** Valid data that is read into the generated type and written again may differ:
    members that only [additionalProperties] allows are dropped, *)
Theorem C101_extra_refuted : forall np,
  valid (one_doc extra_schema) (Inl extra_schema) (JObj [("a", JStr "x"); ("b", JNum 1)]) /\
  becomes np extra_schema (JObj [("a", JStr "x"); ("b", JNum 1)]) (JObj [("a", JStr "x")]).
Proof. exact (fun np => conj (proj1 all_valid) (extra_lost np)). Qed.
Print Assumptions C101_extra_refuted.

(** or taken for properties whose names differ only in the case of letters, *)
Theorem C101_letters_refuted : forall np,
  valid (one_doc case_schema) (Inl case_schema) (JObj [("a", JStr "x"); ("A", JStr "y")]) /\
  becomes np case_schema (JObj [("a", JStr "x"); ("A", JStr "y")]) (JObj [("a", JStr "y")]).
Proof. exact case_taken. Qed.
Print Assumptions C101_letters_refuted.

(** numbers without a format are rounded, *)
Theorem C101_number_refuted : forall np,
  valid (one_doc number_schema) (Inl number_schema) (JObj [("a", JNum 16777217)]) /\
  becomes np number_schema (JObj [("a", JNum 16777217)]) (JObj [("a", JNum 16777216)]).
Proof. exact (fun np => conj (proj1 (proj2 all_valid)) (number_lost np)). Qed.
Print Assumptions C101_number_refuted.

(** empty lists of optional properties are dropped, *)
Theorem C101_empty_refuted : forall np,
  valid (one_doc list_schema) (Inl list_schema) (JObj [("a", JArr [])]) /\
  becomes np list_schema (JObj [("a", JArr [])]) (JObj []).
Proof. exact (fun np => conj (proj1 (proj2 (proj2 all_valid))) (list_lost np)). Qed.
Print Assumptions C101_empty_refuted.

(** optional properties that may be null become null, and null in lists becomes a
    value, *)
Theorem C101_null_refuted :
  valid (one_doc null_schema) (Inl null_schema) (JObj []) /\
  becomes false null_schema (JObj []) (JObj [("a", JNull)]) /\
  valid (one_doc nulls_schema) (Inl nulls_schema) (JObj [("a", JArr [JNull])]) /\
  forall np, becomes np nulls_schema (JObj [("a", JArr [JNull])]) (JObj [("a", JArr [JStr ""])]).
Proof.
  exact (conj (proj1 (proj2 (proj2 (proj2 all_valid)))) (conj null_added
    (conj (proj1 (proj2 (proj2 (proj2 (proj2 all_valid))))) nulls_lost))).
Qed.
Print Assumptions C101_null_refuted.

(** properties with certain names are not read or written, *)
Theorem C101_name_refuted : forall np,
  valid (one_doc comma_schema) (Inl comma_schema) (JObj [("a,b", JStr "x")]) /\
  becomes np comma_schema (JObj [("a,b", JStr "x")]) (JObj [("a", JStr "")]) /\
  valid (one_doc dash_schema) (Inl dash_schema) (JObj [("-", JStr "x")]) /\
  becomes np dash_schema (JObj [("-", JStr "x")]) (JObj []).
Proof.
  exact (fun np => conj (proj1 (proj2 (proj2 (proj2 (proj2 (proj2 all_valid)))))) (conj (comma_lost np)
    (conj (proj1 (proj2 (proj2 (proj2 (proj2 (proj2 (proj2 all_valid))))))) (dash_lost np)))).
Qed.
Print Assumptions C101_name_refuted.

(** large integers cannot be read, *)
Theorem C101_integer_refuted : forall np,
  valid (one_doc int_schema) (Inl int_schema) (JObj [("a", JNum (2 ^ 63))]) /\
  forall u env, exists m, forall k, m <= k ->
    exists e, through (doc_types u env np (one_doc int_schema)) k (GId (schemaNameToTypeName u "A"))
      (JObj [("a", JNum (2 ^ 63))]) = Err e.
Proof. exact (fun np => conj (proj2 (proj2 (proj2 (proj2 (proj2 (proj2 (proj2 (proj2 all_valid)))))))) (int_fails np)). Qed.
Print Assumptions C101_integer_refuted.

(** and with [NoOptionalPointers], optional properties that are false, 0 or empty
    are dropped, null becomes a value, and objects appear that were not there. *)
Theorem C101_no_pointers_refuted :
  valid (one_doc optional_schema) (Inl optional_schema) (JObj [("a", JBool false); ("d", JNull)]) /\
  becomes true optional_schema (JObj [("a", JBool false); ("d", JNull)]) (JObj [("b", JObj []); ("d", JNum 0)]) /\
  becomes false optional_schema (JObj [("a", JBool false); ("d", JNull)]) (JObj [("a", JBool false); ("d", JNull)]).
Proof.
  exact (conj (proj1 (proj2 (proj2 (proj2 (proj2 (proj2 (proj2 (proj2 all_valid)))))))) (conj pointers_lost pointers_kept)).
Qed.
Print Assumptions C101_no_pointers_refuted.

(** What holds: data that [keeps] describes, which is valid data without the
    above, comes back unchanged, through the types of any document whose schemas
    have no [allOf] and whose declarations are complete. [keeps] has no data of unions. *)
Theorem C101_unchanged_partial : forall u env l np,
  doc_ok l -> (forall p, In p l -> kept_ref false (snd p)) -> NoDup (dnames (doc_decls u env l)) ->
  (forall n s, In (n, Inl s) l -> env (ref_to n) = s) ->
  forall n s j, In (n, Inl s) l -> keeps env l np (Inl s) j ->
  exists m, forall k, m <= k ->
    through (doc_types u env np l) k (GId (schemaNameToTypeName u n)) j = Ok j.
Proof. exact component_keeps. Qed.
Print Assumptions C101_unchanged_partial.

Theorem C101_valid_partial : forall env l np,
  (forall n s, In (n, Inl s) l -> env (ref_to n) = s) ->
  forall r j, keeps env l np r j -> valid l r j.
Proof. exact (fun env l np E r j => keeps_valid env l np E (jsize j) j (le_n _) r). Qed.
Print Assumptions C101_valid_partial.

(** The types are those that the pass of [decorators.go] leaves. *)
Theorem C101_pass : forall all t,
  go_of (unptr all t) = Gocode.visit (Gocode.depoint_field all) (go_of t).
Proof. exact (fun all t => unptr_pass all (gsize t) t (le_n _)). Qed.
Print Assumptions C101_pass.

Definition panel_env (r : string) : schema :=
  if String.eqb r (ref_to "Link") then object_of [("url", strs)]
  else Sch (panel_base ["title"; "links"]) panel None None None None None.
Definition panel_data : json :=
  JObj [("kind", JStr "row"); ("links", JArr [JObj [("url", JStr "u")]; JObj []]); ("size", JNull); ("title", JStr "t")].

Example C101_cases :
  (forall n s, In (n, Inl s) panel_doc -> panel_env (ref_to n) = s) /\
  keeps panel_env panel_doc false (Inl (panel_env (ref_to "Panel"))) panel_data /\
  through (doc_types ascii_only panel_env false panel_doc) 8 (GId "Panel") panel_data = Ok panel_data.
Proof.
  split; [|split; [|vm_compute; reflexivity]].
  - intros n s [E|[E|[]]]; injection E as <- <-; reflexivity.
  - assert (GN : forall n, letter_first n = true -> all tag_char n = true -> good_name n) by (split; assumption).
    assert (LINK : forall ms, ms = [("url", JStr "u")] \/ ms = [] -> keeps panel_env panel_doc false (Ref (ref_to "Link")) (JObj ms)).
    { intros ms H. apply (keeps_ref _ _ _ "Link" (object_of [("url", strs)])); [right; left; reflexivity|].
      apply keeps_struct; try reflexivity; try discriminate.
      - repeat (apply NoDup_cons; [cbn; intuition discriminate|]). apply NoDup_nil.
      - intros p [<-|[]]. split; [apply GN; reflexivity|exact I].
      - destruct H as [-> | ->]; cbn; auto. split; [intros b []|exact I].
      - intros k x I. destruct H as [-> | ->]; [|destruct I]. destruct I as [I|[]]. injection I as <- <-.
        exists strs. split; [left; reflexivity|]. cbv zeta. right. split; [discriminate|]. split; [|auto].
        apply keeps_atom; try reflexivity. cbn. split; [reflexivity|intuition discriminate].
      - intros k r [I|[]] _. injection I as <- <-. cbv zeta. repeat split. left. reflexivity. }
    apply keeps_struct; try reflexivity; try discriminate.
    + repeat (apply NoDup_cons; [cbn; intuition discriminate|]). apply NoDup_nil.
    + intros p [<-|[<-|[<-|[<-|[]]]]]; (split; [apply GN; reflexivity|exact I]).
    + cbn. repeat match goal with |- _ /\ _ => split | |- True => exact I
        | |- forall _, _ => let c := fresh in let H := fresh in intros c H; repeat (destruct H as [<-|H]); try destruct H; (split; [reflexivity|discriminate]) end.
    + intros k x [E|[E|[E|[E|[]]]]]; injection E as <- <-.
      * eexists. split; [right; left; reflexivity|]. cbv zeta. right. split; [discriminate|].
        split; [|auto]. apply keeps_atom; try reflexivity. cbn. split; [reflexivity|intuition discriminate].
      * eexists. split; [right; right; right; left; reflexivity|]. cbv zeta. right. split; [discriminate|]. split; [|auto].
        apply keeps_list; try reflexivity.
        -- intros r x E I. injection E as <-. destruct I as [<-|[<-|[]]]; apply LINK; auto.
        -- intros x E. discriminate.
      * eexists. split; [right; right; left; reflexivity|]. cbv zeta. left. split; [reflexivity|]. split; [reflexivity|]. left. auto.
      * exists strs. split; [left; reflexivity|]. cbv zeta. right. split; [discriminate|]. split; [|auto].
        apply keeps_atom; try reflexivity. cbn. split; [reflexivity|intuition discriminate].
    + intros k r I N. exfalso. apply N. destruct I as [I|[I|[I|[I|[]]]]]; injection I as <- <-; cbn; tauto.
Qed.
