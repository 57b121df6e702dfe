(** C107-C110: the joinSchema of a lineage, and finding the schema of data in CUE. *)
From Verif Require Import Prelude Version VersionProofs ValidateErr Split Lineage LineageProofs BindFacts.
From Verif Require Import CueFrag CueSem HydrateSem CueEval CueEvalSem CueEvalWitness.
From Verif Require Import Join JoinSem Traverse JoinFacts JoinWitness.
From Coq Require Import Sorting.Sorted.
Local Open Scope string_scope.
Local Open Scope list_scope.

(** *** C107 *)

(** What a schema of the lineage accepts is, with what the schemas fill in, an instance
    of the joinSchema and of the schema as written, and the two name its fields. *)
Theorem C107_join_governs :
  forall errs id fv name j ss ls opts l,
    BindLineage (cue_fragment errs) id fv CLinDef (Atom (join_lineage name j ss ls)) opts = Ok l ->
    CueSem.wf j -> (forall v body, In (v, body) ss -> CueSem.wf body) -> j <> VBot ->
    forall k s, nth_error (all_schemas l) k = Some s ->
    exists a b body, nth_error ss k = Some ((Some a, Some b), body) /\ s_v s = (a, b) /\
      forall d i, dwf d -> validate (cue_fragment errs) s (CV (embed d)) = Ok i ->
        (exists r, extends d r /\ inst j r = true /\ inst body r = true) /\
        (simple j = true -> simple body = true -> known j body d).
Proof. exact join_governs. Qed.
Print Assumptions C107_join_governs.

(** Complete data that is an instance of both is accepted exactly when its fields are
    named by one of them. *)
Theorem C107_join_exact :
  forall errs id fv name j ss ls opts l,
    BindLineage (cue_fragment errs) id fv CLinDef (Atom (join_lineage name j ss ls)) opts = Ok l ->
    CueSem.wf j -> simple j = true ->
    (forall v body, In (v, body) ss -> CueSem.wf body /\ simple body = true) -> j <> VBot ->
    forall k s, nth_error (all_schemas l) k = Some s ->
    exists v body, nth_error ss k = Some (v, body) /\
      forall d, dwf d -> inst j d = true -> inst body d = true ->
        (known j body d -> validate (cue_fragment errs) s (CV (embed d)) = Ok (mkInst (CV (embed d)) "" s true)) /\
        (~ known j body d -> forall i, validate (cue_fragment errs) s (CV (embed d)) <> Ok i).
Proof. exact join_accepts. Qed.
Print Assumptions C107_join_exact.

(** Whether a lineage extends another does not depend on their joinSchemas. *)
Theorem C109_append_only_bodies_partial :
  forall errs id1 fv1 n1 j1 ss1 ls1 o1 l1 id2 fv2 n2 j2 ss2 ls2 o2 l2
      id1' fv1' n1' j1' ls1' o1' l1' id2' fv2' n2' j2' ls2' o2' l2',
    BindLineage (cue_fragment errs) id1 fv1 CLinDef (Atom (join_lineage n1 j1 ss1 ls1)) o1 = Ok l1 ->
    BindLineage (cue_fragment errs) id2 fv2 CLinDef (Atom (join_lineage n2 j2 ss2 ls2)) o2 = Ok l2 ->
    BindLineage (cue_fragment errs) id1' fv1' CLinDef (Atom (join_lineage n1' j1' ss1 ls1')) o1' = Ok l1' ->
    BindLineage (cue_fragment errs) id2' fv2' CLinDef (Atom (join_lineage n2' j2' ss2 ls2')) o2' = Ok l2' ->
    isAppendOnly (cue_fragment errs) l1 l2 = Ok tt -> isAppendOnly (cue_fragment errs) l1' l2' = Ok tt.
Proof. exact append_only_bodies. Qed.
Print Assumptions C109_append_only_bodies_partial.

(** Refuted: "the schemas defined in this lineage must be instances of the
    joinSchema". *)
Theorem C109_instances_refuted :
  exists errs id fv name j ss ls opts l v body d,
    BindLineage (cue_fragment errs) id fv CLinDef (Atom (join_lineage name j ss ls)) opts = Ok l /\
    In (v, body) ss /\ subs j body = false /\ inst body d = true /\ inst j d = false.
Proof. exact join_not_instance. Qed.
Print Assumptions C109_instances_refuted.

(** Refuted: "a lineage's joinSchema must never change as the lineage evolves". The
    schemas as written are the same, the joinSchema is another one, and what was valid
    data of version 0.0 no longer is. *)
Theorem C109_never_changes_refuted :
  exists errs id fv name j j' ss ls opts l l' s s' d i,
    BindLineage (cue_fragment errs) id fv CLinDef (Atom (join_lineage name j ss ls)) opts = Ok l /\
    BindLineage (cue_fragment errs) id fv CLinDef (Atom (join_lineage name j' ss ls)) opts = Ok l' /\
    isAppendOnly (cue_fragment errs) l l' = Ok tt /\
    nth_error (all_schemas l) 0 = Some s /\ nth_error (all_schemas l') 0 = Some s' /\ s_v s = s_v s' /\
    validate (cue_fragment errs) s (CV (embed d)) = Ok i /\
    forall i', validate (cue_fragment errs) s' (CV (embed d)) <> Ok i'.
Proof. exact join_changes. Qed.
Print Assumptions C109_never_changes_refuted.

Example C107_cases :
  exists l s0 s1, j_bind j_foo = Ok l /\ nth_error (all_schemas l) 0 = Some s0 /\ nth_error (all_schemas l) 1 = Some s1 /\
    CueSem.wf j_foo /\ simple j_foo = true /\ (forall v body, In (v, body) j_ss -> CueSem.wf body /\ simple body = true) /\
    known j_foo b_bar d_both /\ known j_foo b_more (d_deep []) /\ dwf (d_deep []) /\
    (* both validate *)
    is_ok (validate (cue_fragment ferrs) s0 (CV (embed d_both))) = true /\
    is_ok (validate (cue_fragment ferrs) s1 (CV (embed (d_deep [])))) = true /\
    (* the field of the joinSchema is required; no other field is let in, at any depth *)
    is_ok (validate (cue_fragment ferrs) s0 (CV (embed (DStruct [("bar", astr "y")])))) = false /\
    is_ok (validate (cue_fragment ferrs) s0 (CV (embed (d_deep [])))) = false /\
    inst j_foo (d_deep [("m", astr "z")]) = true /\ inst b_more (d_deep [("m", astr "z")]) = true /\
    is_ok (validate (cue_fragment ferrs) s1 (CV (embed (d_deep [("m", astr "z")])))) = false.
Proof.
  destruct (j_bind j_foo) as [l|x| |] eqn:E; try (vm_compute in E; discriminate).
  vm_compute in E. injection E as <-. do 3 eexists. split; [reflexivity|]. split; [reflexivity|]. split; [reflexivity|].
  split; [cbn; repeat split; repeat constructor; cbn; intuition congruence|]. split; [reflexivity|].
  split; [intros v body [K|[K|[]]]; injection K as <- <-; (split; [|reflexivity]); cbn; repeat split;
          repeat constructor; cbn; intuition congruence|].
  split; [constructor; intros k x [K|[K|[]]]; injection K as <- <-; (split; [reflexivity|constructor])|].
  split. { constructor; intros k x [K|[K|[K|[]]]]; injection K as <- <-; (split; [reflexivity|]); constructor.
           intros k x [K|[]]; injection K as <- <-; split; [reflexivity|constructor]. }
  split; [cbn; repeat split; repeat constructor; cbn; intuition congruence|].
  vm_compute. repeat split.
Qed.

(** *** C108 *)

(** [#ValidFor] finds the first schema whose definition does not conflict with the
    data. *)
Theorem C108_first :
  forall lin v,
    match valid_for lin v with
    | Some ver => exists i def, nth_error (cue_schemas lin) i = Some (ver, def) /\
        eval (unify def v) None <> Bot /\
        forall k ver' def', k < i -> nth_error (cue_schemas lin) k = Some (ver', def') ->
          eval (unify def' v) None = Bot
    | None => forall ver def, In (ver, def) (cue_schemas lin) -> eval (unify def v) None = Bot
    end.
Proof. exact valid_for_first. Qed.
Print Assumptions C108_first.

(** It is at or before every schema that validates the data, and there is one when
    one does. *)
Theorem C108_before :
  forall errs id fv name ss ls opts l,
    BindLineage (cue_fragment errs) id fv CLinDef (Atom (CLin name ss ls)) opts = Ok l ->
    forall k s d i, nth_error (all_schemas l) k = Some s ->
    validate (cue_fragment errs) s (CV (embed d)) = Ok i ->
    exists m t, m <= k /\ nth_error (all_schemas l) m = Some t /\
      valid_for (CLin name ss ls) (embed d) = Some (Some (fst (s_v t)), Some (snd (s_v t))) /\
      vle (s_v t) (s_v s).
Proof. exact valid_for_before. Qed.
Print Assumptions C108_before.

(** [#SearchAndValidate] agrees with [#ValidFor] on the version, and returns the
    definition of the schema found. *)
Theorem C108_search :
  forall lin v,
    match search_and_validate lin v with
    | Some (ver, out) => valid_for lin v = Some ver /\
        exists i, nth_error (cue_schemas lin) i = Some (ver, out) /\ eval (unify out v) None <> Bot /\
        forall k ver' def', k < i -> nth_error (cue_schemas lin) k = Some (ver', def') ->
          eval (unify def' v) None = Bot
    | None => valid_for lin v = None
    end.
Proof. exact search_same. Qed.
Print Assumptions C108_search.

(** Refuted: the version found in CUE is that of the schema [ValidateAny] finds. *)
Theorem C110_agree_refuted :
  exists errs id fv name ss ls opts l d i v,
    BindLineage (cue_fragment errs) id fv CLinDef (Atom (CLin name ss ls)) opts = Ok l /\ dwf d /\
    validateAny (cue_fragment errs) 2 l (CV (embed d)) = Ok (Some i) /\
    valid_for (CLin name ss ls) (embed d) = Some (Some (fst v), Some (snd v)) /\ s_v (i_sch i) <> v.
Proof. exact search_disagrees. Qed.
Print Assumptions C110_agree_refuted.

(** It is exactly when the schema found in CUE wants nothing that the data lacks; and
    when none is found in CUE, none is in Go. *)
Theorem C110_agree_partial :
  forall errs id fv name ss ls opts l d fuel,
    BindLineage (cue_fragment errs) id fv CLinDef (Atom (CLin name ss ls)) opts = Ok l ->
    StronglySorted vlt (map s_v (all_schemas l)) ->
    (forall s, In s (all_schemas l) -> validate (cue_fragment errs) s (CV (embed d)) <> Panic) ->
    length (all_schemas l) <= fuel ->
    match search_and_validate (CLin name ss ls) (embed d) with
    | Some (ver, def) =>
        eval (unify def (embed d)) None <> Inc <->
        exists i, validateAny (cue_fragment errs) fuel l (CV (embed d)) = Ok (Some i) /\
          ver = (Some (fst (s_v (i_sch i))), Some (snd (s_v (i_sch i))))
    | None => validateAny (cue_fragment errs) fuel l (CV (embed d)) = Ok None
    end.
Proof. exact search_agrees. Qed.
Print Assumptions C110_agree_partial.

Example C110_cases :
  exists l, BindLineage (cue_fragment ferrs) 7 false CLinDef (Atom (CLin "t" t_ss t_ls)) [] = Ok l /\
    StronglySorted vlt (map s_v (all_schemas l)) /\ length (all_schemas l) = 2 /\
    (forall d s, In d [DStruct []; DStruct [("b", DAtom (AInt 1))]; DStruct [("c", DAtom (AInt 1))]] ->
       In s (all_schemas l) -> validate (cue_fragment ferrs) s (CV (embed d)) <> Panic) /\
    (exists i, validateAny (cue_fragment ferrs) 2 l (CV (embed (DStruct [("b", DAtom (AInt 1))]))) = Ok (Some i) /\
       s_v (i_sch i) = (1, 0)%N) /\
    eval (unify t_a (embed (DStruct []))) None = Inc.
Proof.
  destruct (BindLineage (cue_fragment ferrs) 7 false CLinDef (Atom (CLin "t" t_ss t_ls)) []) as [l|x| |] eqn:E;
    try (vm_compute in E; discriminate).
  exists l. split; [reflexivity|]. vm_compute in E. injection E as <-.
  split; [cbn; repeat constructor; unfold vlt; cbn; lia|]. split; [reflexivity|].
  split; [intros d s [<-|[<-|[<-|[]]]] [<-|[<-|[]]]; vm_compute; discriminate|].
  split; [eexists; split; vm_compute; reflexivity|]. vm_compute. reflexivity.
Qed.

(** Refuted: the [#LinkedInstance] that [#SearchAndValidate] returns is the data. It is
    not concrete, and other data is an instance of it too. *)
Theorem C110_data_refuted :
  exists errs id fv name ss ls opts l d d' v out,
    BindLineage (cue_fragment errs) id fv CLinDef (Atom (CLin name ss ls)) opts = Ok l /\ dwf d /\
    search_and_validate (CLin name ss ls) (embed d) = Some (v, out) /\
    inst out d = true /\ inst out d' = true /\ deq d d' = false /\
    inst (embed d) d' = false /\ eval out None = Inc.
Proof. exact search_loses. Qed.
Print Assumptions C110_data_refuted.

Example C108_cases :
  exists l s1 i, BindLineage (cue_fragment ferrs) 7 false CLinDef (Atom (CLin "t" t_ss t_ls)) [] = Ok l /\
    nth_error (all_schemas l) 1 = Some s1 /\
    validate (cue_fragment ferrs) s1 (CV (embed (DStruct [("b", DAtom (AInt 1))]))) = Ok i /\
    valid_for (CLin "t" t_ss t_ls) (embed (DStruct [("b", DAtom (AInt 1))])) = Some (Some 1, Some 0)%N /\
    valid_for (CLin "t" t_ss t_ls) (embed (DStruct [("c", DAtom (AInt 1))])) = None /\
    search_and_validate (CLin "t" t_ss t_ls) (embed (DStruct [("b", DAtom (AInt 1))])) = Some ((Some 1, Some 0)%N, t_b).
Proof.
  destruct (BindLineage (cue_fragment ferrs) 7 false CLinDef (Atom (CLin "t" t_ss t_ls)) []) as [l|x| |] eqn:E;
    try (vm_compute in E; discriminate).
  vm_compute in E. injection E as <-. do 3 eexists. split; [reflexivity|]. split; [reflexivity|].
  vm_compute. repeat split.
Qed.
