(** Concrete lineages with a joinSchema. *)
From Verif Require Import Prelude Version VersionProofs ValidateErr Split Lineage LineageProofs BindFacts.
From Verif Require Import CueFrag CueSem CueProofs HydrateSem CueEval CueEvalSem CueEvalWitness.
From Verif Require Import Join JoinSem Traverse.
Local Open Scope string_scope.
Local Open Scope list_scope.

(** [joinSchema: {foo: string}] and [schema: {bar: string}], as in
    testdata/lineage/join/oneone.txtar; a second schema adds an optional field with
    fields of its own. *)
Definition j_foo : val := VStruct [("foo", false, str)] (Some VTop).
Definition j_foo_int : val := VStruct [("foo", false, VType TInt)] (Some VTop).
Definition b_bar : val := VStruct [("bar", false, str)] (Some VTop).
Definition b_more : val :=
  VStruct [("bar", false, str); ("more", true, VStruct [("n", false, VType TInt)] (Some VTop))] (Some VTop).
Definition j_ss : list ((option N * option N) * val) := [((Some 0, Some 0), b_bar); ((Some 0, Some 1), b_more)]%N.
Definition j_ls : list ((option version * option version) * ((val -> val) * (val -> list N))) :=
  [((Some (0, 0), Some (0, 1)), (fun v => v, fun _ => []))]%N.
Definition j_bind (j : val) : outcome (lineage cval) :=
  BindLineage (cue_fragment ferrs) 7 false CLinDef (Atom (join_lineage "oneone" j j_ss j_ls)) [].
Definition astr (s : string) : data := DAtom (AString s).
Definition d_both : data := DStruct [("foo", astr "x"); ("bar", astr "y")].
Definition d_deep (extra : list (string * data)) : data :=
  DStruct [("foo", astr "x"); ("bar", astr "y"); ("more", DStruct (("n", DAtom (AInt 1)) :: extra))].

Lemma join_not_instance :
  exists errs id fv name j ss ls opts l v body d,
    BindLineage (cue_fragment errs) id fv CLinDef (Atom (join_lineage name j ss ls)) opts = Ok l /\
    In (v, body) ss /\ subs j body = false /\ inst body d = true /\ inst j d = false.
Proof.
  destruct (j_bind j_foo) as [l|x| |] eqn:E; try (vm_compute in E; discriminate).
  exists ferrs, 7%N, false, "oneone", j_foo, j_ss, j_ls, [], l, (Some 0, Some 0)%N, b_bar, (DStruct [("bar", astr "y")]).
  split; [exact E|]. split; [left; reflexivity|]. repeat split.
Qed.

Lemma join_changes :
  exists errs id fv name j j' ss ls opts l l' s s' d i,
    BindLineage (cue_fragment errs) id fv CLinDef (Atom (join_lineage name j ss ls)) opts = Ok l /\
    BindLineage (cue_fragment errs) id fv CLinDef (Atom (join_lineage name j' ss ls)) opts = Ok l' /\
    isAppendOnly (cue_fragment errs) l l' = Ok tt /\
    nth_error (all_schemas l) 0 = Some s /\ nth_error (all_schemas l') 0 = Some s' /\ s_v s = s_v s' /\
    validate (cue_fragment errs) s (CV (embed d)) = Ok i /\
    forall i', validate (cue_fragment errs) s' (CV (embed d)) <> Ok i'.
Proof.
  destruct (j_bind j_foo) as [l|x| |] eqn:E; try (vm_compute in E; discriminate).
  destruct (j_bind j_foo_int) as [l'|x| |] eqn:E'; try (vm_compute in E'; discriminate).
  exists ferrs, 7%N, false, "oneone", j_foo, j_foo_int, j_ss, j_ls, [], l, l'.
  pose proof E as F. pose proof E' as F'. vm_compute in E, E'. injection E as <-. injection E' as <-.
  do 2 eexists. exists d_both. eexists. split; [exact F|]. split; [exact F'|]. split; [vm_compute; reflexivity|].
  split; [reflexivity|]. split; [reflexivity|]. split; [reflexivity|]. split; [vm_compute; reflexivity|].
  intros i'. vm_compute. discriminate.
Qed.

(** 0.0 requires a field; in 1.0 there is another one, which is optional. *)
Definition t_a : val := VStruct [("a", false, VType TInt)] None.
Definition t_b : val := VStruct [("b", true, VType TInt)] None.
Definition t_ss : list ((option N * option N) * (val * val)) := [((Some 0, Some 0), (t_a, t_a)); ((Some 1, Some 0), (t_b, t_b))]%N.
Definition t_ls : list ((option version * option version) * ((val -> val) * (val -> list N))) :=
  [((Some (0, 0), Some (1, 0)), (fun v => v, fun _ => [])); ((Some (1, 0), Some (0, 0)), (fun v => v, fun _ => []))]%N.

Lemma search_disagrees :
  exists errs id fv name ss ls opts l d i v,
    BindLineage (cue_fragment errs) id fv CLinDef (Atom (CLin name ss ls)) opts = Ok l /\ dwf d /\
    validateAny (cue_fragment errs) 2 l (CV (embed d)) = Ok (Some i) /\
    valid_for (CLin name ss ls) (embed d) = Some (Some (fst v), Some (snd v)) /\ s_v (i_sch i) <> v.
Proof.
  destruct (BindLineage (cue_fragment ferrs) 7 false CLinDef (Atom (CLin "t" t_ss t_ls)) []) as [l|x| |] eqn:E;
    try (vm_compute in E; discriminate).
  exists ferrs, 7%N, false, "t", t_ss, t_ls, [], l, (DStruct []). eexists. exists (0, 0)%N.
  split; [exact E|]. vm_compute in E. injection E as <-.
  split; [cbn; repeat split; constructor|]. split; [vm_compute; reflexivity|].
  split; [vm_compute; reflexivity|]. vm_compute. discriminate.
Qed.

Lemma search_loses :
  exists errs id fv name ss ls opts l d d' v out,
    BindLineage (cue_fragment errs) id fv CLinDef (Atom (CLin name ss ls)) opts = Ok l /\ dwf d /\
    search_and_validate (CLin name ss ls) (embed d) = Some (v, out) /\
    inst out d = true /\ inst out d' = true /\ deq d d' = false /\
    inst (embed d) d' = false /\ eval out None = Inc.
Proof.
  destruct (BindLineage (cue_fragment ferrs) 7 false CLinDef (Atom (CLin "t" t_ss t_ls)) []) as [l|x| |] eqn:E;
    try (vm_compute in E; discriminate).
  exists ferrs, 7%N, false, "t", t_ss, t_ls, [], l, (DStruct [("a", DAtom (AInt 1))]), (DStruct [("a", DAtom (AInt 2))]).
  do 2 eexists. split; [exact E|]. split; [cbn; repeat split; repeat constructor; cbn; intuition|].
  split; [vm_compute; reflexivity|]. vm_compute. repeat split.
Qed.
