(** Concrete lineages over the CUE fragment. *)
From Verif Require Import Prelude Version VersionProofs Search ValidateErr Split Lineage LineageProofs
  WalkProofs GoLensProofs BindFacts Translate TranslateCueProofs.
From Verif Require Import CueFrag CueSem CueProofs HydrateSem CueEval CueEvalSem CueEvalProofs
  CueEvalFacts.
Local Open Scope string_scope.
Local Open Scope list_scope.

(** Three minor versions. *)
Definition str := VType TString.
Definition enum2 (l : list string) : val :=
  VOr (map (fun x => (String.eqb x "foo", VAtom (AString x))) l).
Definition sch00 : val := VStruct [("name", false, str); ("mode", false, enum2 ["foo"; "bar"])] None.
Definition sch01 : val :=
  VStruct [("name", false, str); ("mode", false, enum2 ["foo"; "bar"]); ("n", true, VType TInt)] None.
Definition sch02 : val :=
  VStruct [("name", false, str); ("mode", false, enum2 ["foo"; "bar"; "baz"]); ("n", true, VType TInt)] None.
Definition drop_n (v : val) : val :=
  match v with
  | VStruct fs rest => VStruct (filter (fun f => negb (String.eqb (flabel f) "n")) fs) rest
  | _ => v
  end.
Definition lin3 : cval :=
  CLin "frag"
    [((Some 0, Some 0), (sch00, sch00)); ((Some 0, Some 1), (sch01, sch01)); ((Some 0, Some 2), (sch02, sch02))]%N
    [((Some (0, 0), Some (0, 1)), (drop_n, fun _ => [])); ((Some (0, 1), Some (0, 2)), (fun v => v, fun _ => []))]%N.
Definition ferrs (_ : cval) : verr := VCue [mkCueErr [] ["#Lineage"; "f"] "conflicting values" [AStr "int"; AStr "x"]].
Definition fbind : outcome (lineage cval) := BindLineage (cue_fragment ferrs) 7 false CLinDef (Atom lin3) [].
Definition only_name : data := DStruct [("name", DAtom (AString "x"))].
Definition name_mode : data := DStruct [("name", DAtom (AString "x")); ("mode", DAtom (AString "bar"))].

(** 0.1 drops the default of 0.0. *)
Definition lin_gone : cval :=
  let a := VStruct [("n", false, VOr [(true, VAtom (AInt 1)); (false, VType TInt)])] None in
  let b := VStruct [("n", false, VType TInt)] None in
  CLin "gone" [((Some 0, Some 0), (a, a)); ((Some 0, Some 1), (b, b))]%N
    [((Some (0, 0), Some (0, 1)), (fun v => v, fun _ => []))]%N.

Lemma default_gone :
  exists errs l i t v,
    bound (cue_fragment errs) l /\ l_lensmap l = [] /\ dense (map s_v (all_schemas l)) /\
    exact_cue_lenses l /\ fragment_lineage l /\
    nth_error (all_schemas l) 0 = Some (i_sch i) /\ nth_error (all_schemas l) 1 = Some t /\
    fst (s_v (i_sch i)) = fst (s_v t) /\ sd_def (s_sd (i_sch i)) = CV v /\
    valid v (DStruct []) /\ validate (cue_fragment errs) (i_sch i) (CV (embed (DStruct []))) = Ok i /\
    forall rm fuel, exists x, translate (cue_fragment errs) rm (S fuel) i (s_v t) = Err x /\
      e_marks x = [ErrLensIncomplete].
Proof.
  destruct (BindLineage (cue_fragment ferrs) 7 false CLinDef (Atom lin_gone) []) as [l|x| |] eqn:E;
    try (vm_compute in E; discriminate).
  assert (B : bound (cue_fragment ferrs) l)
    by (unfold bound; exists 7%N, false, CLinDef, (Atom lin_gone), []; exact E).
  vm_compute in E. injection E as <-. exists ferrs. eexists.
  eexists (mkInst _ _ _ true). do 2 eexists. split; [exact B|]. split; [reflexivity|]. split.
  { split; [reflexivity|]. intros a b [i [H1 H2]].
    destruct i as [|[|i]]; cbn in H1, H2; try discriminate; injection H1 as <-; injection H2 as <-; cbn; auto. }
  split.
  { split.
    - vm_compute. repeat constructor; cbn; intuition congruence.
    - intros f t. vm_compute lens_ids. split.
      + intros [K|[]]; injection K as <- <-. exists 0, (0, 0)%N, (0, 1)%N; repeat split; auto.
      + intros [i [a [b [H1 [H2 H3]]]]]. destruct i as [|[|i]]; cbn in H1, H2; try discriminate;
          injection H1 as <-; injection H2 as <-;
          destruct H3 as [K|[K M]]; injection K as -> ->; cbn; auto 8; cbn in M; congruence. }
  split.
  { intros s [<-|[<-|[]]]; eexists; (split; [reflexivity|]); (split; [|split; reflexivity]);
      cbn; repeat split; repeat constructor; cbn; intuition congruence. }
  split; [reflexivity|]. split; [reflexivity|]. split; [reflexivity|]. split; [reflexivity|].
  split; [eexists; vm_compute; reflexivity|]. split; [vm_compute; reflexivity|].
  intros rm fuel. eexists. split; [vm_compute; reflexivity|reflexivity].
Qed.
