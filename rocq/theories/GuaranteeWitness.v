(** Concrete lineages whose lenses turn all valid data into valid data. *)
From Verif Require Import Prelude Version VersionProofs Search SearchProofs ValidateErr Split Lineage LineageProofs
  WalkProofs GoLensProofs BindFacts WalkFacts NativeProofs Translate TranslateGoProofs TranslateCueProofs TranslateFacts Toy.
From Coq Require Import Sorting.Sorted.
From Verif Require Import CueFrag CueSem CueProofs HydrateSem CueEval CueEvalSem CueEvalProofs CueKeepProofs CuePinProofs
  CueEvalFacts CueEvalWitness GuaranteeProofs.
Local Open Scope string_scope.
Local Open Scope list_scope.

(** Lens body [{b: input.a}]. *)
Definition ren (a b : string) (v : val) : val :=
  match v with
  | VStruct fs _ =>
      match field_of a fs with
      | Some f => VStruct [(b, false, fval f)] (Some VTop)
      | None => VBot
      end
  | _ => VBot
  end.

(** 1.0 renames a field. *)
Definition ren00 : val := VStruct [("name", false, str)] None.
Definition ren01 : val := VStruct [("name", false, str); ("n", true, VType TInt)] None.
Definition ren10 : val := VStruct [("title", false, str)] None.
Definition lin_ren : cval :=
  CLin "ren" [((Some 0, Some 0), (ren00, ren00)); ((Some 0, Some 1), (ren01, ren01)); ((Some 1, Some 0), (ren10, ren10))]%N
    [((Some (0, 0), Some (0, 1)), (ren "name" "name", fun _ => []));
     ((Some (0, 1), Some (1, 0)), (ren "title" "name", fun _ => []));
     ((Some (1, 0), Some (0, 1)), (ren "name" "title", fun _ => []))]%N.

Lemma ren_total a b fs' r' fs2 r2 w d :
  field_of a fs' = Some (a, false, str) -> (forall x, inst str x = true -> inst (VStruct fs2 r2) (DStruct [(b, x)]) = true) ->
  CueSem.wf w -> pin w d -> inst (VStruct fs' r') d = true ->
  exists d', CueSem.wf (ren a b w) /\ pin (ren a b w) d' /\ inst (VStruct fs2 r2) d' = true.
Proof.
  intros Fa I2 Ww P Hi. destruct d as [x|x|df]; try discriminate Hi.
  inversion P as [| | |fs rest ? Pf]; subst. apply wf_struct in Ww as [ND [Wf _]].
  destruct (field_of_some _ _ _ Fa) as [Ia _].
  destruct (required_pinned fs df fs' r' (a, false, str) Pf Hi Ia eq_refl) as [f [If [Of Lf]]].
  destruct (pinned_data fs df f Pf If Of) as [x [Ix Px]]. cbn in Lf.
  exists (DStruct [(b, x)]). cbn [ren].
  assert (E : field_of a fs = Some f) by (rewrite <- Lf; apply field_of_in; assumption).
  rewrite E. split; [|split].
  - apply wf_struct_intro; [repeat constructor; intros []| |exact I]. intros g [<-|[]]. exact (Wf f If).
  - constructor. cbn. constructor; [|constructor]. split; [reflexivity|exact Px].
  - apply I2. rewrite inst_VStruct in Hi. apply andb_true_iff in Hi as [Hi _].
    rewrite forallb_forall in Hi. specialize (Hi _ Ix). cbn [fst snd] in Hi. unfold inst_at in Hi.
    rewrite Lf, Fa in Hi. exact Hi.
Qed.

Lemma one_inst b fs2 x : field_of b fs2 = Some (b, false, str) -> (forall f, In f fs2 -> fopt f = true \/ flabel f = b) ->
  inst str x = true -> inst (VStruct fs2 None) (DStruct [(b, x)]) = true.
Proof.
  intros F O H. rewrite inst_VStruct. apply andb_true_iff. split.
  - cbn. unfold inst_at. rewrite F. cbn [fval snd]. rewrite H. reflexivity.
  - apply forallb_forall. intros f I. destruct (O f I) as [-> | ->]; [reflexivity|].
    apply orb_true_iff. right. cbn. rewrite String.eqb_refl. reflexivity.
Qed.

Lemma ren_lineage :
  exists l s0 s2, BindLineage (cue_fragment ferrs) 7 false CLinDef (Atom lin_ren) [] = Ok l /\
    l_lensmap l = [] /\ dense (map s_v (all_schemas l)) /\ exact_cue_lenses l /\ fragment_lineage l /\ total_cue l /\
    nth_error (all_schemas l) 0 = Some s0 /\ nth_error (all_schemas l) 2 = Some s2 /\
    sd_def (s_sd s0) = CV ren00 /\ sd_def (s_sd s2) = CV ren10 /\
    exists r, translate (cue_fragment ferrs) (fun _ _ _ => Ok None) 1 (mkInst (CV (embed only_name)) "" s0 true) (1, 0)%N
      = Ok (r, []) /\ i_sch r = s2 /\ denotes (i_raw r) (DStruct [("title", DAtom (AString "x"))]).
Proof.
  destruct (BindLineage (cue_fragment ferrs) 7 false CLinDef (Atom lin_ren) []) as [l|x| |] eqn:E;
    try (vm_compute in E; discriminate).
  exists l. lazy -[ren] in E. injection E as <-. do 2 eexists.
  split; [reflexivity|]. split; [reflexivity|]. split.
  { split; [reflexivity|]. intros a b [i [H1 H2]].
    destruct i as [|[|[|i]]]; cbn in H1, H2; try discriminate; injection H1 as <-; injection H2 as <-; cbn; auto. }
  split.
  { split.
    - vm_compute. repeat constructor; cbn; intuition congruence.
    - intros f t. vm_compute lens_ids. split.
      + intros [K|[K|[K|[]]]]; injection K as <- <-.
        * exists 0, (0, 0)%N, (0, 1)%N; repeat split; auto.
        * exists 1, (0, 1)%N, (1, 0)%N; repeat split; auto.
        * exists 1, (0, 1)%N, (1, 0)%N; repeat split; auto. right. split; [reflexivity|discriminate].
      + intros [i [a [b [H1 [H2 H3]]]]]. destruct i as [|[|[|i]]]; cbn in H1, H2; try discriminate;
          injection H1 as <-; injection H2 as <-;
          destruct H3 as [K|[K M]]; injection K as -> ->; cbn; auto 8; cbn in M; congruence. }
  split.
  { intros s [<-|[<-|[<-|[]]]]; eexists; (split; [reflexivity|]); (split; [|split; reflexivity]);
      cbn; repeat split; repeat constructor; cbn; intuition congruence. }
  split.
  { intros c s s' v v' w d Hc Hs Hs' Hf Ht Ev Ev' Ww P Hi.
    destruct Hs as [<-|[<-|[<-|[]]]]; cbn in Ev; injection Ev as <-;
    destruct Hs' as [<-|[<-|[<-|[]]]]; cbn in Ev'; injection Ev' as <-;
    destruct Hc as [<-|[<-|[<-|[]]]]; try discriminate Hf; try discriminate Ht;
    do 2 eexists.
    - destruct (ren_total "name" "name" [("name", false, str); ("n", true, VType TInt)] None [("name", false, str)] None w d eq_refl
        (fun x => one_inst "name" [("name", false, str)] x eq_refl ltac:(intros f [<-|[]]; auto)) Ww P Hi) as [d' [A1 [A2 A3]]].
      exists d'. split; [reflexivity|]. split; [reflexivity|]. auto.
    - destruct (ren_total "name" "title" [("name", false, str); ("n", true, VType TInt)] None [("title", false, str)] None w d eq_refl
        (fun x => one_inst "title" [("title", false, str)] x eq_refl ltac:(intros f [<-|[]]; auto)) Ww P Hi) as [d' [A1 [A2 A3]]].
      exists d'. split; [reflexivity|]. split; [reflexivity|]. auto.
    - destruct (ren_total "title" "name" [("title", false, str)] None [("name", false, str); ("n", true, VType TInt)] None w d eq_refl
        (fun x => one_inst "name" [("name", false, str); ("n", true, VType TInt)] x eq_refl
           ltac:(intros f [<-|[<-|[]]]; auto)) Ww P Hi) as [d' [A1 [A2 A3]]].
      exists d'. split; [reflexivity|]. split; [reflexivity|]. auto. }
  do 4 (split; [reflexivity|]). eexists. split; [vm_compute; reflexivity|]. split; [reflexivity|].
  eexists. split; [reflexivity|]. vm_compute. reflexivity.
Qed.

(** The toy lineage with Go lenses. *)
Lemma toy_go_lineage :
  exists l, tbind (tlin ss4 []) [OImperativeLenses exact4] = Ok l /\ strict_from_zero l /\
    (forall data a b, In a (all_schemas l) -> In b (all_schemas l) ->
       ev_subsumes toy (sd_def (s_sd b)) (sd_def (s_sd a)) = true ->
       conforms toy a data -> conforms toy b data) /\
    total_go toy toy_mapper l exact4.
Proof.
  destruct (tbind (tlin ss4 []) [OImperativeLenses exact4]) as [l|e| |] eqn:E; try (vm_compute in E; discriminate).
  exists l. vm_compute in E. injection E as <-.
  split; [reflexivity|]. split; [split; [cbn; solve_sorted|eexists; split; reflexivity]|].
  split.
  { intros data a b Ha Hb. destruct data; try (unfold conforms; intros _ K;
      destruct Ha as [<-|[<-|[<-|[<-|[]]]]]; discriminate K). apply (toy_sound n). }
  intros il mp i s' _ _ _ Hs' _ _ _ _. destruct Hs' as [<-|[<-|[<-|[<-|[]]]]]; eexists;
    (split; [vm_compute; reflexivity|]); split; reflexivity || (split; reflexivity).
Qed.
