(** C103: translating in two hops; C29: lacunas on the way. *)
From Verif Require Import Prelude Version VersionProofs Search SearchProofs
  ValidateErr Native Split Lineage LineageProofs WalkProofs GoLensProofs BindFacts WalkFacts
  NativeProofs Translate TranslateGoProofs TranslateCueProofs TranslateFacts Toy ComposeFacts.
From Coq Require Import Sorting.Sorted.
Local Open Scope string_scope.
Local Open Scope list_scope.

(** With Go lenses, stopping on the way makes no difference: same data, same
    error. *)
Theorem C103_go :
  forall (V : Type) (ev : evaluator V) rm id fv lindef e opts (l : lineage V),
    BindLineage ev id fv lindef e opts = Ok l -> strict_from_zero l ->
    flat_map lenses_of opts <> [] -> well_behaved rm l ->
    forall i k m n b t fuel,
      i_valid i = true -> nth_error (all_schemas l) k = Some (i_sch i) ->
      nth_error (all_schemas l) m = Some b -> nth_error (all_schemas l) n = Some t ->
      (k <= m <= n \/ n <= m <= k) -> length (all_schemas l) < fuel ->
      translate ev rm fuel i (s_v t) =
        match translate ev rm fuel i (s_v b) with
        | Ok (y, _) => translate ev rm fuel y (s_v t)
        | o => o
        end.
Proof. exact @go_two_hops. Qed.
Print Assumptions C103_go.

(** Down from 2.0 to 0.0 by way of 0.1, with the results and with a failure in the
    second hop. *)
Example C103_go_case :
  exists l s0 s1 s3, tbind (tlin ss4 []) [OImperativeLenses exact4] = Ok l /\ strict_from_zero l /\
    nth_error (all_schemas l) 0 = Some s0 /\ nth_error (all_schemas l) 1 = Some s1 /\
    nth_error (all_schemas l) 3 = Some s3 /\ well_behaved toy_mapper l /\
    translate toy toy_mapper 5 (mkInst (TDat 1) "" s3 true) (0, 1)%N = Ok (mkInst (TDat 1) "" s1 true, []) /\
    translate toy toy_mapper 5 (mkInst (TDat 1) "" s1 true) (0, 0)%N = Ok (mkInst (TDat 1) "" s0 true, []) /\
    let late := fun mp i s => if veqb (s_v s) (0, 0)%N then Err (new_err "boom") else toy_mapper mp i s in
    well_behaved late l /\
    translate toy late 5 (mkInst (TDat 1) "" s3 true) (0, 1)%N = Ok (mkInst (TDat 1) "" s1 true, []) /\
    translate toy late 5 (mkInst (TDat 1) "" s3 true) (0, 0)%N =
      Err (mkErr [] "error executing 0.1 -> 0.0 migration: boom").
Proof.
  destruct (tbind (tlin ss4 []) [OImperativeLenses exact4]) as [l|e| |] eqn:E; try (vm_compute in E; discriminate).
  exists l. vm_compute in E. injection E as <-. do 3 eexists.
  split; [reflexivity|]. split; [split; [cbn; solve_sorted|eexists; split; reflexivity]|].
  do 3 (split; [reflexivity|]).
  split; [intros mp i s [<-|[<-|[<-|[<-|[]]]]]; vm_compute; auto 6|].
  do 2 (split; [vm_compute; reflexivity|]). cbv zeta.
  split; [intros mp i s [<-|[<-|[<-|[<-|[]]]]]; vm_compute; auto 6|].
  split; vm_compute; reflexivity.
Qed.

(** With CUE lenses only the end of a translation is checked and has its defaults
    filled in, so the ways differ. A lens makes data that is not concrete, which
    the next lens does not need: the first hop alone is an error, the whole way is
    none. *)
Theorem C103_cue_error_refuted :
  exists (V : Type) (ev : evaluator V) l i b t x e,
    bound ev l /\ l_lensmap l = [] /\ dense (map s_v (all_schemas l)) /\ exact_cue_lenses l /\
    nth_error (all_schemas l) 0 = Some (i_sch i) /\ nth_error (all_schemas l) 1 = Some b /\
    nth_error (all_schemas l) 2 = Some t /\ validate ev (i_sch i) (i_raw i) = Ok i /\
    forall rm fuel,
      translate ev rm (S fuel) i (s_v t) = Ok (x, []) /\
      translate ev rm (S fuel) i (s_v b) = Err e /\ e_marks e = [ErrLensIncomplete].
Proof. exact hop_fails. Qed.
Print Assumptions C103_cue_error_refuted.

(** A lens makes data with a default: both ways succeed, with different data. *)
Theorem C103_cue_data_refuted :
  exists (V : Type) (ev : evaluator V) l i b t x y z,
    bound ev l /\ l_lensmap l = [] /\ dense (map s_v (all_schemas l)) /\ exact_cue_lenses l /\
    nth_error (all_schemas l) 0 = Some (i_sch i) /\ nth_error (all_schemas l) 1 = Some b /\
    nth_error (all_schemas l) 2 = Some t /\ validate ev (i_sch i) (i_raw i) = Ok i /\
    i_raw x <> i_raw z /\
    forall rm fuel,
      translate ev rm (S fuel) i (s_v t) = Ok (x, []) /\
      translate ev rm (S fuel) i (s_v b) = Ok (y, []) /\
      translate ev rm (S fuel) y (s_v t) = Ok (z, []).
Proof. exact hop_differs. Qed.
Print Assumptions C103_cue_data_refuted.

(** What holds: a lens that fails on the way to the stop fails both ways, and if
    the data at the stop is what the lenses made, defaults included, the rest of
    the way gives the same as the whole. *)
Theorem C103_cue_partial :
  forall (V : Type) (ev : evaluator V) rm (l : lineage V),
    bound ev l -> l_lensmap l = [] -> dense (map s_v (all_schemas l)) ->
    exact_cue_lenses l ->
    forall i k m n b t fuel,
      i_valid i = true -> ev_struct ev (i_raw i) = true ->
      nth_error (all_schemas l) k = Some (i_sch i) ->
      nth_error (all_schemas l) m = Some b -> nth_error (all_schemas l) n = Some t ->
      (k <= m <= n \/ n <= m <= k) -> (fst (s_v (i_sch i)) <= 2)%N -> (fst (s_v t) <= 2)%N ->
      (cue_trans ev l m k (i_raw i) None ->
         translate ev rm (S fuel) i (s_v b) = Err (mkErr [ErrInvalidLens] "") /\
         translate ev rm (S fuel) i (s_v t) = Err (mkErr [ErrInvalidLens] "")) /\
      (forall y, translate ev rm (S fuel) i (s_v b) = Ok (y, []) -> ev_struct ev (i_raw y) = true ->
         cue_trans ev l m k (i_raw i) (Some (i_raw y)) ->
         translate ev rm (S fuel) i (s_v t) = translate ev rm (S fuel) y (s_v t)).
Proof. exact @cue_two_hops. Qed.
Print Assumptions C103_cue_partial.

Example C103_cue_case :
  exists l s0 s1 s2 s3, tbind cue4 [] = Ok l /\ bound toy l /\ l_lensmap l = [] /\
    nth_error (all_schemas l) 0 = Some s0 /\ nth_error (all_schemas l) 1 = Some s1 /\
    nth_error (all_schemas l) 2 = Some s2 /\ nth_error (all_schemas l) 3 = Some s3 /\
    translate toy toy_mapper 1 (mkInst (TDat 1) "" s0 true) (1, 0)%N = Ok (mkInst (TDat 3) "" s2 true, []) /\
    translate toy toy_mapper 1 (mkInst (TDat 3) "" s2 true) (2, 0)%N = Ok (mkInst (TDat 1) "" s3 true, []) /\
    cue_trans toy l 2 0 (TDat 1) (Some (TDat 3)) /\
    cue_trans toy l 2 3 (TDat 2) None.
Proof.
  destruct (tbind cue4 []) as [l|e| |] eqn:E; try (vm_compute in E; discriminate).
  exists l. pose proof (tbind_bound _ _ _ E) as B. vm_compute in E. injection E as <-. do 4 eexists.
  split; [reflexivity|]. split; [exact B|]. do 5 (split; [reflexivity|]).
  do 2 (split; [vm_compute; reflexivity|]). split.
  - eapply ct_minor; [lia|reflexivity|reflexivity|reflexivity|]. apply adv_ok; [reflexivity|].
    eapply ct_lens; [lia|reflexivity|reflexivity|right; discriminate| | | | |].
    1: right; right; left; reflexivity. 1,2,3: reflexivity.
    apply adv_ok; [reflexivity|]. apply ct_done.
  - eapply ct_lens; [lia|reflexivity|reflexivity|left; lia| | | | |].
    1: right; right; right; left; reflexivity. 1,2,3: reflexivity.
    apply adv_err. reflexivity.
Qed.

(** *** C29 *)

(** A lens that emits a lacuna on the data that reaches it ends every translation
    that goes through it, wherever it ends and whatever the lens result. *)
Theorem C29_emitted_partial :
  forall (V : Type) (ev : evaluator V) rm (l : lineage V),
    bound ev l -> l_lensmap l = [] -> dense (map s_v (all_schemas l)) -> exact_cue_lenses l ->
    forall i k m n b b' c d t fuel,
      i_valid i = true -> ev_struct ev (i_raw i) = true ->
      nth_error (all_schemas l) k = Some (i_sch i) -> nth_error (all_schemas l) m = Some b ->
      nth_error (all_schemas l) n = Some t -> (k <= m <= n \/ n <= m <= k) -> m <> n ->
      (fst (s_v (i_sch i)) <= 2)%N -> (fst (s_v t) <= 2)%N ->
      cue_trans ev l m k (i_raw i) (Some d) ->
      nth_error (all_schemas l) (if (n <? m)%nat then m - 1 else S m) = Some b' ->
      (n < m \/ fst (s_v b) <> fst (s_v b')) ->
      In c (l_lenses l) -> cl_from c = Some (s_v b) -> cl_to c = Some (s_v b') -> ev_lacunas ev (cl_val c) d <> [] ->
      translate ev rm (S fuel) i (s_v t) = Err (mkErr [ErrInvalidLens] "").
Proof. exact @cue_emitted. Qed.
Print Assumptions C29_emitted_partial.

(** 0.0 accepts 1, 0.1 accepts 1 and 2, 1.0 accepts 3; the lens to 1.0 emits 55. *)
Example C29_emitted_case :
  exists l s0 s1 s2 c,
    tbind (TLin "toy" [((Some 0, Some 0), ([1], [1])); ((Some 0, Some 1), ([1; 2], [1; 2])); ((Some 1, Some 0), ([3], [3]))]%N
      [((Some (0, 0), Some (0, 1)), ([(1, 1); (2, 1)], [])); ((Some (0, 1), Some (1, 0)), ([(1, 3)], []));
       ((Some (1, 0), Some (0, 1)), ([(3, 1)], [55]))]%N) [] = Ok l /\
    nth_error (all_schemas l) 0 = Some s0 /\ nth_error (all_schemas l) 1 = Some s1 /\
    nth_error (all_schemas l) 2 = Some s2 /\ nth_error (l_lenses l) 2 = Some c /\
    cl_from c = Some (s_v s1) /\ cl_to c = Some (s_v s2) /\ ev_lacunas toy (cl_val c) (TDat 1) = [55%N] /\
    cue_trans toy l 1 0 (TDat 1) (Some (TDat 1)) /\
    translate toy toy_mapper 1 (mkInst (TDat 1) "" s0 true) (0, 1)%N = Ok (mkInst (TDat 1) "" s1 true, []) /\
    translate toy toy_mapper 1 (mkInst (TDat 1) "" s0 true) (1, 0)%N = Err (mkErr [ErrInvalidLens] "").
Proof.
  match goal with |- exists l s0 s1 s2 c, tbind ?e [] = _ /\ _ => destruct (tbind e []) as [l|e'| |] eqn:E; try (vm_compute in E; discriminate) end.
  exists l. vm_compute in E. injection E as <-. do 4 eexists. do 8 (split; [reflexivity|]). split.
  - eapply ct_minor; [lia|reflexivity|reflexivity|reflexivity|]. apply adv_ok; [reflexivity|]. apply ct_done.
  - split; vm_compute; reflexivity.
Qed.
