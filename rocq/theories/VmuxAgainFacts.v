(** Feeding a mux its own output. *)
From Verif Require Import Prelude Version VersionProofs Search SearchProofs
  ValidateErr Native Split Lineage LineageProofs WalkProofs GoLensProofs BindFacts WalkFacts
  NativeProofs Translate TranslateGoProofs TranslateCueProofs TranslateFacts Vmux VmuxProofs Toy.
From Coq Require Import Sorting.Sorted.
Local Open Scope string_scope.
Local Open Scope list_scope.

Section A.
Context {V B T : Type}.
Variable ev : evaluator V.
Variable rm : N -> instance V -> schema V -> outcome (option (instance V)).
Variable dec : B -> outcome V.

Lemma untyped_accepts l sch fuel mux b x :
  bound ev l -> strict_from_zero l -> In sch (all_schemas l) -> length (all_schemas l) < fuel ->
  newUntypedMux ev rm dec fuel sch = Ok mux ->
  conforms ev sch x -> dec b = Ok x -> mux b = Ok (mkInst x "" sch true, []).
Proof.
  intros Bd SZ Hi Hf E C D. unfold newUntypedMux in E.
  destruct (allvstr fuel (s_lin sch)) as [vs|er| |]; cbn in E; try discriminate.
  injection E as <-. unfold untyped_fn. rewrite D.
  assert (validate ev sch x = Ok (mkInst x "" sch true)) as -> by (apply validate_ok; auto).
  reflexivity.
Qed.

(** What comes out is valid: CUE lenses. *)
Lemma untyped_valid_cue l sch fuel mux b x lac :
  bound ev l -> l_lensmap l = [] -> strict_from_zero l ->
  In sch (all_schemas l) -> length (all_schemas l) < fuel ->
  newUntypedMux ev rm dec fuel sch = Ok mux -> mux b = Ok (x, lac) ->
  (forall v s, dec b = Ok v -> In s (all_schemas l) -> validate ev s v <> Panic) ->
  i_sch x = sch /\ i_valid x = true /\ conforms ev sch (i_raw x).
Proof.
  intros Bd LM SZ Hi Hf E M R.
  pose proof (bound_wf ev l Bd) as W. pose proof (sfz_strict l W SZ) as St.
  destruct (untyped_spec ev rm dec l sch fuel Bd SZ Hi Hf) as [mux' [E' S]].
  assert (mux' = mux) by congruence. subst mux'. destruct (S b) as [S1 S2].
  destruct (dec b) as [v|er| |] eqn:D.
  - specialize (S2 v eq_refl (fun s => R v s eq_refl)). rewrite M in S2.
    inversion S2 as [i Ev|er s i Ev Hs Hne Es F Q|]; subst.
    + apply validate_ok in Ev as [C ->]. auto.
    + apply validate_ok in Es as [_ ->]. destruct fuel as [|fuel]; [lia|].
      destruct (cue_result_valid ev rm l (mkInst v "" s true) _ _ _ _ Bd LM eq_refl Hs Q) as [Q1 [Q2 [Q3 Q4]]].
      apply In_nth_error in Q2 as [j Hj]. apply In_nth_error in Hi as Hn. destruct Hn as [n Hn].
      pose proof (strict_idx l j n _ _ W St Hj Hn Q3). subst j.
      assert (i_sch x = sch) as K by congruence. rewrite K in Q4.
      apply validate_ok in Q4 as [Q4 _]. auto.
  - rewrite (S1 er eq_refl) in M. discriminate.
  - unfold newUntypedMux in E. destruct (allvstr fuel (s_lin sch)); cbn in E; try discriminate.
    injection E as <-. unfold untyped_fn in M. rewrite D in M. discriminate.
  - unfold newUntypedMux in E. destruct (allvstr fuel (s_lin sch)); cbn in E; try discriminate.
    injection E as <-. unfold untyped_fn in M. rewrite D in M. discriminate.
Qed.

(** Go lenses, where what the mappers return is valid. *)
Lemma untyped_valid_go id fv lindef e opts l sch fuel mux b x lac :
  BindLineage ev id fv lindef e opts = Ok l -> strict_from_zero l ->
  flat_map lenses_of opts <> [] -> well_behaved rm l ->
  negb fv && existsb is_skip opts = false ->
  (forall data a b, In a (all_schemas l) -> In b (all_schemas l) ->
     ev_subsumes ev (sd_def (s_sd b)) (sd_def (s_sd a)) = true ->
     conforms ev a data -> conforms ev b data) ->
  (forall mp i s r, In s (all_schemas l) -> rm mp i s = Ok (Some r) -> conforms ev (i_sch r) (i_raw r)) ->
  In sch (all_schemas l) -> length (all_schemas l) < fuel ->
  newUntypedMux ev rm dec fuel sch = Ok mux -> mux b = Ok (x, lac) ->
  (forall v s, dec b = Ok v -> In s (all_schemas l) -> validate ev s v <> Panic) ->
  i_sch x = sch /\ i_valid x = true /\ conforms ev sch (i_raw x).
Proof.
  intros Bd0 SZ Hne WB Sk Snd MC Hi Hf E M R. pose proof (bind_bound ev _ _ _ _ _ _ Bd0) as Bd.
  destruct (untyped_version ev rm dec _ _ _ _ _ _ _ _ _ _ _ _ Bd0 SZ WB Hi Hf E M R) as [V1 [V2 _]].
  split; [exact V1|]. split; [exact V2|].
  destruct (untyped_spec ev rm dec l sch fuel Bd SZ Hi Hf) as [mux' [E' S]].
  assert (mux' = mux) by congruence. subst mux'. destruct (S b) as [S1 S2].
  destruct (dec b) as [v|er| |] eqn:D.
  - specialize (S2 v eq_refl (fun s => R v s eq_refl)). rewrite M in S2.
    inversion S2 as [i Ev|er s i Ev Hs Hne' Es F Q|]; subst.
    + apply validate_ok in Ev as [C ->]. auto.
    + apply validate_ok in Es as [C ->].
      refine (proj2 (go_result_valid ev rm _ _ _ _ _ _ Bd0 SZ Hne WB Sk Snd MC
        (mkInst v "" s true) (i_sch x) fuel x _ eq_refl Hs Hi C Hf Q)).
  - rewrite (S1 er eq_refl) in M. discriminate.
  - unfold newUntypedMux in E. destruct (allvstr fuel (s_lin sch)); cbn in E; try discriminate.
    injection E as <-. unfold untyped_fn in M. rewrite D in M. discriminate.
  - unfold newUntypedMux in E. destruct (allvstr fuel (s_lin sch)); cbn in E; try discriminate.
    injection E as <-. unfold untyped_fn in M. rewrite D in M. discriminate.
Qed.

Variable enc : V -> outcome B.

(** From the untyped mux to the byte mux. *)
Lemma byte_again l sch fuel m b ob lac :
  bound ev l -> strict_from_zero l -> In sch (all_schemas l) -> length (all_schemas l) < fuel ->
  newByteMux ev rm dec enc fuel sch = Ok m ->
  (forall mux x lac, newUntypedMux ev rm dec fuel sch = Ok mux -> mux b = Ok (x, lac) ->
     i_valid x = true /\ conforms ev sch (i_raw x)) ->
  (forall v o, enc v = Ok o -> dec o = Ok v) ->
  m b = Ok (Some ob, lac, None) -> m ob = Ok (Some ob, [], None).
Proof.
  intros Bd SZ Hi Hf E C RT M. unfold newByteMux in E.
  destruct (newUntypedMux ev rm dec fuel sch) as [u|er| |] eqn:Eu; cbn [bind] in E; try discriminate.
  injection E as <-. cbn beta in *. specialize (C u).
  destruct (u b) as [[x lc]|er| |] eqn:Ub; try discriminate.
  destruct (C x lc eq_refl eq_refl) as [Hv Hc]. rewrite Hv in M. cbn [negb] in M.
  destruct (enc (i_raw x)) as [o|er| |] eqn:En; try discriminate. injection M as -> ->.
  rewrite (untyped_accepts l sch fuel u ob (i_raw x) Bd SZ Hi Hf Eu Hc (RT _ _ En)).
  cbn [i_valid negb i_raw]. rewrite En. reflexivity.
Qed.

Lemma byte_again_cue l sch fuel m b ob lac :
  bound ev l -> l_lensmap l = [] -> strict_from_zero l ->
  In sch (all_schemas l) -> length (all_schemas l) < fuel ->
  (forall v o, enc v = Ok o -> dec o = Ok v) ->
  (forall v s, dec b = Ok v -> In s (all_schemas l) -> validate ev s v <> Panic) ->
  newByteMux ev rm dec enc fuel sch = Ok m ->
  m b = Ok (Some ob, lac, None) -> m ob = Ok (Some ob, [], None).
Proof.
  intros Bd LM SZ Hi Hf RT R E M. refine (byte_again l sch fuel m b ob lac Bd SZ Hi Hf E _ RT M).
  intros mux x lc Eu U. refine (proj2 (untyped_valid_cue l sch fuel mux b x lc Bd LM SZ Hi Hf Eu U R)).
Qed.

Lemma byte_again_go id fv lindef e opts l sch fuel m b ob lac :
  BindLineage ev id fv lindef e opts = Ok l -> strict_from_zero l ->
  flat_map lenses_of opts <> [] -> well_behaved rm l ->
  negb fv && existsb is_skip opts = false ->
  (forall data a b, In a (all_schemas l) -> In b (all_schemas l) ->
     ev_subsumes ev (sd_def (s_sd b)) (sd_def (s_sd a)) = true ->
     conforms ev a data -> conforms ev b data) ->
  (forall mp i s r, In s (all_schemas l) -> rm mp i s = Ok (Some r) -> conforms ev (i_sch r) (i_raw r)) ->
  In sch (all_schemas l) -> length (all_schemas l) < fuel ->
  (forall v o, enc v = Ok o -> dec o = Ok v) ->
  (forall v s, dec b = Ok v -> In s (all_schemas l) -> validate ev s v <> Panic) ->
  newByteMux ev rm dec enc fuel sch = Ok m ->
  m b = Ok (Some ob, lac, None) -> m ob = Ok (Some ob, [], None).
Proof.
  intros Bd0 SZ Hne WB Sk Snd MC Hi Hf RT R E M. pose proof (bind_bound ev _ _ _ _ _ _ Bd0) as Bd.
  refine (byte_again l sch fuel m b ob lac Bd SZ Hi Hf E _ RT M).
  intros mux x lc Eu U.
  refine (proj2 (untyped_valid_go _ _ _ _ _ l sch fuel mux b x lc Bd0 SZ Hne WB Sk Snd MC Hi Hf Eu U R)).
Qed.

(** The same for instances. *)
Lemma untyped_again_cue l sch fuel mux b x lac b' :
  bound ev l -> l_lensmap l = [] -> strict_from_zero l ->
  In sch (all_schemas l) -> length (all_schemas l) < fuel ->
  newUntypedMux ev rm dec fuel sch = Ok mux -> mux b = Ok (x, lac) ->
  (forall v s, dec b = Ok v -> In s (all_schemas l) -> validate ev s v <> Panic) ->
  dec b' = Ok (i_raw x) -> mux b' = Ok (mkInst (i_raw x) "" sch true, []).
Proof.
  intros Bd LM SZ Hi Hf E M R D.
  destruct (untyped_valid_cue l sch fuel mux b x lac Bd LM SZ Hi Hf E M R) as [_ [_ C]].
  exact (untyped_accepts l sch fuel mux b' _ Bd SZ Hi Hf E C D).
Qed.
End A.

(** A mapper that answers with an instance of another lineage: the mux rejects its
    own output. *)
Lemma mux_rejects_own :
  exists (V : Type) (ev : evaluator V) rm id fv lindef e opts (l : lineage V) sch m,
    BindLineage ev id fv lindef e opts = Ok l /\ strict_from_zero l /\
    (forall mp i s r, rm mp i s = Ok (Some r) ->
       i_valid r = true /\ validate ev (i_sch r) (i_raw r) = Ok r) /\
    In sch (all_schemas l) /\
    newByteMux ev rm (fun v : V => Ok v) (fun v => Ok v) 5 sch = Ok m /\
    exists b ob er, m b = Ok (Some ob, [], None) /\ m ob = Ok (None, [], Some er).
Proof.
  destruct (BindLineage toy 7 false TLinDef (Atom (tlin ss4 [])) [OImperativeLenses exact4]) as [l|e| |] eqn:E;
    try (vm_compute in E; discriminate).
  destruct (BindLineage toy 8 false TLinDef
              (Atom (tlin [(0, 0, [8]); (0, 1, [8; 9]); (1, 0, [8]); (2, 0, [8])]%N [])) [OSkipBuggyChecks])
    as [lf|e| |] eqn:Ef; try (vm_compute in Ef; discriminate).
  exists tv, toy, (foreign_mapper lf), 7%N, false, TLinDef, (Atom (tlin ss4 [])), [OImperativeLenses exact4], l.
  destruct (nth_error (all_schemas l) 2) as [s2|] eqn:E2; [|vm_compute in E; injection E as <-; discriminate].
  exists s2.
  destruct (allvstr 5 (s_lin s2)) as [vs|e| |] eqn:Et.
  2-4: exfalso; vm_compute in E; injection E as <-; cbn in E2; injection E2 as <-;
       vm_compute in Et; discriminate.
  eexists. split; [exact E|].
  assert (Hin : In s2 (all_schemas l)) by (eapply nth_error_In; exact E2).
  vm_compute in E. injection E as <-. vm_compute in Ef. injection Ef as <-.
  split; [split; [cbn; solve_sorted|eexists; split; reflexivity]|].
  split.
  { intros mp i s r. unfold foreign_mapper. destruct (lin_schema _ _) as [u|e| |]; try discriminate.
    destruct (validate toy u (TDat 8)) as [r'|e| |] eqn:Ev; try discriminate. intros K. injection K as <-.
    apply validate_ok in Ev as [C ->]. split; [reflexivity|]. apply validate_ok. auto. }
  split; [exact Hin|].
  split; [unfold newByteMux, newUntypedMux; rewrite Et; reflexivity|]. exists (TDat 2), (TDat 8).
  cbn in E2. injection E2 as <-. eexists. split; vm_compute; reflexivity.
Qed.
