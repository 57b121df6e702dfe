(** Closing lemmas for C19-C21 and C26-C30. *)
From Verif Require Import Prelude Version VersionProofs Search SearchProofs
  ValidateErr Native Split Lineage LineageProofs WalkProofs GoLensProofs BindFacts WalkFacts
  NativeProofs Translate TranslateGoProofs TranslateCueProofs Toy.
From Coq Require Import Sorting.Sorted Arith ZifyBool ZifyN ZifyNat.
Local Open Scope string_scope.
Local Open Scope list_scope.

Section T.
Context {V : Type}.
Variable ev : evaluator V.
Variable rm : N -> instance V -> schema V -> outcome (option (instance V)).

Lemma bind_bound id fv lindef e opts l : BindLineage ev id fv lindef e opts = Ok l -> bound ev l.
Proof. intros H. unfold bound. eauto 6. Qed.

(** *** C19 *)
Lemma go_translation id fv lindef e opts l :
  BindLineage ev id fv lindef e opts = Ok l -> strict_from_zero l ->
  flat_map lenses_of opts <> [] -> well_behaved rm l ->
  forall i k n t fuel,
    i_valid i = true -> nth_error (all_schemas l) k = Some (i_sch i) ->
    nth_error (all_schemas l) n = Some t -> length (all_schemas l) < fuel ->
    exists r, go_trans rm l (flat_map lenses_of opts) n k i r /\
      (forall r', go_trans rm l (flat_map lenses_of opts) n k i r' -> r' = r) /\
      ((exists x, r = Ok x /\ translate ev rm fuel i (s_v t) = Ok (x, []) /\
          i_sch x = t /\ i_valid x = true) \/
       (exists x, r = Err x /\ translate ev rm fuel i (s_v t) = Err x)).
Proof.
  intros B SZ Hne WB i k n t fuel Hv Hk Hn Hf.
  destruct (bound_go ev _ _ _ _ _ _ B SZ Hne) as [X [LM NE]].
  destruct (translate_go ev rm l _ (bind_bound _ _ _ _ _ _ B) SZ X LM NE WB i k n t fuel Hv Hk Hn Hf)
    as [r [E [G [S U]]]].
  exists r. split; [exact G|]. split; [exact U|]. destruct r as [x|x| |]; cbn in S; try contradiction.
  - left. exists x. destruct S. auto.
  - right. exists x. auto.
Qed.

(** *** C20 *)
Lemma go_minor id fv lindef e opts l :
  BindLineage ev id fv lindef e opts = Ok l -> strict_from_zero l ->
  flat_map lenses_of opts <> [] ->
  forall i t fuel,
    i_valid i = true -> In (i_sch i) (all_schemas l) -> In t (all_schemas l) ->
    fst (s_v (i_sch i)) = fst (s_v t) -> vle (s_v (i_sch i)) (s_v t) ->
    length (all_schemas l) < fuel ->
    translate ev rm fuel i (s_v t) = Ok (mkInst (i_raw i) (i_name i) t true, []).
Proof.
  intros B SZ Hne i t fuel Hv Hi Ht Hm Hle Hf.
  destruct (bound_go ev _ _ _ _ _ _ B SZ Hne) as [X [LM NE]].
  pose proof (bind_bound _ _ _ _ _ _ B) as Bd.
  apply In_nth_error in Hi as [k Hk]. apply In_nth_error in Ht as [n Hn].
  apply (translate_go_minor ev rm l _ Bd SZ LM NE i k n t fuel); auto.
  pose proof (bound_wf ev l Bd) as W. pose proof (sfz_strict l W SZ) as St.
  destruct (Nat.le_gt_cases k n) as [L|L]; [exact L|exfalso].
  apply (strict_lt l n k t (i_sch i) W St Hn Hk) in L. apply vless_spec in L.
  exact (vle_not_vlt _ _ Hle L).
Qed.

(** *** C21 *)
Lemma go_result_valid id fv lindef e opts l :
  BindLineage ev id fv lindef e opts = Ok l -> strict_from_zero l ->
  flat_map lenses_of opts <> [] -> well_behaved rm l ->
  negb fv && existsb is_skip opts = false ->
  (forall data a b, In a (all_schemas l) -> In b (all_schemas l) ->
     ev_subsumes ev (sd_def (s_sd b)) (sd_def (s_sd a)) = true ->
     conforms ev a data -> conforms ev b data) ->
  (forall mp i s r, In s (all_schemas l) -> rm mp i s = Ok (Some r) -> conforms ev (i_sch r) (i_raw r)) ->
  forall i t fuel x lac,
    i_valid i = true -> In (i_sch i) (all_schemas l) -> In t (all_schemas l) ->
    conforms ev (i_sch i) (i_raw i) -> length (all_schemas l) < fuel ->
    translate ev rm fuel i (s_v t) = Ok (x, lac) ->
    i_sch x = t /\ conforms ev t (i_raw x).
Proof.
  intros B SZ Hne WB Sk Snd MC i t fuel x lac Hv Hi Ht C Hf E.
  destruct (bound_go ev _ _ _ _ _ _ B SZ Hne) as [X [LM NE]].
  pose proof (bind_bound _ _ _ _ _ _ B) as Bd.
  apply In_nth_error in Hi as [k Hk]. apply In_nth_error in Ht as [n Hn].
  destruct (translate_go ev rm l _ Bd SZ X LM NE WB i k n t fuel Hv Hk Hn Hf) as [r [E' [G [S _]]]].
  destruct r as [y|y| |]; cbn in E', S; try congruence. rewrite E in E'. injection E' as -> _.
  destruct S as [S1 _]. split; [exact S1|]. rewrite <- S1.
  pose proof (bound_wf ev l Bd) as W. pose proof (sfz_strict l W SZ) as St.
  assert (Mono : forall s s' data, In s (all_schemas l) -> In s' (all_schemas l) ->
    fst (s_v s) = fst (s_v s') -> vle (s_v s) (s_v s') -> conforms ev s data -> conforms ev s' data).
  { intros s s' data I1 I2 M Le C1.
    apply (within_major ev fv opts id lindef e l data B) with (s1 := s); try assumption;
      [rewrite make_cfg_spec; exact Sk|exact (Snd data)]. }
  destruct (go_trans_conforms ev rm l (flat_map lenses_of opts) Bd SZ Mono WB MC n) as [Q _].
  exact (Q k i (Ok y) G y eq_refl Hk C).
Qed.

(** *** C30 *)
Lemma translate_total id fv lindef e opts l :
  BindLineage ev id fv lindef e opts = Ok l -> strict_from_zero l -> well_behaved rm l ->
  (forall s data, In s (all_schemas l) -> validate ev s data <> Panic) ->
  forall i to fuel,
    i_valid i = true -> In (i_sch i) (all_schemas l) -> ev_struct ev (i_raw i) = true ->
    length (all_schemas l) < fuel ->
    (In to (map s_v (all_schemas l)) ->
       exists o, translate ev rm fuel i to = Ok o \/ exists x, translate ev rm fuel i to = Err x) /\
    (~ In to (map s_v (all_schemas l)) ->
       translate ev rm fuel i to = Panic \/
       (flat_map lenses_of opts <> [] /\ exists x, translate ev rm fuel i to = Err x)).
Proof.
  intros B SZ WB R i to fuel Hv Hi Hst Hf. pose proof (bind_bound _ _ _ _ _ _ B) as Bd.
  destruct (flat_map lenses_of opts) as [|y ys] eqn:F.
  - pose proof (bound_cue ev _ _ _ _ _ _ B F) as LM. destruct fuel as [|fuel]; [lia|].
    destruct (translate_cue_cases ev rm l i to fuel Bd LM Hv Hi) as [C1 C2]. split.
    + intros Hto. destruct (translate ev rm (S fuel) i to) as [o|x| |].
      * exists o. auto.
      * exists (i, []). eauto.
      * exfalso. destruct C1 as [C1|[C1|[t [d [C3 [_ C4]]]]]]; [contradiction|congruence|exact (R t d C3 C4)].
      * destruct C1.
    + intros Hto. left. apply C2. left. exact Hto.
  - destruct (bound_go ev _ _ _ _ _ _ B SZ) as [X [LM NE]]; [congruence|].
    apply In_nth_error in Hi as [k Hk]. split.
    + intros Hto. apply in_map_iff in Hto as [t [<- Ht]]. apply In_nth_error in Ht as [n Hn].
      destruct (translate_go ev rm l _ Bd SZ X LM NE WB i k n t fuel Hv Hk Hn Hf) as [r [E [_ [S _]]]].
      destruct r as [x|x| |]; cbn in E, S; try contradiction.
      * exists (x, []). auto.
      * exists (i, []). eauto.
    + intros Hto.
      destruct (translate_go_absent ev rm l _ Bd SZ X LM NE WB i k to fuel Hv Hk Hto Hf) as [E|E]; [auto|].
      right. split; [congruence|exact E].
Qed.

Lemma neighbours_total id fv lindef e opts l :
  BindLineage ev id fv lindef e opts = Ok l -> strict_from_zero l -> well_behaved rm l ->
  (forall s data, In s (all_schemas l) -> validate ev s data <> Panic) ->
  forall i k fuel,
    i_valid i = true -> nth_error (all_schemas l) k = Some (i_sch i) -> ev_struct ev (i_raw i) = true ->
    length (all_schemas l) < fuel ->
    (S k = length (all_schemas l) -> asSuccessor ev rm fuel i = Panic) /\
    (S k < length (all_schemas l) ->
       (exists o, asSuccessor ev rm fuel i = Ok o) \/ (exists x, asSuccessor ev rm fuel i = Err x)) /\
    (k = 0 -> asPredecessor ev rm fuel i = Panic) /\
    (0 < k ->
       (exists o, asPredecessor ev rm fuel i = Ok o) \/ (exists x, asPredecessor ev rm fuel i = Err x)).
Proof.
  intros B SZ WB R i k fuel Hv Hk Hst Hf. pose proof (bind_bound _ _ _ _ _ _ B) as Bd.
  destruct (neighbours ev l Bd SZ) as [NB _]. destruct (NB k _ Hk) as [Hs Hp].
  unfold asSuccessor, asSuccessor_with, asPredecessor. rewrite Hv, Hs, Hp. cbn [negb bind].
  assert (Hi : In (i_sch i) (all_schemas l)) by (eapply nth_error_In; exact Hk).
  assert (Hlk : k < length (all_schemas l)) by (apply nth_error_Some; congruence).
  assert (T : forall t, In t (all_schemas l) ->
    (exists o, translate ev rm fuel i (s_v t) = Ok o) \/ (exists x, translate ev rm fuel i (s_v t) = Err x)).
  { intros t Ht. destruct (translate_total _ _ _ _ _ _ B SZ WB R i (s_v t) fuel Hv Hi Hst Hf) as [Q _].
    destruct (Q (in_map s_v _ _ Ht)) as [o [K|K]]; eauto. }
  split; [|split; [|split]].
  - intros E. destruct (nth_error (all_schemas l) (S k)) eqn:Hn; [|reflexivity].
    assert (S k < length (all_schemas l)) by (apply nth_error_Some; congruence). lia.
  - intros L. destruct (nth_error (all_schemas l) (S k)) as [t|] eqn:Hn;
      [|apply nth_error_None in Hn; lia].
    destruct (_ =? _)%N; [eauto|]. apply T. eapply nth_error_In; exact Hn.
  - intros ->. reflexivity.
  - intros L. destruct k as [|k]; [lia|].
    destruct (nth_error (all_schemas l) k) as [t|] eqn:Hn; [|apply nth_error_None in Hn; lia].
    apply T. eapply nth_error_In; exact Hn.
Qed.

(** *** C27, C28, C29 *)
Lemma cue_result_valid l i to fuel r lac :
  bound ev l -> l_lensmap l = [] -> i_valid i = true -> In (i_sch i) (all_schemas l) ->
  translate ev rm (S fuel) i to = Ok (r, lac) ->
  i_valid r = true /\ In (i_sch r) (all_schemas l) /\ s_v (i_sch r) = to /\
  validate ev (i_sch r) (i_raw r) = Ok r.
Proof.
  intros B LM Hv Hi E. destruct (translate_cue_cases ev rm l i to fuel B LM Hv Hi) as [C _].
  rewrite E in C. tauto.
Qed.

Lemma cue_errors l i to fuel x :
  bound ev l -> l_lensmap l = [] -> i_valid i = true -> In (i_sch i) (all_schemas l) ->
  translate ev rm (S fuel) i to = Err x ->
  e_marks x = [ErrInvalidLens] \/ e_marks x = [ErrLensIncomplete] \/
  exists t data e', In t (all_schemas l) /\ s_v t = to /\ validate ev t data = Err e' /\
    e_marks x = ErrLensResultIsInvalidData :: e_marks e'.
Proof.
  intros B LM Hv Hi E. destruct (translate_cue_cases ev rm l i to fuel B LM Hv Hi) as [C _].
  rewrite E in C. tauto.
Qed.

Lemma go_loop_no_lacunas tr lm from to fuel : forall sch ti r lac,
  go_loop rm tr lm from to fuel sch ti = Ok (r, lac) -> lac = [].
Proof.
  induction fuel as [|f IH]; intros sch ti r lac; cbn [go_loop];
    (destruct (veqb (s_v sch) to); [intros K; injection K as _ <-; reflexivity|]); [discriminate|].
  intros K. apply bind_ok in K as [n [_ K]]. destruct n as [nsch|]; [|discriminate].
  destruct (_ || _).
  - destruct (lens_lookup _ _) as [il|]; [|discriminate].
    destruct (il_mapper il) as [mp|]; [|discriminate].
    destruct (rm mp ti nsch) as [[x|]|x| |]; try discriminate.
    destruct (negb (i_valid x)); [discriminate|]. destruct (negb (veqb _ _)); [discriminate|].
    eapply IH; exact K.
  - destruct (asSuccessor_with tr ti) as [[x y]|x| |]; try discriminate. eapply IH; exact K.
Qed.

Lemma no_lacunas fuel i to r lac : translate ev rm fuel i to = Ok (r, lac) -> lac = [].
Proof.
  destruct fuel as [|f]; cbn [translate]; [discriminate|].
  destruct (negb (i_valid i)); [discriminate|].
  destruct (l_lensmap (s_lin (i_sch i))) as [|x xs].
  - unfold translateCUE. intros K.
    repeat match type of K with
           | context [match ?x with _ => _ end] => destruct x; try discriminate
           end; injection K as _ <-; reflexivity.
  - destruct (veqb to _); [intros K; injection K as _ <-; reflexivity|]. apply go_loop_no_lacunas.
Qed.
End T.

(** *** Concrete instances *)

(** 0.0 accepts 1; 0.1 accepts 1, 2; 1.0 accepts 3; 2.0 accepts 1. *)
Definition cue4 : tv := tlin ss4
  [((0, 0), (0, 1), [(1, 1); (2, 1)]); ((0, 1), (1, 0), [(3, 2)]); ((1, 0), (0, 1), [(1, 3); (2, 3)]);
   ((1, 0), (2, 0), [(1, 3)]); ((2, 0), (1, 0), [(3, 1)])]%N.

(** The mapper used in examples: validate the number of the target schema's first
    accepted datum against that schema. *)
Definition toy_mapper (mp : N) (i : instance tv) (s : schema tv) : outcome (option (instance tv)) :=
  match sd_def (s_sd s) with
  | TSet (n :: _) =>
      match validate toy s (TDat n) with
      | Ok r => Ok (Some r)
      | Err e => Err e
      | _ => Ok None
      end
  | _ => Ok None
  end.

Lemma toy_validate_total s d : validate toy s d <> Panic.
Proof.
  unfold validate. destruct (ev_validate toy _) as [x|] eqn:E; [|discriminate].
  assert (x = VCue [t_err]).
  { cbn in E. unfold t_validate in E. destruct (t_unify _ _); try congruence.
    destruct (N.eqb _ _); congruence. }
  subst x. cbn. discriminate.
Qed.

(** A mapper that always answers with an instance of the foreign lineage [lf]. *)
Definition foreign_mapper (lf : lineage tv) (mp : N) (i : instance tv) (s : schema tv)
  : outcome (option (instance tv)) :=
  match lin_schema lf (s_v s) with
  | Ok t => match validate toy t (TDat 8) with Ok r => Ok (Some r) | Err e => Err e | _ => Ok None end
  | _ => Ok None
  end.

Lemma foreign_instance :
  exists (V : Type) (ev : evaluator V) rm id fv lindef e opts (l : lineage V) i t x,
    BindLineage ev id fv lindef e opts = Ok l /\ strict_from_zero l /\
    flat_map lenses_of opts <> [] /\
    (forall mp i s r, rm mp i s = Ok (Some r) ->
       i_valid r = true /\ validate ev (i_sch r) (i_raw r) = Ok r) /\
    In (i_sch i) (all_schemas l) /\ validate ev (i_sch i) (i_raw i) = Ok i /\
    In t (all_schemas l) /\
    (forall fuel, translate ev rm (5 + fuel) i (s_v t) = Ok (x, [])) /\
    (exists err, validate ev t (i_raw x) = Err err) /\ ~ In (i_sch x) (all_schemas l).
Proof.
  destruct (BindLineage toy 7 false TLinDef (Atom (tlin ss4 [])) [OImperativeLenses exact4]) as [l|e| |] eqn:E;
    try (vm_compute in E; discriminate).
  destruct (BindLineage toy 8 false TLinDef
              (Atom (tlin [(0, 0, [8]); (0, 1, [8; 9]); (1, 0, [8]); (2, 0, [8])]%N [])) [OSkipBuggyChecks])
    as [lf|e| |] eqn:Ef; try (vm_compute in Ef; discriminate).
  exists tv, toy, (foreign_mapper lf), 7%N, false, TLinDef, (Atom (tlin ss4 [])), [OImperativeLenses exact4], l.
  destruct (nth_error (all_schemas l) 1) as [s1|] eqn:E1; [|vm_compute in E; injection E as <-; discriminate].
  destruct (nth_error (all_schemas l) 2) as [s2|] eqn:E2; [|vm_compute in E; injection E as <-; discriminate].
  exists (mkInst (TDat 2) "" s1 true), s2.
  destruct (lin_schema lf (1, 0)%N) as [t|e| |] eqn:Et; try (vm_compute in Ef; injection Ef as <-; vm_compute in Et; discriminate).
  exists (mkInst (TDat 8) "" t true). split; [exact E|].
  vm_compute in E. injection E as <-. vm_compute in Ef. injection Ef as <-. vm_compute in Et. injection Et as <-.
  cbn in E1, E2. injection E1 as <-. injection E2 as <-.
  split; [split; [cbn; solve_sorted|eexists; split; reflexivity]|].
  split; [discriminate|]. split.
  { intros mp i s r. unfold foreign_mapper. destruct (lin_schema _ _) as [t|e| |]; try discriminate.
    destruct (validate toy t (TDat 8)) as [r'|e| |] eqn:Ev; try discriminate. intros K. injection K as <-.
    apply validate_ok in Ev as [C ->]. split; [reflexivity|]. apply validate_ok. auto. }
  split; [right; left; reflexivity|]. split; [reflexivity|]. split; [right; right; left; reflexivity|].
  split; [intros fuel; vm_compute; reflexivity|]. split; [eexists; vm_compute; reflexivity|].
  intros [K|[K|[K|[K|[]]]]]; apply (f_equal (fun s => l_id (s_lin s))) in K; discriminate.
Qed.

(** *** C28 *)
Lemma not_invalid_lens :
  (exists (V : Type) (ev : evaluator V) rm l i x,
     bound ev l /\ In (i_sch i) (all_schemas l) /\ validate ev (i_sch i) (i_raw i) = Ok i /\
     (forall fuel, translate ev rm (S fuel) i (1, 0)%N = Err x) /\
     err_is x ErrLensIncomplete = true /\ err_is x ErrInvalidLens = false) /\
  (exists (V : Type) (ev : evaluator V) rm id fv lindef e opts (l : lineage V) i x,
     BindLineage ev id fv lindef e opts = Ok l /\ strict_from_zero l /\ flat_map lenses_of opts <> [] /\
     well_behaved rm l /\ In (i_sch i) (all_schemas l) /\ validate ev (i_sch i) (i_raw i) = Ok i /\
     (forall fuel, translate ev rm (2 + fuel) i (1, 0)%N = Err x) /\ e_marks x = []).
Proof.
  split.
  - destruct (tbind (tlin [(0, 0, [1]); (1, 0, [100])]%N
        [((0, 0), (1, 0), [(100, 1)]); ((1, 0), (0, 0), [(1, 100)])]%N) []) as [l|e| |] eqn:E;
      try (vm_compute in E; discriminate).
    exists tv, toy, toy_mapper, l. pose proof (tbind_bound _ _ _ E) as B.
    destruct (nth_error (all_schemas l) 0) as [s|] eqn:E1; [|vm_compute in E; injection E as <-; discriminate].
    exists (mkInst (TDat 1) "" s true). eexists. split; [exact B|].
    vm_compute in E. injection E as <-. cbn in E1. injection E1 as <-.
    split; [left; reflexivity|]. split; [reflexivity|]. split; [intros fuel; vm_compute; reflexivity|].
    split; reflexivity.
  - destruct (tbind (tlin [(0, 0, [1]); (1, 0, [2])]%N []) [OImperativeLenses [m 1 0 0 0; m 0 0 1 0]]) as [l|e| |] eqn:E;
      try (vm_compute in E; discriminate).
    exists tv, toy, (fun _ _ _ => Err (new_err "boom")), 7%N, false, TLinDef. do 2 eexists. exists l.
    destruct (nth_error (all_schemas l) 0) as [s|] eqn:E1; [|vm_compute in E; injection E as <-; discriminate].
    exists (mkInst (TDat 1) "" s true). eexists. split; [exact E|].
    vm_compute in E. injection E as <-. cbn in E1. injection E1 as <-.
    split; [split; [cbn; solve_sorted|eexists; split; reflexivity]|]. split; [discriminate|].
    split; [intros mp i s _; exact I|].
    split; [left; reflexivity|]. split; [reflexivity|]. split; [intros fuel; vm_compute; reflexivity|].
    reflexivity.
Qed.

(** *** C29 *)
Definition lac_lin : tv :=
  TLin "toy" [((Some 0, Some 0), ([1], [1])); ((Some 1, Some 0), ([2], [2]))]%N
    [((Some (0, 0), Some (1, 0)), ([(2, 1)], [])); ((Some (1, 0), Some (0, 0)), ([(1, 2)], [55]))]%N.

Lemma lacunas_lost :
  exists (V : Type) (ev : evaluator V) l i s' c r,
    bound ev l /\ dense (map s_v (all_schemas l)) /\ exact_cue_lenses l /\
    nth_error (all_schemas l) 0 = Some (i_sch i) /\ validate ev (i_sch i) (i_raw i) = Ok i /\
    nth_error (all_schemas l) 1 = Some s' /\
    In c (l_lenses l) /\ cl_from c = Some (s_v (i_sch i)) /\ cl_to c = Some (s_v s') /\
    ev_lacunas ev (cl_val c) (i_raw i) <> [] /\
    ev_bottom ev (ev_embed ev (ev_lens_result ev (cl_val c) (i_raw i)) (sd_def (s_sd s'))) = false /\
    validate ev s' (ev_default ev (ev_embed ev (ev_lens_result ev (cl_val c) (i_raw i)) (sd_def (s_sd s')))) = Ok r /\
    forall rm fuel, translate ev rm (S fuel) i (s_v s') = Err (mkErr [ErrInvalidLens] "").
Proof.
  destruct (tbind lac_lin []) as [l|e| |] eqn:E; try (vm_compute in E; discriminate).
  exists tv, toy, l. pose proof (tbind_bound _ _ _ E) as B.
  destruct (nth_error (all_schemas l) 0) as [s|] eqn:E1; [|vm_compute in E; injection E as <-; discriminate].
  destruct (nth_error (all_schemas l) 1) as [s'|] eqn:E2; [|vm_compute in E; injection E as <-; discriminate].
  destruct (nth_error (l_lenses l) 1) as [c|] eqn:E3; [|vm_compute in E; injection E as <-; discriminate].
  exists (mkInst (TDat 1) "" s true), s', c. eexists. split; [exact B|].
  vm_compute in E. injection E as <-. cbn in E1, E2, E3. injection E1 as <-. injection E2 as <-. injection E3 as <-.
  split.
  { split; [reflexivity|]. intros a b [i [H1 H2]].
    destruct i as [|[|i]]; cbn in H1, H2; try discriminate; injection H1 as <-; injection H2 as <-; cbn; auto. }
  split.
  { split.
    - vm_compute. repeat constructor; cbn; intuition congruence.
    - intros f t. vm_compute lens_ids. split.
      + intros [K|[K|[]]]; injection K as <- <-; exists 0, (0, 0)%N, (1, 0)%N; repeat split; auto.
        right. split; [reflexivity|discriminate].
      + intros [i [a [b [H1 [H2 H3]]]]]. destruct i as [|[|i]]; cbn in H1, H2; try discriminate.
        injection H1 as <-. injection H2 as <-.
        destruct H3 as [K|[K _]]; injection K as -> ->; cbn; auto. }
  split; [reflexivity|]. split; [reflexivity|]. split; [reflexivity|]. split; [right; left; reflexivity|].
  split; [reflexivity|]. split; [reflexivity|]. split; [vm_compute; discriminate|].
  split; [reflexivity|]. split; [vm_compute; reflexivity|].
  intros rm fuel. vm_compute. reflexivity.
Qed.

(** With four majors a translation to an existing version fails although every
    lens is right. *)
Lemma four_majors_fail :
  exists (V : Type) (ev : evaluator V) l i t,
    bound ev l /\ dense (map s_v (all_schemas l)) /\ exact_cue_lenses l /\
    In (i_sch i) (all_schemas l) /\ validate ev (i_sch i) (i_raw i) = Ok i /\ In t (all_schemas l) /\
    (exists n k o, nth_error (all_schemas l) n = Some t /\ nth_error (all_schemas l) k = Some (i_sch i) /\
       cue_trans ev l n k (i_raw i) (Some o) /\ (exists r, validate ev t o = Ok r)) /\
    l_lensmap l = [] /\ ev_struct ev (i_raw i) = true /\ (fst (s_v (i_sch i)) <= 2)%N /\ (3 <= fst (s_v t))%N /\
    forall rm fuel, exists x, translate ev rm (S fuel) i (s_v t) = Err x.
Proof.
  destruct (tbind (tlin [(0, 0, [1]); (1, 0, [2]); (2, 0, [3]); (3, 0, [4])]%N
    [((0, 0), (1, 0), [(2, 1)]); ((1, 0), (0, 0), [(1, 2)]); ((1, 0), (2, 0), [(3, 2)]);
     ((2, 0), (1, 0), [(2, 3)]); ((2, 0), (3, 0), [(4, 3)]); ((3, 0), (2, 0), [(3, 4)])]%N) [])
    as [l|e| |] eqn:E; try (vm_compute in E; discriminate).
  exists tv, toy, l. pose proof (tbind_bound _ _ _ E) as B.
  destruct (nth_error (all_schemas l) 2) as [s|] eqn:E1; [|vm_compute in E; injection E as <-; discriminate].
  destruct (nth_error (all_schemas l) 3) as [s'|] eqn:E2; [|vm_compute in E; injection E as <-; discriminate].
  destruct (nth_error (l_lenses l) 5) as [c|] eqn:E3; [|vm_compute in E; injection E as <-; discriminate].
  exists (mkInst (TDat 3) "" s true), s'. split; [exact B|].
  assert (Hs : In s (all_schemas l)) by (eapply nth_error_In; exact E1).
  assert (Hs' : In s' (all_schemas l)) by (eapply nth_error_In; exact E2).
  assert (Hc : In c (l_lenses l)) by (eapply nth_error_In; exact E3).
  assert (Q : dense (map s_v (all_schemas l)) /\ exact_cue_lenses l).
  { vm_compute in E. injection E as <-. split.
    - split; [reflexivity|]. intros a b [i [H1 H2]].
      destruct i as [|[|[|[|i]]]]; cbn in H1, H2; try discriminate; injection H1 as <-; injection H2 as <-; cbn; auto.
    - split.
      + vm_compute. repeat constructor; cbn; intuition congruence.
      + intros f t. vm_compute lens_ids. split.
        * intros [K|[K|[K|[K|[K|[K|[]]]]]]]; injection K as <- <-.
          1,2: exists 0, (0, 0)%N, (1, 0)%N; repeat split; auto; try (right; split; [reflexivity|discriminate]).
          1,2: exists 1, (1, 0)%N, (2, 0)%N; repeat split; auto; try (right; split; [reflexivity|discriminate]).
          1,2: exists 2, (2, 0)%N, (3, 0)%N; repeat split; auto; try (right; split; [reflexivity|discriminate]).
        * intros [i [a [b [H1 [H2 H3]]]]]. destruct i as [|[|[|[|i]]]]; cbn in H1, H2; try discriminate;
            injection H1 as <-; injection H2 as <-;
            destruct H3 as [K|[K _]]; injection K as -> ->; cbn; auto 8. }
  destruct Q as [Q1 Q2]. split; [exact Q1|]. split; [exact Q2|]. split; [exact Hs|].
  split; [vm_compute in E; injection E as <-; cbn in E1; injection E1 as <-; reflexivity|].
  split; [exact Hs'|]. split.
  - exists 3, 2, (TDat 4). split; [exact E2|]. split; [exact E1|].
    vm_compute in E. injection E as <-. cbn in E1, E2, E3. injection E1 as <-. injection E2 as <-. injection E3 as <-.
    split; [|eexists; reflexivity].
    eapply (ct_lens toy _ 3 2 (TDat 3)); [discriminate|reflexivity|reflexivity|right; discriminate|exact Hc|reflexivity|reflexivity|reflexivity|].
    apply adv_ok; [reflexivity|]. vm_compute. constructor.
  - vm_compute in E. injection E as <-. cbn in E1, E2. injection E1 as <-. injection E2 as <-.
    split; [reflexivity|]. split; [reflexivity|]. split; [vm_compute; discriminate|]. split; [vm_compute; discriminate|].
    intros rm fuel. eexists. vm_compute. reflexivity.
Qed.
