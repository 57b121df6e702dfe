(** The order in which schemas and lenses are declared. *)
From Verif Require Import Prelude Version VersionProofs ValidateErr Native Split Lineage LineageProofs
  WalkProofs GoLensProofs BindFacts WalkFacts Toy.
From Coq Require Import Sorting.Sorted Sorting.Permutation.
Local Open Scope string_scope.
Local Open Scope list_scope.

Lemma sorted_unique {A} (R : A -> A -> Prop) : (forall a b, R a b -> R b a -> a = b) ->
  forall l l', StronglySorted R l -> StronglySorted R l' -> Permutation l l' -> l = l'.
Proof.
  intros An. induction l as [|x l IH]; intros l' H H' P.
  - apply Permutation_nil in P. symmetry. exact P.
  - destruct l' as [|y l']; [apply Permutation_sym, Permutation_nil in P; discriminate|].
    inversion H as [|a1 a2 S1 F1]; inversion H' as [|b1 b2 S2 F2]; subst.
    rewrite Forall_forall in F1, F2.
    assert (E : x = y).
    { assert (Ix : In x (y :: l')) by (apply (Permutation_in x P); left; reflexivity).
      assert (Iy : In y (x :: l)) by (apply (Permutation_in y (Permutation_sym P)); left; reflexivity).
      destruct Ix as [Ix|Ix]; [symmetry; exact Ix|]. destruct Iy as [Iy|Iy]; [exact Iy|].
      apply An; [apply F1; exact Iy|apply F2; exact Ix]. }
    subst y. f_equal. apply IH; auto. apply Permutation_cons_inv in P. exact P.
Qed.

(** A list is determined by its keys and its elements when keys are distinct. *)
Lemma keyed_unique {A B} (k : A -> B) : forall l l', map k l = map k l' -> NoDup (map k l) ->
  Permutation l l' -> l = l'.
Proof.
  induction l as [|x l IH]; intros l' E N P.
  - apply Permutation_nil in P. symmetry. exact P.
  - destruct l' as [|y l']; [discriminate|]. cbn [map] in E, N. injection E as E1 E2.
    inversion N as [|a1 a2 N1 N2]; subst.
    assert (E : x = y).
    { assert (Iy : In y (x :: l)) by (apply (Permutation_in y (Permutation_sym P)); left; reflexivity).
      destruct Iy as [Iy|Iy]; [exact Iy|]. exfalso. apply N1. rewrite E1. apply in_map. exact Iy. }
    subst y. f_equal. apply IH; auto. apply Permutation_cons_inv in P. exact P.
Qed.

Section B.
Context {V : Type}.
Variable ev : evaluator V.

Lemma bound_entries id fv lindef e opts l es : BindLineage ev id fv lindef e opts = Ok l ->
  ev_schemas ev (l_uni l) = Some es ->
  Forall2 (entry_def ev) es (l_sch l) /\ StronglySorted vle (map sd_v (l_sch l)).
Proof.
  intros B Es. pose proof (bind_shape_inv ev _ _ _ _ _ _ B) as A.
  destruct (bind_schemas_rule ev id fv lindef e opts _ _ es A Es) as [R _].
  destruct (R l B) as [_ F]. split; [exact F|].
  assert (Bd : bound ev l) by (exists id, fv, lindef, e, opts; exact B).
  apply bound_wf in Bd as W. destruct W as [W1 [W2 _]]. rewrite <- W1. exact W2.
Qed.

Lemma forall2_versions es sl : Forall2 (entry_def ev) es sl -> map entry_v es = map Some (map sd_v sl).
Proof. intros F. induction F as [|x y es sl [D _] F IH]; cbn; congruence. Qed.

Lemma map_some_inj {A} (l l' : list A) : map Some l = map Some l' -> l = l'.
Proof. revert l'. induction l as [|x l IH]; intros [|y l'] E; cbn in E; try discriminate; [reflexivity|]. injection E as -> E. f_equal. auto. Qed.

(** Two lineages that declare the same schemas, in whatever order, and are both
    accepted: the order of versions is the same, and when no version is declared
    twice the lists are the same. *)
Lemma one_schema_order id fv lindef e opts l es id' fv' lindef' e' opts' l' es' :
  BindLineage ev id fv lindef e opts = Ok l -> BindLineage ev id' fv' lindef' e' opts' = Ok l' ->
  ev_schemas ev (l_uni l) = Some es -> ev_schemas ev (l_uni l') = Some es' -> Permutation es es' ->
  map s_v (all_schemas l) = map s_v (all_schemas l') /\
  (NoDup (map s_v (all_schemas l)) -> es = es').
Proof.
  intros B B' Es Es' P.
  assert (W : wf l) by (apply (bound_wf ev); exists id, fv, lindef, e, opts; exact B).
  assert (W' : wf l') by (apply (bound_wf ev); exists id', fv', lindef', e', opts'; exact B').
  destruct (bound_entries _ _ _ _ _ _ _ B Es) as [F S1].
  destruct (bound_entries _ _ _ _ _ _ _ B' Es') as [F' S2].
  apply forall2_versions in F. apply forall2_versions in F'.
  rewrite !all_schemas_versions by assumption. destruct W as [-> _]. destruct W' as [-> _].
  assert (E : map sd_v (l_sch l) = map sd_v (l_sch l')).
  { apply (sorted_unique vle); auto; [apply vle_antisym|].
    assert (Q : Permutation (map Some (map sd_v (l_sch l))) (map Some (map sd_v (l_sch l'))))
      by (rewrite <- F, <- F'; apply Permutation_map; exact P).
    clear - Q. apply (Permutation_map (fun o => match o with Some v => v | None => (0, 0)%N end)) in Q.
    rewrite !(map_map Some) in Q. rewrite !map_id in Q. exact Q. }
  split; [exact E|]. intros N. apply (keyed_unique entry_v); auto; [congruence|].
  rewrite F. clear - N. induction N as [|x xs Nx N IH]; cbn; constructor; auto.
  intros K. apply in_map_iff in K as [y [K1 K2]]. injection K1 as ->. contradiction.
Qed.

Lemma lens_order_antisym a b : lens_order a b -> lens_order b a -> a = b.
Proof.
  destruct a as [a1 a2], b as [b1 b2]. unfold lens_order. cbn [fst snd].
  intros [H|[H1 H2]] [K|[K1 K2]].
  - exfalso. exact (vlt_irrefl _ (vlt_trans _ _ _ H K)).
  - subst. exfalso. exact (vlt_irrefl _ H).
  - subst. exfalso. exact (vlt_irrefl _ K).
  - subst. f_equal. apply vle_antisym; assumption.
Qed.

(** The same for CUE lenses. *)
Lemma one_lens_order id fv lindef e opts l id' fv' lindef' e' opts' l' :
  BindLineage ev id fv lindef e opts = Ok l -> BindLineage ev id' fv' lindef' e' opts' = Ok l' ->
  flat_map lenses_of opts = [] -> flat_map lenses_of opts' = [] ->
  Permutation (l_lenses l) (l_lenses l') ->
  map (fun x => (cl_to x, cl_from x)) (l_lenses l) = map (fun x => (cl_to x, cl_from x)) (l_lenses l') /\
  (NoDup (map (fun x => (cl_to x, cl_from x)) (l_lenses l)) -> l_lenses l = l_lenses l').
Proof.
  intros B B' G G' P.
  assert (K : forall id fv lindef e opts l, BindLineage ev id fv lindef e opts = Ok l ->
    flat_map lenses_of opts = [] -> cue_lenses_ok (l_lenses l)).
  { clear. intros id fv lindef e opts l B G. pose proof (bind_inv ev _ _ _ _ _ _ B) as Q. cbv zeta in Q.
    destruct Q as [es [lm [_ [_ [_ [_ [_ [_ [Q1 [_ [Q2 _]]]]]]]]]]].
    rewrite Q2. unfold checkLensesOrder in Q1. rewrite make_cfg_spec in Q1. cbn [implenses] in Q1. rewrite G in Q1.
    destruct (ev_lenses ev (l_uni l)) as [ls|]; [|exists []; split; [reflexivity|constructor]].
    apply bind_ok in Q1 as [[] [Q1 _]]. apply (proj1 (check_cue_lenses_ok ls None)) in Q1. exact Q1. }
  destruct (K _ _ _ _ _ _ B G) as [tf [T1 T2]]. destruct (K _ _ _ _ _ _ B' G') as [tf' [T1' T2']].
  assert (E : tf = tf').
  { apply (sorted_unique lens_order); auto; [apply lens_order_antisym|].
    assert (Q : Permutation (map (fun p : version * version => (Some (fst p), Some (snd p))) tf)
                            (map (fun p : version * version => (Some (fst p), Some (snd p))) tf'))
      by (rewrite <- T1, <- T1'; apply Permutation_map; exact P).
    apply (Permutation_map (fun o : option version * option version =>
      match o with (Some a, Some b) => (a, b) | _ => ((0, 0), (0, 0))%N end)) in Q.
    rewrite !map_map in Q. cbn [fst snd] in Q.
    rewrite !(map_ext (fun x : version * version => (fst x, snd x)) (fun x => x)) in Q
      by (intros []; reflexivity). rewrite !map_id in Q. exact Q. }
  subst tf'. split; [congruence|]. intros N. eapply keyed_unique; [|exact N|exact P]. congruence.
Qed.

(** Go lenses may come in any order. *)
Lemma exact_perm vs ls ls' : Permutation ls ls' -> exact_lenses vs ls -> exact_lenses vs ls'.
Proof.
  intros P [N [M X]]. split; [|split].
  - apply (Permutation_NoDup (Permutation_map il_id P) N).
  - intros l H. apply M. apply (Permutation_in l (Permutation_sym P) H).
  - intros i. rewrite <- X. split; intros H.
    + apply (Permutation_in i (Permutation_sym (Permutation_map il_id P)) H).
    + apply (Permutation_in i (Permutation_map il_id P) H).
Qed.

Lemma lens_set id fv lindef e opts opts' raw uni vs :
  schemas_accepted ev fv lindef e opts raw uni vs ->
  StronglySorted vlt vs -> nth_error vs 0 = Some synv0 ->
  existsb is_skip opts = existsb is_skip opts' ->
  flat_map lenses_of opts <> [] -> Permutation (flat_map lenses_of opts) (flat_map lenses_of opts') ->
  match BindLineage ev id fv lindef e opts, BindLineage ev id fv lindef e opts' with
  | Ok l, Ok l' =>
      (forall i, lens_lookup (l_lensmap l) i = lens_lookup (l_lensmap l') i) /\
      l' = mkLin (l_id l) (l_name l) (l_raw l) (l_uni l) (l_sch l) (l_allv l) (l_lenses l) (l_lensmap l')
  | Err x, Err x' => e_marks x = e_marks x'
  | _, _ => False
  end.
Proof.
  intros A St Z Sk Hne P.
  assert (A' : schemas_accepted ev fv lindef e opts' raw uni vs).
  { destruct A as [A1 [es [A2 [A3 A4]]]]. split; [exact A1|]. exists es. rewrite <- Sk. auto. }
  assert (Hne' : flat_map lenses_of opts' <> []).
  { intros K. rewrite K in P. apply Permutation_sym, Permutation_nil in P. contradiction. }
  destruct (bind_go_lenses ev id fv lindef e opts raw uni vs _ A St Z eq_refl Hne) as [H1 H2].
  destruct (bind_go_lenses ev id fv lindef e opts' raw uni vs _ A' St Z eq_refl Hne') as [H1' H2'].
  destruct (bind_lenses ev id fv lindef e opts raw uni vs A) as [sl [Hs E]].
  destruct (bind_lenses ev id fv lindef e opts' raw uni vs A') as [sl' [Hs' E']].
  assert (Esl : forall l l', BindLineage ev id fv lindef e opts = Ok l ->
    BindLineage ev id fv lindef e opts' = Ok l' -> l_sch l = l_sch l').
  { clear - Sk A. intros l l' B B'. pose proof (bind_inv ev _ _ _ _ _ _ B) as Q.
    pose proof (bind_inv ev _ _ _ _ _ _ B') as Q'. cbv zeta in Q, Q'.
    destruct Q as [es [lm [Q1 [Q2 [_ [Q3 _]]]]]]. destruct Q' as [es' [lm' [Q1' [Q2' [_ [Q3' _]]]]]].
    rewrite Q1 in Q1'. injection Q1' as R U. rewrite <- U in Q2'. rewrite Q2 in Q2'. injection Q2' as <-.
    assert (C : forall cfg cfg' : bindConfig, skipbuggychecks cfg = skipbuggychecks cfg' ->
      forall es p, check_schemas ev cfg p es = check_schemas ev cfg' p es).
    { intros c c' Hc es0. induction es0 as [|x es0 IH]; intros p; [reflexivity|]. cbn [check_schemas].
      replace (check_one ev c p x) with (check_one ev c' p x) by (unfold check_one; rewrite Hc; reflexivity).
      destruct (check_one ev c' p x); cbn [bind]; auto. rewrite IH. reflexivity. }
    rewrite (C (make_cfg fv opts) (make_cfg fv opts')) in Q3 by (rewrite !make_cfg_spec, Sk; reflexivity). congruence. }
  destruct (BindLineage ev id fv lindef e opts) as [l|x| |] eqn:B;
    destruct (BindLineage ev id fv lindef e opts') as [l'|x'| |] eqn:B'; cbn [go_lens_spec] in H1, H1'; auto.
  - specialize (Esl l l' eq_refl eq_refl). split.
    + intros i. destruct H1 as [_ H1], H1' as [_ H1'].
      destruct (lens_lookup (l_lensmap l) i) as [a|] eqn:L.
      * symmetry. apply H1'. apply H1 in L as [L1 L2]. split; [apply (Permutation_in a P L1)|exact L2].
      * destruct (lens_lookup (l_lensmap l') i) as [a|] eqn:L'; [|reflexivity].
        exfalso. apply H1' in L' as [L1 L2].
        assert (K : lens_lookup (l_lensmap l) i = Some a)
          by (apply H1; split; [apply (Permutation_in a (Permutation_sym P) L1)|exact L2]).
        congruence.
    + symmetry in E, E'. apply bind_ok in E as [lm [_ E]]. apply bind_ok in E' as [lm' [_ E']].
      injection E as <-. injection E' as <-. cbn in Esl |- *. subst. reflexivity.
  - exfalso. destruct H1 as [X _]. apply (exact_perm _ _ _ P) in X. destruct (H2' X) as [y Hy]. discriminate.
  - exfalso. destruct H1' as [X _]. apply (exact_perm _ _ _ (Permutation_sym P)) in X. destruct (H2 X) as [y Hy]. discriminate.
  - assert (Pi := Permutation_map il_id P).
    assert (In1 : forall i, In i (map il_id (flat_map lenses_of opts)) <-> In i (map il_id (flat_map lenses_of opts')))
      by (intros i; split; [apply (Permutation_in i Pi)|apply (Permutation_in i (Permutation_sym Pi))]).
    assert (In2 : forall i, In i (flat_map lenses_of opts) <-> In i (flat_map lenses_of opts'))
      by (intros i; split; [apply (Permutation_in i P)|apply (Permutation_in i (Permutation_sym P))]).
    assert (Nd : NoDup (map il_id (flat_map lenses_of opts)) <-> NoDup (map il_id (flat_map lenses_of opts')))
      by (split; [apply (Permutation_NoDup Pi)|apply (Permutation_NoDup (Permutation_sym Pi))]).
    destruct H1 as [[C1 M1]|[[C1 [C2 [C3 [M1 _]]]]|[C1 [C2 [C3 [C4 [M1 _]]]]]]];
      destruct H1' as [[D1 N1]|[[D1 [D2 [D3 [N1 _]]]]|[D1 [D2 [D3 [D4 [N1 _]]]]]]]; rewrite M1, N1; auto; exfalso.
    + destruct C1 as [C1|[y [Y1 Y2]]]; [tauto|]. apply In2 in Y1. exact (D2 y Y1 Y2).
    + destruct C1 as [C1|[y [Y1 Y2]]]; [tauto|]. apply In2 in Y1. exact (D2 y Y1 Y2).
    + destruct D1 as [D1|[y [Y1 Y2]]]; [tauto|]. apply In2 in Y1. exact (C2 y Y1 Y2).
    + destruct C3 as [i [I1 I2]]. apply I2, In1. apply D3. exact I1.
    + destruct D1 as [D1|[y [Y1 Y2]]]; [tauto|]. apply In2 in Y1. exact (C2 y Y1 Y2).
    + destruct D3 as [i [I1 I2]]. apply I2, In1. apply C3. exact I1.
Qed.
End B.

(** *** Both documented liberties are refused *)

Definition up : version * version * list (N * N) := ((0, 0), (1, 0), [(2, 1)])%N.
Definition down : version * version * list (N * N) := ((1, 0), (0, 0), [(1, 2)])%N.

Lemma order_required :
  exists (V : Type) (ev : evaluator V) lindef e1 e2 e3 l es es2 ls ls3,
    BindLineage ev 0 false lindef (Atom e1) [] = Ok l /\
    ev_schemas ev e1 = Some es /\ ev_schemas ev e2 = Some es2 /\ Permutation es es2 /\
    ev_lenses ev e2 = ev_lenses ev e1 /\
    ev_schemas ev e3 = Some es /\ ev_lenses ev e1 = Some ls /\ ev_lenses ev e3 = Some ls3 /\ Permutation ls ls3 /\
    BindLineage ev 0 false lindef (Atom e2) [] = Err (mkErr [ErrInvalidSchemasOrder] (order_text (0, 0) (1, 0))%N) /\
    BindLineage ev 0 false lindef (Atom e3) [] = Err (mkErr [ErrInvalidLensesOrder] (lens_order_text ((0, 0), (1, 0)) ((1, 0), (0, 0)))%N).
Proof.
  exists tv, toy, TLinDef, (tlin [(0, 0, [1]); (1, 0, [2])]%N [up; down]),
    (tlin [(1, 0, [2]); (0, 0, [1])]%N [up; down]), (tlin [(0, 0, [1]); (1, 0, [2])]%N [down; up]).
  do 5 eexists. split; [vm_compute; reflexivity|]. split; [vm_compute; reflexivity|].
  split; [vm_compute; reflexivity|]. split; [apply perm_swap|]. split; [reflexivity|].
  split; [vm_compute; reflexivity|]. split; [vm_compute; reflexivity|].
  split; [vm_compute; reflexivity|]. split; [apply perm_swap|]. split; vm_compute; reflexivity.
Qed.

Lemma ss4_accepted :
  schemas_accepted toy false TLinDef (Atom (tlin ss4 [])) [OImperativeLenses exact4]
    (tlin ss4 []) (tlin ss4 []) [(0, 0); (0, 1); (1, 0); (2, 0)]%N.
Proof.
  split; [repeat split|].
  eexists. split; [vm_compute; reflexivity|]. split; [|vm_compute; reflexivity].
  apply (proj1 (check_schemas_rule toy (mkCfg false []) _)). eexists. vm_compute. reflexivity.
Qed.
