(** Witnesses for C112 and C113. *)
From Verif Require Import Prelude Version VersionProofs Search SearchProofs
  ValidateErr Native Split Lineage LineageProofs WalkProofs GoLensProofs BindFacts WalkFacts
  NativeProofs Translate TranslateGoProofs TranslateCueProofs TranslateFacts Vmux VmuxProofs Toy GrowthProofs.
From Coq Require Import Sorting.Sorted.
Local Open Scope string_scope.
Local Open Scope list_scope.

(** 0.0 accepts 1; 1.0 accepts 2, 3; later 2.0 accepts 1, 4. *)
Definition short2 : tv := tlin [(0, 0, [1]); (1, 0, [2; 3])]%N
  [((0, 0), (1, 0), [(2, 1); (3, 1)]); ((1, 0), (0, 0), [(1, 2)])]%N.
Definition long3 : tv := tlin [(0, 0, [1]); (1, 0, [2; 3]); (2, 0, [1; 4])]%N
  [((0, 0), (1, 0), [(2, 1); (3, 1)]); ((1, 0), (0, 0), [(1, 2)]);
   ((1, 0), (2, 0), [(1, 3); (4, 3)]); ((2, 0), (1, 0), [(2, 4); (3, 1)])]%N.

Ltac dense_tac :=
  split; [reflexivity|]; intros a b [i [H1 H2]];
  destruct i as [|[|[|[|i]]]]; cbn in H1, H2; try discriminate; injection H1 as <-; injection H2 as <-; cbn; auto.

Lemma short_long :
  exists l l', tbind short2 [] = Ok l /\ tbind long3 [] = Ok l' /\
    bound toy l /\ bound toy l' /\ l_lensmap l = [] /\ l_lensmap l' = [] /\
    dense (map s_v (all_schemas l)) /\ dense (map s_v (all_schemas l')) /\
    exact_cue_lenses l /\ exact_cue_lenses l' /\ grows l l' /\ incl (l_lenses l) (l_lenses l').
Proof.
  destruct (tbind short2 []) as [l|e| |] eqn:E; try (vm_compute in E; discriminate).
  destruct (tbind long3 []) as [l'|e| |] eqn:E'; try (vm_compute in E'; discriminate).
  exists l, l'. pose proof (tbind_bound _ _ _ E) as B. pose proof (tbind_bound _ _ _ E') as B'.
  split; [reflexivity|]. split; [reflexivity|]. split; [exact B|]. split; [exact B'|]. clear B B'.
  vm_compute in E. injection E as <-. vm_compute in E'. injection E' as <-.
  split; [reflexivity|]. split; [reflexivity|]. split; [dense_tac|]. split; [dense_tac|].
  split; [|split; [|split]].
  - split.
    + vm_compute. repeat constructor; cbn; intuition congruence.
    + intros f t. vm_compute lens_ids. split.
      * intros [K|[K|[]]]; injection K as <- <-; exists 0, (0, 0)%N, (1, 0)%N; repeat split; auto;
          try (right; split; [reflexivity|discriminate]).
      * intros [i [a [b [H1 [H2 H3]]]]]. destruct i as [|[|i]]; cbn in H1, H2; try discriminate;
          injection H1 as <-; injection H2 as <-; destruct H3 as [K|[K M]]; injection K as -> ->; cbn; auto 8.
  - split.
    + vm_compute. repeat constructor; cbn; intuition congruence.
    + intros f t. vm_compute lens_ids. split.
      * intros [K|[K|[K|[K|[]]]]]; injection K as <- <-.
        1,2: exists 0, (0, 0)%N, (1, 0)%N; repeat split; auto; try (right; split; [reflexivity|discriminate]).
        1,2: exists 1, (1, 0)%N, (2, 0)%N; repeat split; auto; try (right; split; [reflexivity|discriminate]).
      * intros [i [a [b [H1 [H2 H3]]]]]. destruct i as [|[|[|i]]]; cbn in H1, H2; try discriminate;
          injection H1 as <-; injection H2 as <-; destruct H3 as [K|[K M]]; injection K as -> ->; cbn; auto 8.
  - split; [reflexivity|]. intros k s H. destruct k as [|[|k]]; cbn in H; [| |destruct k; discriminate];
      injection H as <-; eexists; (split; [reflexivity|]); split; reflexivity.
  - intros c [<-|[<-|[]]]; cbn; auto.
Qed.

(** Every valid instance of the longer lineage can be translated to every schema,
    and still the mux for 1.0 gives another answer for 1. *)
Lemma mux_changes :
  exists (V : Type) (ev : evaluator V) (l l' : lineage V) t t' v x x',
    bound ev l /\ bound ev l' /\ l_lensmap l = [] /\ l_lensmap l' = [] /\
    dense (map s_v (all_schemas l)) /\ dense (map s_v (all_schemas l')) /\
    exact_cue_lenses l /\ exact_cue_lenses l' /\ grows l l' /\ incl (l_lenses l) (l_lenses l') /\
    In t (all_schemas l) /\ In t' (all_schemas l') /\ s_v t = s_v t' /\
    (forall rm fuel i u, i_valid i = true -> In (i_sch i) (all_schemas l') -> In u (all_schemas l') ->
       conforms ev (i_sch i) (i_raw i) -> exists r, translate ev rm (S fuel) i (s_v u) = Ok (r, [])) /\
    forall rm fuel, exists mux mux', newUntypedMux ev rm (fun v => Ok v) (S (S (S (S fuel)))) t = Ok mux /\
      newUntypedMux ev rm (fun v => Ok v) (S (S (S (S fuel)))) t' = Ok mux' /\
      mux v = Ok (x, []) /\ mux' v = Ok (x', []) /\ i_raw x <> i_raw x'.
Proof.
  destruct short_long as [l [l' [E [E' [B [B' [L1 [L2 [D1 [D2 [X1 [X2 [G LS]]]]]]]]]]]]].
  assert (E1 := E). assert (E1' := E'). vm_compute in E1, E1'.
  destruct (nth_error (all_schemas l) 1) as [t|] eqn:Ht; [|injection E1 as <-; discriminate].
  destruct (nth_error (all_schemas l') 1) as [t'|] eqn:Ht'; [|injection E1' as <-; discriminate].
  exists tv, toy, l, l', t, t', (TDat 1), (mkInst (TDat 2) "" t true), (mkInst (TDat 3) "" t' true).
  do 10 (split; [assumption|]).
  split; [eapply nth_error_In; exact Ht|]. split; [eapply nth_error_In; exact Ht'|].
  clear B B' L1 L2 D1 D2 X1 X2 G LS E E'. injection E1 as <-. injection E1' as <-.
  cbn in Ht, Ht'. injection Ht as <-. injection Ht' as <-. split; [reflexivity|]. split.
  - intros rm fuel [d nm s vd] u Hv Hs Hu C. cbn in Hv. subst vd. cbn [i_sch i_raw] in *.
    assert (Hd : exists n, d = TDat n).
    { destruct Hs as [<-|[<-|[<-|[]]]]; unfold conforms in C; destruct d; cbn in C; try discriminate; eauto. }
    destruct Hd as [n ->].
    destruct Hs as [<-|[<-|[<-|[]]]]; unfold conforms in C; cbn in C;
      repeat match type of C with context [N.eqb n ?k] => destruct (N.eqb_spec n k); [subst n|] end;
      try discriminate C;
      destruct Hu as [<-|[<-|[<-|[]]]]; eexists; vm_compute; reflexivity.
  - intros rm fuel.
    do 2 eexists. unfold newUntypedMux.
    split; [match goal with |- bind ?x _ = _ => let y := eval lazy in x in change x with y end; cbn [bind]; reflexivity|].
    split; [match goal with |- bind ?x _ = _ => let y := eval lazy in x in change x with y end; cbn [bind]; reflexivity|].
    split; [lazy; reflexivity|]. split; [lazy; reflexivity|]. discriminate.
Qed.

(** With Go lenses. *)
Definition ss5 : list (N * N * list N) := ss4 ++ [(2, 1, [1; 5])]%N.
Definition exact5 : list implens := exact4 ++ [m 2 1 2 0]%N.

Lemma go_short_long :
  exists l l', tbind (tlin ss4 []) [OImperativeLenses exact4] = Ok l /\
    tbind (tlin ss5 []) [OImperativeLenses exact5] = Ok l' /\
    strict_from_zero l /\ strict_from_zero l' /\ well_behaved toy_mapper l /\ well_behaved toy_mapper l' /\
    mappers_alike toy_mapper l l' /\ grows l l' /\ incl exact4 exact5.
Proof.
  destruct (tbind (tlin ss4 []) [OImperativeLenses exact4]) as [l|e| |] eqn:E; try (vm_compute in E; discriminate).
  destruct (tbind (tlin ss5 []) [OImperativeLenses exact5]) as [l'|e| |] eqn:E'; try (vm_compute in E'; discriminate).
  exists l, l'. split; [reflexivity|]. split; [reflexivity|].
  vm_compute in E. injection E as <-. vm_compute in E'. injection E' as <-.
  split; [split; [cbn; solve_sorted|eexists; split; reflexivity]|].
  split; [split; [cbn; solve_sorted|eexists; split; reflexivity]|].
  split; [|split; [|split; [|split]]].
  - intros mp i s Hs. destruct Hs as [<-|[<-|[<-|[<-|[]]]]]; vm_compute; auto 8.
  - intros mp i s Hs. destruct Hs as [<-|[<-|[<-|[<-|[<-|[]]]]]]; vm_compute; auto 8.
  - intros mp i i' s s' _ Hs Hs' [Tv Td].
    destruct Hs as [<-|[<-|[<-|[<-|[]]]]]; destruct Hs' as [<-|[<-|[<-|[<-|[<-|[]]]]]];
      try discriminate Tv; vm_compute; repeat split.
  - split; [reflexivity|]. intros k s H. destruct k as [|[|[|[|k]]]]; cbn in H; [| | | |destruct k; discriminate];
      injection H as <-; eexists; (split; [reflexivity|]); split; reflexivity.
  - intros x Hx. apply in_or_app. left. exact Hx.
Qed.
