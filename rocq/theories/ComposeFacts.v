(** Translating in two hops: closing lemmas for C103. *)
From Verif Require Import Prelude Version VersionProofs Search SearchProofs
  ValidateErr Native Split Lineage LineageProofs WalkProofs GoLensProofs BindFacts WalkFacts
  NativeProofs Translate TranslateGoProofs TranslateCueProofs TranslateFacts Toy.
From Coq Require Import Sorting.Sorted Arith ZifyBool ZifyN ZifyNat.
Local Open Scope string_scope.
Local Open Scope list_scope.

(** Position [m] is on the way from [k] to [n]. *)
Definition between (k m n : nat) : Prop := k <= m <= n \/ n <= m <= k.

Section T.
Context {V : Type}.
Variable ev : evaluator V.
Variable rm : N -> instance V -> schema V -> outcome (option (instance V)).

(** *** Go lenses *)
Lemma go_compose l ls m n :
  (forall k i r, go_trans rm l ls m k i r -> between k m n ->
     match r with
     | Ok y => forall r', go_trans rm l ls n m y r' -> go_trans rm l ls n k i r'
     | _ => go_trans rm l ls n k i r
     end) /\
  (forall k s s' o r, lens_run rm l ls m k s s' o r -> between k m n ->
     match r with
     | Ok y => forall r', go_trans rm l ls n m y r' -> lens_run rm l ls n k s s' o r'
     | _ => lens_run rm l ls n k s s' o r
     end).
Proof.
  apply go_lens_ind.
  - intros i _ r' H. exact H.
  - intros k i s s' r Hk H1 H2 Hm _ IH B.
    assert (B' : between (S k) m n) by (unfold between in *; lia). specialize (IH B').
    destruct r as [y|e| |].
    1: intros r' H; specialize (IH _ H).
    all: apply gt_minor with (s := s) (s' := s'); auto; unfold between in B; lia.
  - intros k i s s' il mp r Hk H1 H2 Hm H3 H4 H5 H6 _ IH B.
    assert (T : toward k n = toward k m)
      by (unfold toward, between in *; destruct (Nat.ltb_spec n k), (Nat.ltb_spec m k); lia).
    assert (B' : between (toward k m) m n)
      by (unfold toward, between in *; destruct (Nat.ltb_spec m k); lia).
    specialize (IH B').
    assert (Hm' : n < k \/ fst (s_v s) <> fst (s_v s')) by (unfold between in B; destruct Hm; [left; lia|right; assumption]).
    assert (Hk' : k <> n) by (unfold between in B; lia).
    destruct r as [y|e| |].
    1: intros r' H; specialize (IH _ H).
    all: eapply gt_lens with (s := s) (s' := s') (il := il) (mp := mp); auto; rewrite T; assumption.
  - intros k s s' x r Hv Hs _ IH B. specialize (IH B). destruct r as [y|e| |].
    1: intros r' H. all: apply lr_ok; auto.
  - intros k s s' x Hv Hs _. apply lr_wrong; auto.
  - intros k s s' _. apply lr_nil.
  - intros k s s' e _. apply lr_err.
Qed.

Lemma go_two_hops id fv lindef e opts l :
  BindLineage ev id fv lindef e opts = Ok l -> strict_from_zero l ->
  flat_map lenses_of opts <> [] -> well_behaved rm l ->
  forall i k m n b t fuel,
    i_valid i = true -> nth_error (all_schemas l) k = Some (i_sch i) ->
    nth_error (all_schemas l) m = Some b -> nth_error (all_schemas l) n = Some t ->
    between k m n -> length (all_schemas l) < fuel ->
    translate ev rm fuel i (s_v t) =
      match translate ev rm fuel i (s_v b) with
      | Ok (y, _) => translate ev rm fuel y (s_v t)
      | o => o
      end.
Proof.
  intros B SZ Hne WB i k m n b t fuel Hv Hk Hm Hn Bt Hf.
  destruct (go_translation ev rm _ _ _ _ _ _ B SZ Hne WB i k m b fuel Hv Hk Hm Hf) as [r1 [G1 [_ C1]]].
  destruct (go_translation ev rm _ _ _ _ _ _ B SZ Hne WB i k n t fuel Hv Hk Hn Hf) as [r [G [U C]]].
  pose proof (proj1 (go_compose l _ m n) _ _ _ G1 Bt) as P.
  destruct C1 as [[y [-> [E1 [Hy Vy]]]]|[x [-> E1]]]; rewrite E1; cbv iota beta in P |- *.
  - subst b. destruct (go_translation ev rm _ _ _ _ _ _ B SZ Hne WB y m n t fuel Vy Hm Hn Hf) as [r2 [G2 [_ C2]]].
    specialize (P _ G2). apply U in P. subst r2.
    destruct C as [[z [-> [E _]]]|[x [-> E]]], C2 as [[z2 [Q [E2 _]]]|[x2 [Q E2]]]; congruence.
  - apply U in P. subst r. destruct C as [[z [Q _]]|[z [Q E]]]; congruence.
Qed.

(** *** CUE lenses *)
Lemma cue_compose l m n :
  (forall k d o, cue_trans ev l m k d o -> between k m n ->
     match o with
     | Some y => forall o', cue_trans ev l n m y o' -> cue_trans ev l n k d o'
     | None => cue_trans ev l n k d None
     end) /\
  (forall k d o, advance ev l m k d o -> between k m n ->
     match o with
     | Some y => forall o', cue_trans ev l n m y o' -> advance ev l n k d o'
     | None => advance ev l n k d None
     end).
Proof.
  apply cue_adv_ind.
  - intros d _ o' H. exact H.
  - intros k d s s' o Hk H1 H2 Hm _ IH B.
    assert (B' : between (S k) m n) by (unfold between in *; lia). specialize (IH B').
    destruct o as [y|].
    1: intros o' H; specialize (IH _ H).
    all: apply ct_minor with (s := s) (s' := s'); auto; unfold between in B; lia.
  - intros k d s s' c o Hk H1 H2 Hm H3 H4 H5 HL _ IH B.
    assert (T : toward k n = toward k m)
      by (unfold toward, between in *; destruct (Nat.ltb_spec n k), (Nat.ltb_spec m k); lia).
    assert (B' : between (toward k m) m n)
      by (unfold toward, between in *; destruct (Nat.ltb_spec m k); lia).
    specialize (IH B').
    assert (Hm' : n < k \/ fst (s_v s) <> fst (s_v s')) by (unfold between in B; destruct Hm; [left; lia|right; assumption]).
    assert (Hk' : k <> n) by (unfold between in B; lia).
    destruct o as [y|].
    1: intros o' H; specialize (IH _ H).
    all: eapply ct_lens with (s := s) (s' := s') (c := c); auto; rewrite T; assumption.
  - intros k d s s' c Hk H1 H2 Hm H3 H4 H5 HL B.
    assert (T : toward k n = toward k m)
      by (unfold toward, between in *; destruct (Nat.ltb_spec n k), (Nat.ltb_spec m k); lia).
    assert (Hm' : n < k \/ fst (s_v s) <> fst (s_v s')) by (unfold between in B; destruct Hm; [left; lia|right; assumption]).
    assert (Hk' : k <> n) by (unfold between in B; lia).
    eapply ct_lacuna with (s := s) (s' := s') (c := c); auto; rewrite T; assumption.
  - intros k d Hb _. apply adv_err. exact Hb.
  - intros k d o Hb _ IH B. specialize (IH B). destruct o as [y|].
    1: intros o' H. all: apply adv_ok; auto.
Qed.

(** A lens that emits a lacuna on the way ends every translation through it. *)
Lemma cue_emitted l :
  bound ev l -> l_lensmap l = [] -> dense (map s_v (all_schemas l)) -> exact_cue_lenses l ->
  forall i k m n b b' c d t fuel,
    i_valid i = true -> ev_struct ev (i_raw i) = true ->
    nth_error (all_schemas l) k = Some (i_sch i) -> nth_error (all_schemas l) m = Some b ->
    nth_error (all_schemas l) n = Some t -> between k m n -> m <> n ->
    (fst (s_v (i_sch i)) <= 2)%N -> (fst (s_v t) <= 2)%N ->
    cue_trans ev l m k (i_raw i) (Some d) ->
    nth_error (all_schemas l) (toward m n) = Some b' -> (n < m \/ fst (s_v b) <> fst (s_v b')) ->
    In c (l_lenses l) -> cl_from c = Some (s_v b) -> cl_to c = Some (s_v b') -> ev_lacunas ev (cl_val c) d <> [] ->
    translate ev rm (S fuel) i (s_v t) = Err (mkErr [ErrInvalidLens] "").
Proof.
  intros B LM D X i k m n b b' c d t fuel Hv Hst Hk Hm Hn Bt Nm M1 M2 T Hb' Mj Hc Hf Ht HL.
  destruct (translate_cue ev rm l B LM D X i k n t fuel Hv Hst Hk Hn (or_intror (conj M1 M2))) as [o [_ [U E]]].
  assert (K : cue_trans ev l n m d None) by (eapply ct_lacuna with (s := b) (s' := b') (c := c); eassumption).
  pose proof (proj1 (cue_compose l m n) k _ _ T Bt None K) as R. apply U in R. subst o. exact E.
Qed.

Lemma cue_two_hops l :
  bound ev l -> l_lensmap l = [] -> dense (map s_v (all_schemas l)) ->
  exact_cue_lenses l ->
  forall i k m n b t fuel,
    i_valid i = true -> ev_struct ev (i_raw i) = true ->
    nth_error (all_schemas l) k = Some (i_sch i) ->
    nth_error (all_schemas l) m = Some b -> nth_error (all_schemas l) n = Some t -> between k m n ->
    (fst (s_v (i_sch i)) <= 2)%N -> (fst (s_v t) <= 2)%N ->
    (cue_trans ev l m k (i_raw i) None ->
       translate ev rm (S fuel) i (s_v b) = Err (mkErr [ErrInvalidLens] "") /\
       translate ev rm (S fuel) i (s_v t) = Err (mkErr [ErrInvalidLens] "")) /\
    (forall y, translate ev rm (S fuel) i (s_v b) = Ok (y, []) -> ev_struct ev (i_raw y) = true ->
       cue_trans ev l m k (i_raw i) (Some (i_raw y)) ->
       translate ev rm (S fuel) i (s_v t) = translate ev rm (S fuel) y (s_v t)).
Proof.
  intros B LM D X i k m n b t fuel Hv Hst Hk Hm Hn Bt Mi Mt.
  assert (Mb : (fst (s_v b) <= 2)%N).
  { unfold between in Bt. destruct (Nat.le_gt_cases m k) as [L|L].
    - pose proof (vs_major l D m k b (i_sch i) L Hm Hk). lia.
    - pose proof (vs_major l D m n b t ltac:(lia) Hm Hn). lia. }
  destruct (translate_cue ev rm l B LM D X i k m b fuel Hv Hst Hk Hm (or_intror (conj Mi Mb))) as [o1 [G1 [U1 E1]]].
  destruct (translate_cue ev rm l B LM D X i k n t fuel Hv Hst Hk Hn (or_intror (conj Mi Mt))) as [o [G [U E]]].
  split.
  - intros N. pose proof (proj1 (cue_compose l m n) _ _ _ N Bt) as P. cbv iota in P.
    apply U in P. apply U1 in N. subst o o1. split; assumption.
  - intros y Ey Sy C. pose proof (proj1 (cue_compose l m n) _ _ _ C Bt) as P. cbv iota in P.
    assert (Hin : In (i_sch i) (all_schemas l)) by (apply nth_error_In in Hk; exact Hk).
    destruct (cue_result_valid ev rm l i (s_v b) fuel y [] B LM Hv Hin Ey) as [Vy [Iy [Sv _]]].
    apply In_nth_error in Iy as [m' Hm'].
    pose proof (bound_wf ev l B) as W.
    assert (St : strict_vs (l_allv l)).
    { rewrite <- (all_schemas_versions l W). apply dense_strict. exact D. }
    assert (m' = m) by exact (strict_idx l m' m _ _ W St Hm' Hm Sv). subst m'.
    assert (My : (fst (s_v (i_sch y)) <= 2)%N) by (rewrite Sv; exact Mb).
    destruct (translate_cue ev rm l B LM D X y m n t fuel Vy Sy Hm' Hn (or_intror (conj My Mt))) as [o2 [G2 [_ E2]]].
    apply P, U in G2. subst o2. congruence.
Qed.
End T.

(** *** Witnesses *)

(** 50 stands for a value with the default 51. *)
Definition toy_d : evaluator tv := {|
  ev_unify := ev_unify toy; ev_embed := ev_embed toy; ev_subsumes := ev_subsumes toy;
  ev_subsumes_raw := ev_subsumes_raw toy; ev_validate := ev_validate toy; ev_schdef := ev_schdef toy;
  ev_sch := ev_sch toy; ev_exists := ev_exists toy; ev_path := ev_path toy; ev_refpath := ev_refpath toy;
  ev_field := ev_field toy; ev_name := ev_name toy; ev_final := ev_final toy; ev_valid := ev_valid toy;
  ev_schemas := ev_schemas toy; ev_lenses := ev_lenses toy; ev_lens_result := ev_lens_result toy;
  ev_lacunas := ev_lacunas toy; ev_bottom := ev_bottom toy;
  ev_default := fun a => match a with TDat n => if N.eqb n 50 then TDat 51 else a | _ => a end;
  ev_json_ok := ev_json_ok toy; ev_struct := ev_struct toy
|}.

(** Three majors; what the schemas accept and what the lenses up do. *)
Definition three (a b c : list N) (up1 up2 : list (N * N)) : tv :=
  tlin [(0, 0, a); (1, 0, b); (2, 0, c)]%N
    [((0, 0), (1, 0), [(1, 1)]); ((1, 0), (0, 0), up1); ((1, 0), (2, 0), [(1, 1)]); ((2, 0), (1, 0), up2)]%N.

Lemma dense_three : dense [(0, 0); (1, 0); (2, 0)]%N.
Proof.
  split; [reflexivity|]. intros a b [i [H1 H2]].
  destruct i as [|[|[|i]]]; cbn in H1, H2; try discriminate; injection H1 as <-; injection H2 as <-; cbn; auto.
Qed.

Lemma entailed_three f t :
  In (Some f, Some t) [(Some (1, 0), Some (0, 0)); (Some (0, 0), Some (1, 0)); (Some (2, 0), Some (1, 0));
                       (Some (1, 0), Some (2, 0))]%N <->
  entailed [(0, 0); (1, 0); (2, 0)]%N (f, t).
Proof.
  split.
  - intros [K|[K|[K|[K|[]]]]]; injection K as <- <-.
    1,2: exists 0, (0, 0)%N, (1, 0)%N. 3,4: exists 1, (1, 0)%N, (2, 0)%N.
    all: repeat split; auto; try (right; split; [reflexivity|discriminate]).
  - intros [i [a [b [H1 [H2 H3]]]]]. destruct i as [|[|[|i]]]; cbn in H1, H2; try discriminate;
      injection H1 as <-; injection H2 as <-;
      destruct H3 as [K|[K M]]; injection K as -> ->; cbn; auto 8.
Qed.

(** A lens makes a value that is not concrete, which the next lens does not need. *)
Lemma hop_fails :
  exists (V : Type) (ev : evaluator V) l i b t x e,
    bound ev l /\ l_lensmap l = [] /\ dense (map s_v (all_schemas l)) /\ exact_cue_lenses l /\
    nth_error (all_schemas l) 0 = Some (i_sch i) /\ nth_error (all_schemas l) 1 = Some b /\
    nth_error (all_schemas l) 2 = Some t /\ validate ev (i_sch i) (i_raw i) = Ok i /\
    forall rm fuel,
      translate ev rm (S fuel) i (s_v t) = Ok (x, []) /\
      translate ev rm (S fuel) i (s_v b) = Err e /\ e_marks e = [ErrLensIncomplete].
Proof.
  destruct (tbind (three [1; 9] [1; 100] [1] [(1, 100)] [(100, 1)])%N []) as [l|e| |] eqn:E;
    try (vm_compute in E; discriminate).
  exists tv, toy, l. pose proof (tbind_bound _ _ _ E) as B.
  destruct (nth_error (all_schemas l) 0) as [s0|] eqn:E0; [|vm_compute in E; injection E as <-; discriminate].
  destruct (nth_error (all_schemas l) 1) as [s1|] eqn:E1; [|vm_compute in E; injection E as <-; discriminate].
  destruct (nth_error (all_schemas l) 2) as [s2|] eqn:E2; [|vm_compute in E; injection E as <-; discriminate].
  exists (mkInst (TDat 1) "" s0 true), s1, s2. do 2 eexists. split; [exact B|].
  vm_compute in E. injection E as <-. cbn in E0, E1, E2. injection E0 as <-. injection E1 as <-. injection E2 as <-.
  split; [reflexivity|]. split; [exact dense_three|]. split.
  { split; [vm_compute; repeat constructor; cbn; intuition congruence|]. intros f t. exact (entailed_three f t). }
  do 4 (split; [reflexivity|]).
  intros rm fuel. split; [vm_compute; reflexivity|]. split; [vm_compute; reflexivity|]. reflexivity.
Qed.

(** The default of what a lens makes is another value. *)
Lemma hop_differs :
  exists (V : Type) (ev : evaluator V) l i b t x y z,
    bound ev l /\ l_lensmap l = [] /\ dense (map s_v (all_schemas l)) /\ exact_cue_lenses l /\
    nth_error (all_schemas l) 0 = Some (i_sch i) /\ nth_error (all_schemas l) 1 = Some b /\
    nth_error (all_schemas l) 2 = Some t /\ validate ev (i_sch i) (i_raw i) = Ok i /\
    i_raw x <> i_raw z /\
    forall rm fuel,
      translate ev rm (S fuel) i (s_v t) = Ok (x, []) /\
      translate ev rm (S fuel) i (s_v b) = Ok (y, []) /\
      translate ev rm (S fuel) y (s_v t) = Ok (z, []).
Proof.
  destruct (BindLineage toy_d 7 false TLinDef (Atom (three [1; 9] [1; 50; 51] [1; 2] [(1, 50)] [(50, 1); (51, 2)])%N) [])
    as [l|e| |] eqn:E; try (vm_compute in E; discriminate).
  exists tv, toy_d, l. pose proof (bind_bound _ _ _ _ _ _ _ E) as B.
  destruct (nth_error (all_schemas l) 0) as [s0|] eqn:E0; [|vm_compute in E; injection E as <-; discriminate].
  destruct (nth_error (all_schemas l) 1) as [s1|] eqn:E1; [|vm_compute in E; injection E as <-; discriminate].
  destruct (nth_error (all_schemas l) 2) as [s2|] eqn:E2; [|vm_compute in E; injection E as <-; discriminate].
  exists (mkInst (TDat 1) "" s0 true), s1, s2.
  exists (mkInst (TDat 1) "" s2 true), (mkInst (TDat 51) "" s1 true), (mkInst (TDat 2) "" s2 true). split; [exact B|].
  vm_compute in E. injection E as <-. cbn in E0, E1, E2. injection E0 as <-. injection E1 as <-. injection E2 as <-.
  split; [reflexivity|]. split; [exact dense_three|]. split.
  { split; [vm_compute; repeat constructor; cbn; intuition congruence|]. intros f t. exact (entailed_three f t). }
  do 4 (split; [reflexivity|]). split; [discriminate|].
  intros rm fuel. split; [vm_compute; reflexivity|]. split; vm_compute; reflexivity.
Qed.
