(** Translation with Go lenses. *)
From Verif Require Import Prelude Version VersionProofs Search SearchProofs
  ValidateErr Native Split Lineage LineageProofs WalkProofs GoLensProofs BindFacts WalkFacts
  Translate Toy.
From Coq Require Import Sorting.Sorted Arith ZifyBool ZifyN ZifyNat.
Local Open Scope string_scope.
Local Open Scope list_scope.

Section T.
Context {V : Type}.
Variable ev : evaluator V.
Variable rm : N -> instance V -> schema V -> outcome (option (instance V)).

(** *** Specification *)

(** The neighbour of position [k] on the way to [n]. *)
Definition toward (k n : nat) : nat := if Nat.ltb n k then k - 1 else S k.

(** The same data under another schema. *)
Definition relabel (i : instance V) (s : schema V) : instance V :=
  mkInst (i_raw i) (i_name i) s true.

(** Translating [i] from the [k]-th to the [n]-th schema of [l] one neighbour at a
    time, with the lenses [ls]. *)
Inductive go_trans (l : lineage V) (ls : list implens) (n : nat)
  : nat -> instance V -> outcome (instance V) -> Prop :=
| gt_done i : go_trans l ls n n i (Ok i)
| gt_minor k i s s' r :
    k < n -> nth_error (all_schemas l) k = Some s -> nth_error (all_schemas l) (S k) = Some s' ->
    fst (s_v s) = fst (s_v s') ->
    go_trans l ls n (S k) (relabel i s') r -> go_trans l ls n k i r
| gt_lens k i s s' il mp r :
    k <> n -> nth_error (all_schemas l) k = Some s ->
    nth_error (all_schemas l) (toward k n) = Some s' ->
    n < k \/ fst (s_v s) <> fst (s_v s') ->
    In il ls -> il_from il = s_v s -> il_to il = s_v s' -> il_mapper il = Some mp ->
    lens_run l ls n (toward k n) s s' (rm mp i s') r ->
    go_trans l ls n k i r
with lens_run (l : lineage V) (ls : list implens) (n : nat)
  : nat -> schema V -> schema V -> outcome (option (instance V)) -> outcome (instance V) -> Prop :=
| lr_ok k s s' x r :
    i_valid x = true -> s_v (i_sch x) = s_v s' -> go_trans l ls n k x r ->
    lens_run l ls n k s s' (Ok (Some x)) r
| lr_wrong k s s' x :
    i_valid x = true -> s_v (i_sch x) <> s_v s' ->
    lens_run l ls n k s s' (Ok (Some x))
      (Err (mkErr [] ("lens returned an instance of the wrong schema version: expected "
                      ++ vstring (s_v s') ++ ", got " ++ vstring (s_v (i_sch x)))%string))
| lr_nil k s s' : lens_run l ls n k s s' (Ok None) (Err (mkErr [] "lens returned a nil instance"))
| lr_err k s s' e :
    lens_run l ls n k s s' (Err e)
      (Err (mkErr (e_marks e)
         ("error executing " ++ (vstring (s_v s) ++ " -> " ++ vstring (s_v s'))
          ++ " migration: " ++ e_text e)%string)).

Scheme go_trans_ind2 := Minimality for go_trans Sort Prop
with lens_run_ind2 := Minimality for lens_run Sort Prop.
Combined Scheme go_lens_ind from go_trans_ind2, lens_run_ind2.

(** Mappers called for a schema of [l] return, without panicking, an error, nil
    or a valid instance of one of [l]'s own schemas. *)
Definition well_behaved (l : lineage V) : Prop :=
  forall mp i s, In s (all_schemas l) ->
    match rm mp i s with
    | Ok (Some r) => i_valid r = true /\ In (i_sch r) (all_schemas l)
    | Ok None => True
    | Err _ => True
    | _ => False
    end.

(** *** Facts *)
Lemma go_trans_fun l ls n : NoDup (map il_id ls) ->
  (forall k i r, go_trans l ls n k i r -> forall r', go_trans l ls n k i r' -> r' = r) /\
  (forall k s s' o r, lens_run l ls n k s s' o r -> forall r', lens_run l ls n k s s' o r' -> r' = r).
Proof.
  intros ND. apply go_lens_ind.
  - intros i r' H. inversion H; subst; try lia. reflexivity.
  - intros k i s s' r Hk H1 H2 Hm _ IH r' H.
    inversion H as [|? ? t t' ? Kk K1 K2 Km KG|? ? t t' il mp ? Kk K1 K2 Km K3 K4 K5 K6 K7]; subst; try lia.
    + apply IH. congruence.
    + exfalso. unfold toward in K2. destruct (Nat.ltb_spec n k); [lia|].
      destruct Km; [lia|]. congruence.
  - intros k i s s' il mp r Hk H1 H2 Hm H3 H4 H5 H6 _ IH r' H.
    inversion H as [|? ? t t' ? Kk K1 K2 Km KG|? ? t t' il2 mp2 ? Kk K1 K2 Km K3 K4 K5 K6 K7]; subst; try lia.
    + exfalso. unfold toward in H2. destruct (Nat.ltb_spec n k); [lia|].
      destruct Hm; [lia|]. congruence.
    + assert (s = t) by congruence. assert (s' = t') by congruence. subst t t'.
      assert (il2 = il).
      { destruct (proj2 (build_lensmap_in ls (il_id il) il ND) (conj H3 eq_refl)).
        assert (E : il_id il2 = il_id il) by (unfold il_id; congruence).
        pose proof (proj2 (build_lensmap_in ls (il_id il) il ND) (conj H3 eq_refl)).
        pose proof (proj2 (build_lensmap_in ls (il_id il) il2 ND) (conj K3 E)). congruence. }
      subst il2. assert (mp2 = mp) by congruence. subst mp2. apply IH. exact K7.
  - intros k s s' x r Hv Hs _ IH r' H. inversion H; subst; [apply IH; assumption|congruence].
  - intros k s s' x Hv Hs r' H. inversion H; subst; [congruence|reflexivity].
  - intros k s s' r' H. inversion H; reflexivity.
  - intros k s s' e r' H. inversion H; reflexivity.
Qed.

Lemma strict_idx (l : lineage V) j k s t : wf l -> strict_vs (l_allv l) ->
  nth_error (all_schemas l) j = Some s -> nth_error (all_schemas l) k = Some t ->
  s_v s = s_v t -> j = k.
Proof.
  intros W St Hj Hk E. apply all_schemas_at in Hj, Hk.
  pose proof (strict_rank l W St _ _ Hj). pose proof (strict_rank l W St _ _ Hk). congruence.
Qed.

Lemma strict_lt (l : lineage V) j k s t : wf l -> strict_vs (l_allv l) ->
  nth_error (all_schemas l) j = Some s -> nth_error (all_schemas l) k = Some t ->
  (vless (s_v s) (s_v t) = true <-> j < k).
Proof.
  intros W St Hj Hk. apply all_schemas_at in Hj as Aj. apply all_schemas_at in Hk as Ak.
  pose proof (sch_at_v l W _ _ Aj) as Vj. pose proof (sch_at_v l W _ _ Ak) as Vk. split.
  - intros H. apply vless_spec in H. destruct (Nat.lt_ge_cases j k) as [L|L]; [exact L|exfalso].
    pose proof (sorted_nth _ (wf_sorted l W) k j _ _ L Vk Vj) as Q.
    exact (vle_not_vlt _ _ Q H).
  - intros H. apply vless_spec. exact (strict_nth _ St j k _ _ H Vj Vk).
Qed.

(** What binding with Go lenses gives. *)
Lemma bound_go id fv lindef e opts l :
  BindLineage ev id fv lindef e opts = Ok l -> strict_from_zero l ->
  flat_map lenses_of opts <> [] ->
  exact_lenses (map s_v (all_schemas l)) (flat_map lenses_of opts) /\
  l_lensmap l = build_lensmap (flat_map lenses_of opts) /\ l_lensmap l <> [].
Proof.
  intros B SZ Hne. assert (W : wf l) by (apply (bound_wf ev); unfold bound; eauto 6).
  rewrite all_schemas_versions by exact W.
  pose proof (sfz_strict l W SZ) as St. pose proof (sfz_zero l W SZ) as Z.
  apply bind_inv in B. destruct B as [es [lm [_ [_ [_ [_ [_ [_ [HL [<- _]]]]]]]]]].
  unfold checkLensesOrder in HL. rewrite make_cfg_spec in HL. cbn [implenses] in HL.
  destruct (flat_map lenses_of opts) as [|x xs] eqn:E; [congruence|]. rewrite <- E in *. clear E.
  apply (completeness_ok _ _ _ St Z) in HL as [X HL]. split; [exact X|]. split; [exact HL|].
  rewrite HL. intros K.
  destruct (flat_map lenses_of opts) as [|y ys] eqn:E; [congruence|].
  assert (F : lens_lookup (build_lensmap (y :: ys)) (il_id y) = Some y)
    by (apply build_lensmap_in; [apply X|split; [left; reflexivity|reflexivity]]).
  rewrite K in F. discriminate.
Qed.

Lemma bound_cue id fv lindef e opts l :
  BindLineage ev id fv lindef e opts = Ok l -> flat_map lenses_of opts = [] -> l_lensmap l = [].
Proof.
  intros B E. apply bind_inv in B. destruct B as [es [lm [_ [_ [_ [_ [_ [_ [HL [-> _]]]]]]]]]].
  unfold checkLensesOrder in HL. rewrite make_cfg_spec in HL. cbn [implenses] in HL. rewrite E in HL.
  destruct (ev_lenses ev (l_uni l)); [|congruence]. inv_bind HL. congruence.
Qed.

Section L.
Variables (l : lineage V) (ls : list implens).
Hypothesis B : bound ev l.
Hypothesis SZ : strict_from_zero l.
Hypothesis X : exact_lenses (map s_v (all_schemas l)) ls.
Hypothesis LM : l_lensmap l = build_lensmap ls.

Let W : wf l := bound_wf ev l B.
Let St : strict_vs (l_allv l) := sfz_strict l W SZ.

Lemma entailed_back k s s' :
  nth_error (all_schemas l) k = Some s' -> nth_error (all_schemas l) (S k) = Some s ->
  exists il mp, In il ls /\ il_from il = s_v s /\ il_to il = s_v s' /\ il_mapper il = Some mp /\
    lens_lookup (l_lensmap l) (lid (s_v s) (s_v s')) = Some il.
Proof.
  intros H1 H2. destruct X as [ND [NN XX]].
  assert (E : entailed (map s_v (all_schemas l)) (lid (s_v s) (s_v s'))).
  { exists k, (s_v s'), (s_v s). rewrite !nth_error_map, H1, H2. repeat split; auto. }
  apply XX in E. apply in_map_iff in E as [il [E1 E2]]. exists il.
  destruct (il_mapper il) as [mp|] eqn:M; [|exfalso; exact (NN il E2 M)]. exists mp.
  split; [exact E2|]. unfold il_id, lid in E1. injection E1 as E3 E4. repeat split; auto.
  rewrite LM. apply build_lensmap_in; [exact ND|]. split; [exact E2|]. unfold il_id, lid. congruence.
Qed.

Lemma entailed_fwd k s s' :
  nth_error (all_schemas l) k = Some s -> nth_error (all_schemas l) (S k) = Some s' ->
  fst (s_v s) <> fst (s_v s') ->
  exists il mp, In il ls /\ il_from il = s_v s /\ il_to il = s_v s' /\ il_mapper il = Some mp /\
    lens_lookup (l_lensmap l) (lid (s_v s) (s_v s')) = Some il.
Proof.
  intros H1 H2 Hm. destruct X as [ND [NN XX]].
  assert (E : entailed (map s_v (all_schemas l)) (lid (s_v s) (s_v s'))).
  { exists k, (s_v s), (s_v s'). rewrite !nth_error_map, H1, H2. repeat split; auto. }
  apply XX in E. apply in_map_iff in E as [il [E1 E2]]. exists il.
  destruct (il_mapper il) as [mp|] eqn:M; [|exfalso; exact (NN il E2 M)]. exists mp.
  split; [exact E2|]. unfold il_id, lid in E1. injection E1 as E3 E4. repeat split; auto.
  rewrite LM. apply build_lensmap_in; [exact ND|]. split; [exact E2|]. unfold il_id, lid. congruence.
Qed.

Definition lift (r : outcome (instance V)) : outcome (instance V * list N) :=
  x <- r ;; Ok (x, []).

Definition settled (t : schema V) (r : outcome (instance V)) : Prop :=
  match r with
  | Ok x => i_sch x = t /\ i_valid x = true
  | Err _ => True
  | _ => False
  end.

Lemma go_loop_spec (WB : well_behaved l) tr from n t :
  nth_error (all_schemas l) n = Some t ->
  forall d k sch ti fuel,
  (if vless (s_v t) from then k = n + d else n = k + d) ->
  nth_error (all_schemas l) k = Some sch -> i_sch ti = sch -> i_valid ti = true -> d <= fuel ->
  exists r, go_loop rm tr (l_lensmap l) from (s_v t) fuel sch ti = lift r /\
    go_trans l ls n k ti r /\ settled t r.
Proof.
  intros Ht. induction d as [|d IH]; intros k sch ti fuel Hd Hk Hs Hv Hf.
  - assert (k = n) by (destruct (vless (s_v t) from); lia). subst k.
    assert (sch = t) by congruence. exists (Ok ti). split.
    + destruct fuel; cbn [go_loop]; subst sch; rewrite H, veqb_refl; reflexivity.
    + split; [constructor|]. cbn. split; [congruence|exact Hv].
  - destruct fuel as [|fuel]; [lia|]. cbn [go_loop].
    assert (NE : veqb (s_v sch) (s_v t) = false).
    { apply veqb_false. intros K. pose proof (strict_idx l k n _ _ W St Hk Ht K).
      destruct (vless (s_v t) from); lia. }
    rewrite NE. destruct (neighbours ev l B SZ) as [NB _].
    destruct (NB k sch Hk) as [Hsucc Hpred].
    assert (Hlen : n < length (all_schemas l)) by (apply nth_error_Some; congruence).
    assert (Hlenk : k < length (all_schemas l)) by (apply nth_error_Some; congruence).
    destruct (vless (s_v t) from) eqn:Dir.
    + (* backward *)
      destruct k as [|k]; [lia|]. rewrite Hpred. cbn [bind].
      destruct (nth_error (all_schemas l) k) as [nsch|] eqn:Hn;
        [|apply nth_error_None in Hn; lia].
      cbn [orb]. destruct (entailed_back k sch nsch Hn Hk) as [il [mp [I1 [I2 [I3 [I4 I5]]]]]].
      rewrite I5, I4.
      assert (TW : toward (S k) n = k) by (unfold toward; destruct (Nat.ltb_spec n (S k)); lia).
      assert (G : forall r, lens_run l ls n k sch nsch (rm mp ti nsch) r -> go_trans l ls n (S k) ti r).
      { intros r HR. apply (gt_lens l ls n (S k) ti sch nsch il mp r); try rewrite TW; auto; lia. }
      pose proof (WB mp ti nsch (nth_error_In _ _ Hn)) as Wb.
      destruct (rm mp ti nsch) as [[rti|]|e0| |] eqn:R; try contradiction.
      * destruct Wb as [Wv Wi]. rewrite Wv. cbn [negb].
        destruct (veqb (s_v (i_sch rti)) (s_v nsch)) eqn:Q; cbn [negb].
        -- apply veqb_spec in Q.
           assert (i_sch rti = nsch).
           { apply In_nth_error in Wi as [j Hj].
             pose proof (strict_idx l j k _ _ W St Hj Hn Q). subst j. congruence. }
           destruct (IH k nsch rti fuel ltac:(lia) Hn H Wv ltac:(lia)) as [r [E1 [E2 E3]]].
           exists r. split; [exact E1|]. split; [|exact E3]. apply G. constructor; assumption.
        -- apply veqb_false in Q. eexists (Err _). split; [reflexivity|]. split; [|exact I].
           apply G. constructor; assumption.
      * eexists (Err _). split; [reflexivity|]. split; [|exact I]. apply G. constructor.
      * eexists (Err _). split; [reflexivity|]. split; [|exact I]. apply G.
        unfold wrap, lid_string, lid. cbn [fst snd]. constructor.
    + (* forward *)
      rewrite Hsucc. cbn [bind].
      destruct (nth_error (all_schemas l) (S k)) as [nsch|] eqn:Hn;
        [|apply nth_error_None in Hn; lia].
      cbn [orb].
      assert (TW : toward k n = S k) by (unfold toward; destruct (Nat.ltb_spec n k); lia).
      destruct (N.eqb_spec (fst (s_v sch)) (fst (s_v nsch))) as [M|M]; cbn [negb].
      * unfold asSuccessor_with. rewrite Hv, Hs, Hsucc. cbn [negb bind].
        rewrite M, N.eqb_refl.
        destruct (IH (S k) nsch (mkInst (i_raw ti) (i_name ti) nsch true) fuel
                    ltac:(lia) Hn eq_refl eq_refl ltac:(lia)) as [r [E1 [E2 E3]]].
        exists r. split; [exact E1|]. split; [|exact E3].
        apply (gt_minor l ls n k ti sch nsch r); auto. lia.
      * destruct (entailed_fwd k sch nsch Hk Hn M) as [il [mp [I1 [I2 [I3 [I4 I5]]]]]].
        rewrite I5, I4.
        assert (G : forall r, lens_run l ls n (S k) sch nsch (rm mp ti nsch) r -> go_trans l ls n k ti r).
        { intros r HR. apply (gt_lens l ls n k ti sch nsch il mp r); try rewrite TW; auto; lia. }
        pose proof (WB mp ti nsch (nth_error_In _ _ Hn)) as Wb.
        destruct (rm mp ti nsch) as [[rti|]|e0| |] eqn:R; try contradiction.
        -- destruct Wb as [Wv Wi]. rewrite Wv. cbn [negb].
           destruct (veqb (s_v (i_sch rti)) (s_v nsch)) eqn:Q; cbn [negb].
           ++ apply veqb_spec in Q.
              assert (i_sch rti = nsch).
              { apply In_nth_error in Wi as [j Hj].
                pose proof (strict_idx l j (S k) _ _ W St Hj Hn Q). subst j. congruence. }
              destruct (IH (S k) nsch rti fuel ltac:(lia) Hn H Wv ltac:(lia)) as [r [E1 [E2 E3]]].
              exists r. split; [exact E1|]. split; [|exact E3]. apply G. constructor; assumption.
           ++ apply veqb_false in Q. eexists (Err _). split; [reflexivity|]. split; [|exact I].
              apply G. constructor; assumption.
        -- eexists (Err _). split; [reflexivity|]. split; [|exact I]. apply G. constructor.
        -- eexists (Err _). split; [reflexivity|]. split; [|exact I]. apply G.
           unfold wrap, lid_string, lid. cbn [fst snd]. constructor.
Qed.

Hypothesis NE : l_lensmap l <> [].

Lemma translate_go_unfold fuel i to : i_valid i = true -> s_lin (i_sch i) = l ->
  translate ev rm (S fuel) i to =
  if veqb to (s_v (i_sch i)) then Ok (i, [])
  else go_loop rm (translate ev rm fuel) (l_lensmap l) (s_v (i_sch i)) to fuel (i_sch i) i.
Proof.
  intros Hv Hl. cbn [translate]. rewrite Hv, Hl. cbn [negb].
  destruct (l_lensmap l); [congruence|reflexivity].
Qed.

Lemma translate_go (WB : well_behaved l) i k n t fuel :
  i_valid i = true -> nth_error (all_schemas l) k = Some (i_sch i) ->
  nth_error (all_schemas l) n = Some t -> length (all_schemas l) < fuel ->
  exists r, translate ev rm fuel i (s_v t) = lift r /\ go_trans l ls n k i r /\ settled t r /\
    forall r', go_trans l ls n k i r' -> r' = r.
Proof.
  intros Hv Hk Hn Hf. destruct fuel as [|fuel]; [lia|].
  assert (Hl : s_lin (i_sch i) = l).
  { apply nth_error_In in Hk. exact (proj2 (in_all_version l _ W Hk)). }
  rewrite translate_go_unfold by assumption.
  assert (Lk : k < length (all_schemas l)) by (apply nth_error_Some; congruence).
  assert (Ln : n < length (all_schemas l)) by (apply nth_error_Some; congruence).
  assert (U : forall r, go_trans l ls n k i r -> forall r', go_trans l ls n k i r' -> r' = r)
    by (intros; apply (proj1 (go_trans_fun l ls n (proj1 X)) k i); assumption).
  destruct (veqb (s_v t) (s_v (i_sch i))) eqn:Q.
  - apply veqb_spec in Q. pose proof (strict_idx l n k _ _ W St Hn Hk Q). subst n.
    exists (Ok i). split; [reflexivity|]. split; [constructor|]. split; [split; [congruence|exact Hv]|]. apply U. constructor.
  - apply veqb_false in Q.
    assert (NK : n <> k) by congruence.
    destruct (go_loop_spec WB (translate ev rm fuel) (s_v (i_sch i)) n t Hn
               (if Nat.ltb n k then k - n else n - k) k (i_sch i) i fuel) as [r [E1 [E2 E3]]]; auto.
    + destruct (vless (s_v t) (s_v (i_sch i))) eqn:Dir.
      * apply (strict_lt l n k t (i_sch i) W St Hn Hk) in Dir. destruct (Nat.ltb_spec n k); lia.
      * destruct (Nat.ltb_spec n k); [|lia].
        apply (strict_lt l n k t (i_sch i) W St Hn Hk) in H. congruence.
    + destruct (Nat.ltb_spec n k); lia.
    + exists r. split; [exact E1|]. split; [exact E2|]. split; [exact E3|]. apply U; exact E2.
Qed.

(** *** Minor upgrades *)
Lemma majors_between j k n s t u : nth_error (all_schemas l) j = Some s ->
  nth_error (all_schemas l) k = Some t -> nth_error (all_schemas l) n = Some u ->
  j <= k <= n -> fst (s_v s) = fst (s_v u) -> fst (s_v t) = fst (s_v u).
Proof.
  intros Hj Hk Hn [L1 L2] E. apply all_schemas_at in Hj, Hk, Hn.
  pose proof (sch_at_v l W _ _ Hj). pose proof (sch_at_v l W _ _ Hk). pose proof (sch_at_v l W _ _ Hn).
  pose proof (sorted_nth _ (wf_sorted l W) j k _ _ L1 H H0) as Q1.
  pose proof (sorted_nth _ (wf_sorted l W) k n _ _ L2 H0 H1) as Q2.
  unfold vle, vlt in *. destruct Q1 as [Q1|Q1], Q2 as [Q2|Q2]; try (rewrite <- Q1); try (rewrite Q2); try lia; congruence.
Qed.

Lemma go_loop_minor tr from n t :
  nth_error (all_schemas l) n = Some t -> vless (s_v t) from = false ->
  forall d k sch ti fuel, n = k + d -> fst (s_v sch) = fst (s_v t) ->
  nth_error (all_schemas l) k = Some sch -> i_sch ti = sch -> i_valid ti = true -> d <= fuel ->
  go_loop rm tr (l_lensmap l) from (s_v t) fuel sch ti = Ok (mkInst (i_raw ti) (i_name ti) t true, []).
Proof.
  intros Ht Dir. induction d as [|d IH]; intros k sch ti fuel Hd Hm Hk Hs Hv Hf.
  - assert (k = n) by lia. subst k. assert (sch = t) by congruence.
    assert (ti = mkInst (i_raw ti) (i_name ti) t true) by (destruct ti; cbn in *; congruence).
    destruct fuel; cbn [go_loop]; rewrite H, veqb_refl; congruence.
  - destruct fuel as [|fuel]; [lia|]. cbn [go_loop].
    assert (NE' : veqb (s_v sch) (s_v t) = false).
    { apply veqb_false. intros K. pose proof (strict_idx l k n _ _ W St Hk Ht K). lia. }
    rewrite NE', Dir. destruct (neighbours ev l B SZ) as [NB _].
    destruct (NB k sch Hk) as [Hsucc _]. rewrite Hsucc. cbn [bind].
    assert (Hlen : n < length (all_schemas l)) by (apply nth_error_Some; congruence).
    destruct (nth_error (all_schemas l) (S k)) as [nsch|] eqn:Hn; [|apply nth_error_None in Hn; lia].
    assert (M : fst (s_v nsch) = fst (s_v t)) by (apply (majors_between k (S k) n sch nsch t); auto; lia).
    rewrite M, Hm, N.eqb_refl. cbn [negb orb].
    unfold asSuccessor_with. rewrite Hv, Hs, Hsucc. cbn [negb bind]. rewrite M, Hm, N.eqb_refl.
    rewrite (IH (S k)); auto; lia.
Qed.

Lemma translate_go_minor i k n t fuel :
  i_valid i = true -> nth_error (all_schemas l) k = Some (i_sch i) ->
  nth_error (all_schemas l) n = Some t -> k <= n -> fst (s_v (i_sch i)) = fst (s_v t) ->
  length (all_schemas l) < fuel ->
  translate ev rm fuel i (s_v t) = Ok (mkInst (i_raw i) (i_name i) t true, []).
Proof.
  intros Hv Hk Hn Hle Hm Hf. destruct fuel as [|fuel]; [lia|].
  assert (Hl : s_lin (i_sch i) = l).
  { apply nth_error_In in Hk. exact (proj2 (in_all_version l _ W Hk)). }
  rewrite translate_go_unfold by assumption.
  assert (Ln : n < length (all_schemas l)) by (apply nth_error_Some; congruence).
  destruct (veqb (s_v t) (s_v (i_sch i))) eqn:Q.
  - apply veqb_spec in Q. pose proof (strict_idx l n k _ _ W St Hn Hk Q). subst n.
    assert (i_sch i = t) by congruence. destruct i; cbn in *; congruence.
  - apply (go_loop_minor _ _ n t Hn) with (d := n - k) (k := k); auto; try lia.
    destruct (vless (s_v t) (s_v (i_sch i))) eqn:Dir; [|reflexivity].
    apply (strict_lt l n k t (i_sch i) W St Hn Hk) in Dir. lia.
Qed.

Lemma translate_go_self i fuel : i_valid i = true -> s_lin (i_sch i) = l ->
  translate ev rm (S fuel) i (s_v (i_sch i)) = Ok (i, []).
Proof. intros Hv Hl. rewrite translate_go_unfold by assumption. rewrite veqb_refl. reflexivity. Qed.

(** *** Absent target *)
Lemma go_loop_absent (WB : well_behaved l) tr from to :
  ~ In to (map s_v (all_schemas l)) ->
  forall d k sch ti fuel,
  d = (if vless to from then k else length (all_schemas l) - 1 - k) ->
  nth_error (all_schemas l) k = Some sch -> i_sch ti = sch -> i_valid ti = true -> d < fuel ->
  go_loop rm tr (l_lensmap l) from to fuel sch ti = Panic \/
  exists e, go_loop rm tr (l_lensmap l) from to fuel sch ti = Err e.
Proof.
  intros NI. induction d as [|d IH]; intros k sch ti fuel Hd Hk Hs Hv Hf;
    (destruct fuel as [|fuel]; [lia|]); cbn [go_loop];
    (assert (NE' : veqb (s_v sch) to = false)
      by (apply veqb_false; intros K; apply NI; rewrite <- K; apply in_map; apply nth_error_In in Hk; exact Hk));
    rewrite NE'; destruct (neighbours ev l B SZ) as [NB _]; destruct (NB k sch Hk) as [Hsucc Hpred];
    assert (Hlenk : k < length (all_schemas l)) by (apply nth_error_Some; congruence);
    destruct (vless to from) eqn:Dir.
  - subst k. rewrite Hpred. left. reflexivity.
  - rewrite Hsucc. cbn [bind]. destruct (nth_error (all_schemas l) (S k)) eqn:Hn; [|left; reflexivity].
    assert (S k < length (all_schemas l)) by (apply nth_error_Some; congruence). lia.
  - subst k. rewrite Hpred. cbn [bind].
    destruct (nth_error (all_schemas l) d) as [nsch|] eqn:Hn; [|left; reflexivity]. cbn [orb].
    destruct (entailed_back d sch nsch Hn Hk) as [il [mp [I1 [I2 [I3 [I4 I5]]]]]]. rewrite I5, I4.
    pose proof (WB mp ti nsch (nth_error_In _ _ Hn)) as Wb.
    destruct (rm mp ti nsch) as [[rti|]|e0| |] eqn:R; try contradiction; eauto.
    destruct Wb as [Wv Wi]. rewrite Wv. cbn [negb].
    destruct (veqb (s_v (i_sch rti)) (s_v nsch)) eqn:Q; cbn [negb]; eauto.
    apply veqb_spec in Q. apply (IH d); auto; [|lia].
    apply In_nth_error in Wi as [j Hj]. pose proof (strict_idx l j d _ _ W St Hj Hn Q). subst j. congruence.
  - rewrite Hsucc. cbn [bind]. destruct (nth_error (all_schemas l) (S k)) as [nsch|] eqn:Hn; [|left; reflexivity].
    cbn [orb]. destruct (N.eqb_spec (fst (s_v sch)) (fst (s_v nsch))) as [M|M]; cbn [negb].
    + unfold asSuccessor_with. rewrite Hv, Hs, Hsucc. cbn [negb bind]. rewrite M, N.eqb_refl.
      apply (IH (S k)); auto; lia.
    + destruct (entailed_fwd k sch nsch Hk Hn M) as [il [mp [I1 [I2 [I3 [I4 I5]]]]]]. rewrite I5, I4.
      pose proof (WB mp ti nsch (nth_error_In _ _ Hn)) as Wb.
      destruct (rm mp ti nsch) as [[rti|]|e0| |] eqn:R; try contradiction; eauto.
      destruct Wb as [Wv Wi]. rewrite Wv. cbn [negb].
      destruct (veqb (s_v (i_sch rti)) (s_v nsch)) eqn:Q; cbn [negb]; eauto.
      apply veqb_spec in Q. apply (IH (S k)); auto; try lia.
      apply In_nth_error in Wi as [j Hj]. pose proof (strict_idx l j (S k) _ _ W St Hj Hn Q). subst j. congruence.
Qed.

Lemma translate_go_absent (WB : well_behaved l) i k to fuel :
  i_valid i = true -> nth_error (all_schemas l) k = Some (i_sch i) ->
  ~ In to (map s_v (all_schemas l)) -> length (all_schemas l) < fuel ->
  translate ev rm fuel i to = Panic \/ exists e, translate ev rm fuel i to = Err e.
Proof.
  intros Hv Hk NI Hf. destruct fuel as [|fuel]; [lia|].
  assert (Hl : s_lin (i_sch i) = l).
  { apply nth_error_In in Hk. exact (proj2 (in_all_version l _ W Hk)). }
  assert (Lk : k < length (all_schemas l)) by (apply nth_error_Some; congruence).
  rewrite translate_go_unfold by assumption.
  destruct (veqb to (s_v (i_sch i))) eqn:Q.
  - apply veqb_spec in Q. exfalso. apply NI. rewrite Q. apply in_map. apply nth_error_In in Hk; exact Hk.
  - eapply go_loop_absent; eauto. destruct (vless to (s_v (i_sch i))); lia.
Qed.

(** *** Validity of results *)
Lemma go_trans_conforms :
  (forall s s' data, In s (all_schemas l) -> In s' (all_schemas l) -> fst (s_v s) = fst (s_v s') ->
     vle (s_v s) (s_v s') -> conforms ev s data -> conforms ev s' data) ->
  well_behaved l ->
  (forall mp i s r, In s (all_schemas l) -> rm mp i s = Ok (Some r) -> conforms ev (i_sch r) (i_raw r)) ->
  forall n,
  (forall k i r, go_trans l ls n k i r -> forall x, r = Ok x ->
     nth_error (all_schemas l) k = Some (i_sch i) -> conforms ev (i_sch i) (i_raw i) ->
     conforms ev (i_sch x) (i_raw x)) /\
  (forall k s s' o r, lens_run l ls n k s s' o r -> forall x y, r = Ok x -> o = Ok (Some y) ->
     nth_error (all_schemas l) k = Some s' -> In (i_sch y) (all_schemas l) ->
     conforms ev (i_sch y) (i_raw y) -> conforms ev (i_sch x) (i_raw x)).
Proof.
  intros Mono WB MC n. apply go_lens_ind.
  - intros i x E _ C. congruence.
  - intros k i s s' r Hk H1 H2 Hm _ IH x E Hi C. apply IH; [exact E|exact H2|].
    cbn. assert (s = i_sch i) by congruence. subst s.
    apply (Mono (i_sch i) s'); auto; try (eapply nth_error_In; eassumption).
    apply all_schemas_at in H1, H2.
    apply (sorted_nth _ (wf_sorted l W) k (S k)); [lia| |]; apply sch_at_v; auto.
  - intros k i s s' il mp r Hk H1 H2 Hm I1 I2 I3 I4 HR IH x E Hi C.
    pose proof (WB mp i s' (nth_error_In _ _ H2)) as Wb.
    inversion HR as [? ? ? y ? Y1 Y2 Y3|? ? ? y Y1 Y2|?|?]; subst; try discriminate.
    assert (Q : rm mp i s' = Ok (Some y)) by congruence. rewrite Q in Wb.
    apply (IH x y); auto; [apply Wb|]. apply (MC mp i s' y (nth_error_In _ _ H2) Q).
  - intros k s s' y r Hv Hs _ IH x y0 E E0 Hk Hin C. injection E0 as <-.
    apply (IH x E); auto. apply In_nth_error in Hin as [j Hj].
    pose proof (strict_idx l j k _ _ W St Hj Hk Hs). subst j. congruence.
  - intros; discriminate.
  - intros; discriminate.
  - intros; discriminate.
Qed.
End L.
End T.
