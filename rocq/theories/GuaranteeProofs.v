(** Which translations succeed. *)
From Verif Require Import Prelude Version VersionProofs Search SearchProofs
  ValidateErr Native Split Lineage LineageProofs WalkProofs GoLensProofs BindFacts WalkFacts
  NativeProofs Translate TranslateGoProofs TranslateCueProofs TranslateFacts Vmux VmuxProofs.
From Verif Require Import CueFrag CueSem CueProofs Hydrate HydrateSem HydrateProofs
  HydrateFacts CompatFacts CueEval CueEvalSem CueEvalProofs CueKeepProofs CuePinProofs CueEvalFacts.
From Coq Require Import Sorting.Sorted.
Local Open Scope string_scope.
Local Open Scope list_scope.

(** *** Specification *)

(** Go lenses that turn every valid instance of their source into a valid
    instance of their target. *)
Definition total_go {V} (ev : evaluator V) (rm : N -> instance V -> schema V -> outcome (option (instance V)))
    (l : lineage V) (ls : list implens) : Prop :=
  forall il mp i s', In il ls -> il_mapper il = Some mp ->
    In (i_sch i) (all_schemas l) -> In s' (all_schemas l) ->
    s_v (i_sch i) = il_from il -> s_v s' = il_to il ->
    i_valid i = true -> conforms ev (i_sch i) (i_raw i) ->
    exists x, rm mp i s' = Ok (Some x) /\ i_valid x = true /\ i_sch x = s' /\ conforms ev s' (i_raw x).

(** A description of the data at each schema that minor upgrades and lenses keep
    up, on which lenses emit no lacuna, and that is enough for complete, valid data. *)
Record upheld {V} (ev : evaluator V) (l : lineage V) (good : schema V -> V -> Prop) : Prop := {
  up_ok : forall s d, In s (all_schemas l) -> good s d -> ev_bottom ev d = false;
  up_end : forall s d, In s (all_schemas l) -> good s d ->
    ev_json_ok ev (ev_default ev d) = true /\ conforms ev s (ev_default ev d);
  up_minor : forall k s s' d, nth_error (all_schemas l) k = Some s -> nth_error (all_schemas l) (S k) = Some s' ->
    fst (s_v s) = fst (s_v s') -> good s d -> good s' (ev_embed ev d (sd_def (s_sd s')));
  up_lens : forall c s s' d, In c (l_lenses l) -> In s (all_schemas l) -> In s' (all_schemas l) ->
    cl_from c = Some (s_v s) -> cl_to c = Some (s_v s') -> good s d ->
    good s' (ev_embed ev (ev_lens_result ev (cl_val c) d) (sd_def (s_sd s')));
  up_silent : forall c s s' d, In c (l_lenses l) -> In s (all_schemas l) -> In s' (all_schemas l) ->
    cl_from c = Some (s_v s) -> cl_to c = Some (s_v s') -> good s d -> ev_lacunas ev (cl_val c) d = []
}.

(** CUE lenses over the fragment that turn complete data of their source into
    complete data of their target without a lacuna. *)
Definition total_cue (l : lineage cval) : Prop :=
  forall c s s' v v' w d, In c (l_lenses l) -> In s (all_schemas l) -> In s' (all_schemas l) ->
    cl_from c = Some (s_v s) -> cl_to c = Some (s_v s') ->
    sd_def (s_sd s) = CV v -> sd_def (s_sd s') = CV v' ->
    CueSem.wf w -> pin w d -> inst v d = true ->
    exists f g d', cl_val c = CLens f g /\ g w = [] /\ CueSem.wf (f w) /\ pin (f w) d' /\ inst v' d' = true.

(** *** Go lenses *)
Section G.
Context {V : Type}.
Variable ev : evaluator V.
Variable rm : N -> instance V -> schema V -> outcome (option (instance V)).
Variables (l : lineage V) (ls : list implens).
Hypothesis B : bound ev l.
Hypothesis SZ : strict_from_zero l.
Hypothesis X : exact_lenses (map s_v (all_schemas l)) ls.
Hypothesis LM : l_lensmap l = build_lensmap ls.
Hypothesis NE : l_lensmap l <> [].
Hypothesis T : total_go ev rm l ls.
Hypothesis Mono : forall s s' data, In s (all_schemas l) -> In s' (all_schemas l) ->
  fst (s_v s) = fst (s_v s') -> vle (s_v s) (s_v s') -> conforms ev s data -> conforms ev s' data.

Let W : LineageProofs.wf l := bound_wf ev l B.
Let St : strict_vs (l_allv l) := sfz_strict l W SZ.

Lemma go_loop_total tr from n t : nth_error (all_schemas l) n = Some t ->
  forall d k ti fuel,
  (if vless (s_v t) from then k = n + d else n = k + d) ->
  nth_error (all_schemas l) k = Some (i_sch ti) -> i_valid ti = true -> conforms ev (i_sch ti) (i_raw ti) -> d <= fuel ->
  exists x, go_loop rm tr (l_lensmap l) from (s_v t) fuel (i_sch ti) ti = Ok (x, []) /\
    i_sch x = t /\ i_valid x = true /\ conforms ev t (i_raw x).
Proof.
  intros Ht. induction d as [|d IH]; intros k ti fuel Hd Hk Hv C Hf.
  - assert (k = n) by (destruct (vless (s_v t) from); lia). subst k.
    assert (E : i_sch ti = t) by congruence. exists ti.
    split; [|split; [exact E|split; [exact Hv|rewrite <- E; exact C]]].
    destruct fuel; cbn [go_loop]; rewrite E, veqb_refl; reflexivity.
  - destruct fuel as [|fuel]; [lia|]. cbn [go_loop].
    assert (Nq : veqb (s_v (i_sch ti)) (s_v t) = false).
    { apply veqb_false. intros K. pose proof (strict_idx l k n _ _ W St Hk Ht K).
      destruct (vless (s_v t) from); lia. }
    rewrite Nq. destruct (neighbours ev l B SZ) as [NB _].
    destruct (NB k (i_sch ti) Hk) as [Hsucc Hpred].
    assert (Hlen : n < length (all_schemas l)) by (apply nth_error_Some; congruence).
    assert (Hlenk : k < length (all_schemas l)) by (apply nth_error_Some; congruence).
    destruct (vless (s_v t) from) eqn:Dir.
    + destruct k as [|k]; [lia|]. rewrite Hpred. cbn [bind].
      destruct (nth_error (all_schemas l) k) as [nsch|] eqn:Hn; [|apply nth_error_None in Hn; lia].
      cbn [orb]. destruct (entailed_back l ls X LM k (i_sch ti) nsch Hn Hk) as [il [mp [I1 [I2 [I3 [I4 I5]]]]]].
      rewrite I5, I4.
      destruct (T il mp ti nsch I1 I4 (nth_error_In _ _ Hk) (nth_error_In _ _ Hn) (eq_sym I2) (eq_sym I3) Hv C)
        as [x [R [Xv [Xs Xc]]]].
      rewrite R, Xv. cbn [negb]. rewrite Xs, veqb_refl. cbn [negb]. rewrite <- Xs.
      apply (IH k); auto; try lia; rewrite Xs; auto.
    + rewrite Hsucc. cbn [bind].
      destruct (nth_error (all_schemas l) (S k)) as [nsch|] eqn:Hn; [|apply nth_error_None in Hn; lia].
      cbn [orb]. destruct (N.eqb_spec (fst (s_v (i_sch ti))) (fst (s_v nsch))) as [M|M]; cbn [negb].
      * unfold asSuccessor_with. rewrite Hv, Hsucc. cbn [negb bind]. rewrite M, N.eqb_refl.
        apply (IH (S k) (mkInst (i_raw ti) (i_name ti) nsch true)); cbn [i_sch i_raw i_valid]; auto; try lia.
        apply (Mono (i_sch ti) nsch); auto; try (eapply nth_error_In; eassumption).
        left. apply vless_spec. apply (strict_lt l k (S k) _ _ W St Hk Hn). lia.
      * destruct (entailed_fwd l ls X LM k (i_sch ti) nsch Hk Hn M) as [il [mp [I1 [I2 [I3 [I4 I5]]]]]].
        rewrite I5, I4.
        destruct (T il mp ti nsch I1 I4 (nth_error_In _ _ Hk) (nth_error_In _ _ Hn) (eq_sym I2) (eq_sym I3) Hv C)
          as [x [R [Xv [Xs Xc]]]].
        rewrite R, Xv. cbn [negb]. rewrite Xs, veqb_refl. cbn [negb]. rewrite <- Xs.
        apply (IH (S k)); auto; try lia; rewrite Xs; auto.
Qed.

Lemma translate_total_go i t fuel :
  i_valid i = true -> In (i_sch i) (all_schemas l) -> In t (all_schemas l) ->
  conforms ev (i_sch i) (i_raw i) -> length (all_schemas l) < fuel ->
  exists x, translate ev rm fuel i (s_v t) = Ok (x, []) /\ i_sch x = t /\ i_valid x = true /\ conforms ev t (i_raw x).
Proof.
  intros Hv Hi Ht C Hf. destruct fuel as [|fuel]; [lia|].
  apply In_nth_error in Hi as [k Hk]. apply In_nth_error in Ht as [n Hn].
  assert (Hl : s_lin (i_sch i) = l).
  { apply nth_error_In in Hk. exact (proj2 (in_all_version l _ W Hk)). }
  rewrite (translate_go_unfold ev rm l ls LM NE) by assumption.
  assert (Lk : k < length (all_schemas l)) by (apply nth_error_Some; congruence).
  assert (Ln : n < length (all_schemas l)) by (apply nth_error_Some; congruence).
  destruct (veqb (s_v t) (s_v (i_sch i))) eqn:Q.
  - apply veqb_spec in Q. pose proof (strict_idx l n k _ _ W St Hn Hk Q). subst n.
    assert (E : i_sch i = t) by congruence. exists i. rewrite <- E. auto.
  - apply veqb_false in Q. assert (NK : n <> k) by congruence.
    apply (go_loop_total _ _ n t Hn (if Nat.ltb n k then k - n else n - k) k i fuel); auto.
    + destruct (vless (s_v t) (s_v (i_sch i))) eqn:Dir.
      * apply (strict_lt l n k t (i_sch i) W St Hn Hk) in Dir. destruct (Nat.ltb_spec n k); lia.
      * destruct (Nat.ltb_spec n k) as [H|H]; [|lia].
        apply (strict_lt l n k t (i_sch i) W St Hn Hk) in H. congruence.
    + destruct (Nat.ltb_spec n k); lia.
Qed.
End G.

Lemma sound_mono {V} (ev : evaluator V) id fv lindef e opts l :
  BindLineage ev id fv lindef e opts = Ok l -> strict_from_zero l -> negb fv && existsb is_skip opts = false ->
  (forall data a b, In a (all_schemas l) -> In b (all_schemas l) ->
     ev_subsumes ev (sd_def (s_sd b)) (sd_def (s_sd a)) = true ->
     conforms ev a data -> conforms ev b data) ->
  forall s s' data, In s (all_schemas l) -> In s' (all_schemas l) ->
    fst (s_v s) = fst (s_v s') -> vle (s_v s) (s_v s') -> conforms ev s data -> conforms ev s' data.
Proof.
  intros B SZ Sk Snd s s' data I1 I2 M Le C1.
  pose proof (bound_wf ev l (bind_bound _ _ _ _ _ _ _ B)) as W. pose proof (sfz_strict l W SZ) as St.
  apply (within_major ev fv opts id lindef e l data B) with (s1 := s); try assumption;
    [rewrite make_cfg_spec; exact Sk|exact (Snd data)].
Qed.

Lemma go_guarantee {V} (ev : evaluator V) rm id fv lindef e opts l :
  BindLineage ev id fv lindef e opts = Ok l -> strict_from_zero l -> flat_map lenses_of opts <> [] ->
  negb fv && existsb is_skip opts = false ->
  (forall data a b, In a (all_schemas l) -> In b (all_schemas l) ->
     ev_subsumes ev (sd_def (s_sd b)) (sd_def (s_sd a)) = true ->
     conforms ev a data -> conforms ev b data) ->
  total_go ev rm l (flat_map lenses_of opts) ->
  (forall i t fuel, i_valid i = true -> In (i_sch i) (all_schemas l) -> In t (all_schemas l) ->
     conforms ev (i_sch i) (i_raw i) -> length (all_schemas l) < fuel ->
     exists x, translate ev rm fuel i (s_v t) = Ok (x, []) /\ i_sch x = t /\ i_valid x = true /\
       conforms ev t (i_raw x)) /\
  (forall (Bt : Type) (dec : Bt -> outcome V) t fuel, In t (all_schemas l) -> length (all_schemas l) < fuel ->
     exists mux, newUntypedMux ev rm dec fuel t = Ok mux /\
     forall b v s, dec b = Ok v -> In s (all_schemas l) -> conforms ev s v ->
       (forall s', In s' (all_schemas l) -> validate ev s' v <> Panic) ->
       exists x, mux b = Ok (x, []) /\ i_sch x = t /\ i_valid x = true /\ conforms ev t (i_raw x)).
Proof.
  intros B SZ Hne Sk Snd T. destruct (bound_go ev _ _ _ _ _ _ B SZ Hne) as [X [LM NE]].
  pose proof (bind_bound _ _ _ _ _ _ _ B) as Bd. pose proof (sound_mono ev _ _ _ _ _ _ B SZ Sk Snd) as Mono.
  assert (TT : forall i t fuel, i_valid i = true -> In (i_sch i) (all_schemas l) -> In t (all_schemas l) ->
     conforms ev (i_sch i) (i_raw i) -> length (all_schemas l) < fuel ->
     exists x, translate ev rm fuel i (s_v t) = Ok (x, []) /\ i_sch x = t /\ i_valid x = true /\
       conforms ev t (i_raw x)).
  { intros. apply (translate_total_go ev rm l (flat_map lenses_of opts)); auto. }
  split; [exact TT|]. intros Bt dec t fuel Ht Hf.
  destruct (untyped_spec ev rm dec l t fuel Bd SZ Ht Hf) as [mux [Em Sp]]. exists mux. split; [exact Em|].
  intros b v s Db Hs Cs NP. destruct (Sp b) as [_ Sp2]. specialize (Sp2 v Db NP).
  inversion Sp2 as [i Ev|er s0 i Ev I0 N0 Ev0 _|er Ev Nn].
  - apply validate_ok in Ev as [C ->]. eexists. split; [reflexivity|]. auto.
  - apply validate_ok in Ev0 as [C ->].
    apply TT; auto.
  - exfalso. destruct (Nn s Hs) as [e' K].
    assert (validate ev s v = Ok (mkInst v "" s true)) by (apply validate_ok; auto). congruence.
Qed.

(** *** CUE lenses *)
Section C.
Context {V : Type}.
Variable ev : evaluator V.
Variable rm : N -> instance V -> schema V -> outcome (option (instance V)).

Lemma upheld_trans l good n t : upheld ev l good -> nth_error (all_schemas l) n = Some t ->
  (forall k d o, cue_trans ev l n k d o -> forall s, nth_error (all_schemas l) k = Some s -> good s d ->
     exists d', o = Some d' /\ good t d') /\
  (forall k d o, advance ev l n k d o -> forall s, nth_error (all_schemas l) k = Some s -> good s d ->
     exists d', o = Some d' /\ good t d').
Proof.
  intros U Hn. apply cue_adv_ind.
  - intros d s Hs G. assert (s = t) by congruence. subst. eauto.
  - intros k d s s' o Lt Hs Hs' M _ IH u Hu G. assert (u = s) by congruence. subst u.
    apply (IH s' Hs'). exact (up_minor _ _ _ U k s s' d Hs Hs' M G).
  - intros k d s s' c o Nk Hs Hs' M Hc Hf Ht HL _ IH u Hu G. assert (u = s) by congruence. subst u.
    apply (IH s' Hs'). apply (up_lens _ _ _ U c s s' d); auto; eapply nth_error_In; eassumption.
  - intros k d s s' c Nk Hs Hs' M Hc Hf Ht HL u Hu G. assert (u = s) by congruence. subst u.
    exfalso. apply HL. apply (up_silent _ _ _ U c s s' d); auto; eapply nth_error_In; eassumption.
  - intros k d Hb s Hs G. rewrite (up_ok _ _ _ U s d (nth_error_In _ _ Hs) G) in Hb. discriminate.
  - intros k d o Hb _ IH s Hs G. exact (IH s Hs G).
Qed.

Lemma cue_guarantee l good :
  bound ev l -> l_lensmap l = [] -> dense (map s_v (all_schemas l)) -> exact_cue_lenses l -> upheld ev l good ->
  forall i t fuel,
    i_valid i = true -> ev_struct ev (i_raw i) = true -> In (i_sch i) (all_schemas l) -> In t (all_schemas l) ->
    (fst (s_v (i_sch i)) <= 2)%N -> (fst (s_v t) <= 2)%N -> good (i_sch i) (i_raw i) ->
    exists d, good t d /\
      translate ev rm (S fuel) i (s_v t) = Ok (mkInst (ev_default ev d) "" t true, []) /\
      conforms ev t (ev_default ev d).
Proof.
  intros B LM D X U i t fuel Hv Hst Hi Ht M1 M2 G.
  apply In_nth_error in Hi as [k Hk]. apply In_nth_error in Ht as [n Hn].
  destruct (translate_cue ev rm l B LM D X i k n t fuel Hv Hst Hk Hn (or_intror (conj M1 M2))) as [o [Ho [_ E]]].
  destruct (proj1 (upheld_trans l good n t U Hn) k _ _ Ho (i_sch i) Hk G) as [d [-> Gd]].
  destruct (up_end _ _ _ U t d (nth_error_In _ _ Hn) Gd) as [J C].
  exists d. split; [exact Gd|]. split; [|exact C]. rewrite E, J.
  assert (Vd : validate ev t (ev_default ev d) = Ok (mkInst (ev_default ev d) "" t true)) by (apply validate_ok; auto).
  rewrite Vd. reflexivity.
Qed.
End C.

(** *** The CUE fragment *)
Lemma pin_opened : forall d w, pin w d -> pin (opened w) d.
Proof.
  intros d. induction d as [a|l IH|df IH] using data_ind'; intros w P; inversion P as [b|b ds Hn H2|ws m H2|fs rest m H2]; subst.
  - constructor.
  - cbn [opened]. constructor; [destruct ds; [contradiction|discriminate]|].
    intros x Hx. apply in_map_iff in Hx as [y [<- Hy]]. cbn [snd]. rewrite (H2 y Hy). reflexivity.
  - cbn [opened]. constructor. clear P. induction H2 as [|w x ws xs Pw _ IHw]; [constructor|].
    inversion IH as [|? ? A1 A2]; subst. constructor; [apply A1; exact Pw|apply IHw; exact A2].
  - cbn [opened]. constructor. clear P.
    assert (E : regs (map (fun f : string * bool * val => (fst f, opened (snd f))) fs)
              = map (fun f : string * bool * val => (fst f, opened (snd f))) (regs fs)).
    { clear. unfold regs. induction fs as [|[[k o] v] fs IHf]; [reflexivity|]. cbn [map filter fst snd].
      unfold fopt in *. cbn [fst snd] in *. destruct (negb o); cbn [map]; rewrite IHf; reflexivity. }
    rewrite E. clear E. revert H2. generalize (regs fs). intros gs H2.
    induction H2 as [|f x gs xs [Pl Pw] _ IHw]; [constructor|].
    inversion IH as [|? ? A1 A2]; subst. constructor; [|apply IHw; exact A2].
    split; [destruct f as [[? ?] ?]; exact Pl|]. apply A1. exact Pw.
Qed.

Section F.
Variable errs : cval -> verr.
Notation ev := (cue_fragment errs).

(** The values met on the way stand for complete data of the schema. *)
Definition stands (s : schema cval) (a : cval) : Prop :=
  exists w d v, a = CV w /\ CueSem.wf w /\ pin w d /\ sd_def (s_sd s) = CV v /\ inst v d = true.

Lemma stands_embed l s w d v : fragment_lineage l -> In s (all_schemas l) -> sd_def (s_sd s) = CV v ->
  CueSem.wf w -> pin w d -> inst v d = true -> stands s (c_embed (CV w) (sd_def (s_sd s))).
Proof.
  intros F I Ev Ww P Hi. destruct (F s I) as [v' [Ev' [Wv [Sv _]]]]. rewrite Ev in *. injection Ev' as <-.
  exists (unify (opened w) (opened v)), d, v. split; [reflexivity|].
  split; [apply wf_unify; apply wf_opened; assumption|]. split; [|auto].
  apply pin_unify; auto; try (apply wf_opened; assumption); [apply pin_opened; exact P|apply simple_opened; exact Sv|].
  apply inst_opened. exact Hi.
Qed.

Lemma struct_data v d : is_struct v = true -> inst v d = true -> exists df, d = DStruct df.
Proof. destruct v; try discriminate. intros _ H. destruct d as [a|l|df]; cbn in H; try discriminate. eauto. Qed.

Lemma stands_upheld id fv lindef e opts l :
  BindLineage ev id fv lindef e opts = Ok l -> negb fv && existsb is_skip opts = false ->
  dense (map s_v (all_schemas l)) -> fragment_lineage l -> total_cue l -> upheld ev l stands.
Proof.
  intros B Sk D F T. pose proof (bind_bound _ _ _ _ _ _ _ B) as Bd. pose proof (bound_wf ev l Bd) as W.
  assert (St : strict_vs (l_allv l)).
  { rewrite <- all_schemas_versions by exact W. apply dense_strict in D as [D _]; exact D. }
  split.
  - intros s d I [w [x [v [-> [_ [P _]]]]]]. cbn [ev_bottom cue_fragment]. rewrite (eval_pin _ _ P). reflexivity.
  - intros s d I [w [x [v [-> [Ww [P [Ev Hi]]]]]]]. destruct (F s I) as [v' [Ev' [Wv [Sv Tv]]]].
    rewrite Ev in Ev'. injection Ev' as <-.
    destruct (struct_data v x Tv Hi) as [df ->].
    assert (Sw : is_struct w = true) by (inversion P; reflexivity).
    cbn [ev_default cue_fragment]. rewrite (default_struct _ Sw). cbn [fst ev_json_ok cue_fragment].
    rewrite (eval_pin _ _ P). split; [reflexivity|]. apply (conforms_con errs s v w Ev).
    apply (con_unify_pin (DStruct df)); auto.
  - intros k s s' d Hs Hs' M [w [x [v [-> [Ww [P [Ev Hi]]]]]]].
    pose proof (nth_error_In _ _ Hs) as I. pose proof (nth_error_In _ _ Hs') as I'.
    destruct (F s' I') as [v' [Ev' _]].
    apply (stands_embed l s' w x v'); auto.
    assert (Q : exists u, sd_def (s_sd s') = CV u /\ inst u x = true).
    { apply (within_major_pred ev fv opts id lindef e l
               (fun s => exists u, sd_def (s_sd s) = CV u /\ inst u x = true) B) with (s1 := s); auto.
      - rewrite make_cfg_spec. exact Sk.
      - intros a b Ha Hb Sub [u [Ea Ia]]. destruct (F b Hb) as [u' [Eb _]]. exists u'. split; [exact Eb|].
        rewrite Ea, Eb in Sub. exact (subs_sound u' u _ Sub Ia).
      - left. apply vless_spec. apply (strict_lt l k (S k) _ _ W St Hs Hs'). lia.
      - eauto. }
    destruct Q as [u [Eu Iu]]. congruence.
  - intros c s s' d Hc I I' Hf Ht [w [x [v [-> [Ww [P [Ev Hi]]]]]]].
    destruct (F s' I') as [v' [Ev' _]].
    destruct (T c s s' v v' w x Hc I I' Hf Ht Ev Ev' Ww P Hi) as [f [g [x' [Ec [_ [Wf [Pf If]]]]]]].
    rewrite Ec. cbn [ev_lens_result cue_fragment]. apply (stands_embed l s' (f w) x' v'); auto.
  - intros c s s' d Hc I I' Hf Ht [w [x [v [-> [Ww [P [Ev Hi]]]]]]].
    destruct (F s' I') as [v' [Ev' _]].
    destruct (T c s s' v v' w x Hc I I' Hf Ht Ev Ev' Ww P Hi) as [f [g [x' [Ec [G _]]]]].
    rewrite Ec. exact G.
Qed.

Lemma fragment_guarantee rm id fv lindef e opts l :
  BindLineage ev id fv lindef e opts = Ok l -> negb fv && existsb is_skip opts = false ->
  l_lensmap l = [] -> dense (map s_v (all_schemas l)) -> exact_cue_lenses l -> fragment_lineage l -> total_cue l ->
  forall i t fuel df v vt,
    i_valid i = true -> i_raw i = CV (embed (DStruct df)) -> dwf (DStruct df) ->
    In (i_sch i) (all_schemas l) -> In t (all_schemas l) ->
    (fst (s_v (i_sch i)) <= 2)%N -> (fst (s_v t) <= 2)%N ->
    sd_def (s_sd (i_sch i)) = CV v -> sd_def (s_sd t) = CV vt -> inst v (DStruct df) = true ->
    exists r d', translate ev rm (S fuel) i (s_v t) = Ok (r, []) /\ i_sch r = t /\ i_valid r = true /\
      denotes (i_raw r) d' /\ inst vt d' = true /\ validate ev t (i_raw r) = Ok r.
Proof.
  intros B Sk LM D X F T i t fuel df v vt Hv Hr Dw Hi Ht M1 M2 Ev Evt Hin.
  pose proof (bind_bound _ _ _ _ _ _ _ B) as Bd.
  pose proof (stands_upheld id fv lindef e opts l B Sk D F T) as U.
  assert (Hst : ev_struct ev (i_raw i) = true) by (rewrite Hr; reflexivity).
  assert (G : stands (i_sch i) (i_raw i)).
  { exists (embed (DStruct df)), (DStruct df), v. split; [exact Hr|]. split; [apply wf_embed; exact Dw|].
    split; [apply pin_embed|auto]. }
  destruct (cue_guarantee ev rm l stands Bd LM D X U i t fuel Hv Hst Hi Ht M1 M2 G) as [d [Gd [E C]]].
  destruct Gd as [w [x [v' [-> [Ww [P [Ev' Ix]]]]]]]. rewrite Evt in Ev'. injection Ev' as <-.
  destruct (F t Ht) as [vt' [Evt' [_ [_ Tv]]]]. rewrite Evt in Evt'. injection Evt' as <-.
  destruct (struct_data vt x Tv Ix) as [df' ->].
  assert (Sw : is_struct w = true) by (inversion P; reflexivity).
  assert (Ed : ev_default ev (CV w) = CV w).
  { cbn [ev_default cue_fragment]. rewrite (default_struct _ Sw). reflexivity. }
  rewrite Ed in *.
  eexists. exists (DStruct df'). split; [exact E|]. cbn [i_sch i_valid i_raw]. split; [reflexivity|]. split; [reflexivity|].
  split; [exists w; split; [reflexivity|apply eval_pin; exact P]|]. split; [exact Ix|].
  apply validate_ok. auto.
Qed.
End F.
