(** Lineages over the CUE fragment: validation and translation of data. *)
From Verif Require Import Prelude Version VersionProofs Search SearchProofs
  ValidateErr Native Split Lineage LineageProofs WalkProofs GoLensProofs BindFacts WalkFacts
  NativeProofs Translate TranslateGoProofs TranslateCueProofs TranslateFacts.
From Verif Require Import CueFrag CueSem CueProofs Hydrate HydrateSem HydrateProofs
  HydrateFacts CompatFacts CueEval CueEvalSem CueEvalProofs CueKeepProofs CueOrderProofs CuePinProofs.
From Coq Require Import Sorting.Sorted.
Local Open Scope string_scope.
Local Open Scope list_scope.

(** The data an instance holds. *)
Definition denotes (a : cval) (d : data) : Prop := exists v, a = CV v /\ eval v None = Con d.

(** All schemas of the lineage are structs of the fragment, with disjunctions of
    scalars only. *)
Definition fragment_lineage (l : lineage cval) : Prop :=
  forall s, In s (all_schemas l) ->
    exists v, sd_def (s_sd s) = CV v /\ CueSem.wf v /\ simple v = true /\ is_struct v = true.

(** All schemas of the lineage are structs of the fragment. *)
Definition struct_lineage (l : lineage cval) : Prop :=
  forall s, In s (all_schemas l) ->
    exists v, sd_def (s_sd s) = CV v /\ CueSem.wf v /\ is_struct v = true.

Lemma fragment_struct l : fragment_lineage l -> struct_lineage l.
Proof. intros F s I. destruct (F s I) as [v [E [W [_ T]]]]. exists v. auto. Qed.

Section F.
Variable errs : cval -> verr.
Notation ev := (cue_fragment errs).

(** *** Validation *)

Lemma conforms_con : forall (s : schema cval) v w, sd_def (s_sd s) = CV v ->
  (conforms ev s (CV w) <-> con (eval (unify v w) None)).
Proof.
  intros s v w E. unfold conforms. rewrite E. cbn [ev_unify cue_fragment c_unify ev_validate c_validate].
  unfold con. destruct (eval (unify v w) None) as [| |x]; split; intros H; try discriminate; eauto;
    destruct H as [y H]; discriminate.
Qed.

Lemma validate_exact : forall (s : schema cval) v d, sd_def (s_sd s) = CV v ->
  CueSem.wf v -> dwf d ->
  (valid v d -> validate ev s (CV (embed d)) = Ok (mkInst (CV (embed d)) "" s true)) /\
  (~ valid v d -> forall i, validate ev s (CV (embed d)) <> Ok i).
Proof.
  intros s v d E W D. pose proof (conforms_con s v (embed d) E) as C.
  pose proof (data_right_all v W d D) as R. split.
  - intros H. apply validate_ok. split; [|reflexivity]. apply C, R. exact H.
  - intros H i K. apply validate_ok in K as [K _]. apply H. apply R, C. exact K.
Qed.

(** *** Old data stays valid *)

Lemma old_data_fragment : forall id fv lindef e opts l,
  BindLineage ev id fv lindef e opts = Ok l -> negb fv && existsb is_skip opts = false ->
  StronglySorted vlt (map s_v (all_schemas l)) -> fragment_lineage l ->
  (forall a b va vb, In a (all_schemas l) -> In b (all_schemas l) ->
     sd_def (s_sd a) = CV va -> sd_def (s_sd b) = CV vb -> subs vb va = true -> keeps vb va = true) ->
  forall s1 s2 v1 v2 d, In s1 (all_schemas l) -> In s2 (all_schemas l) ->
    sd_def (s_sd s1) = CV v1 -> sd_def (s_sd s2) = CV v2 ->
    fst (s_v s1) = fst (s_v s2) -> vle (s_v s1) (s_v s2) -> valid v1 d -> valid v2 d.
Proof.
  intros id fv lindef e opts l B Sk St F K s1 s2 v1 v2 d I1 I2 E1 E2 M Le H.
  assert (W : LineageProofs.wf l) by (apply (bound_wf ev); unfold bound; eauto 6).
  rewrite all_schemas_versions in St by exact W.
  assert (P : exists v, sd_def (s_sd s2) = CV v /\ valid v d).
  { apply (within_major_pred ev fv opts id lindef e l (fun s => exists v, sd_def (s_sd s) = CV v /\ valid v d) B)
      with (s1 := s1); auto.
    - rewrite make_cfg_spec. exact Sk.
    - intros a b Ha Hb Sub [va [Ea Va]]. destruct (F a Ha) as [va' [Ea' [_ [Sa _]]]].
      destruct (F b Hb) as [vb [Eb [_ [Sb _]]]]. exists vb. split; [exact Eb|].
      rewrite Ea in Ea'. injection Ea' as <-. rewrite Ea, Eb in Sub. cbn in Sub.
      apply (valid_kept va vb d Sa Sb Sub (K a b va vb Ha Hb Ea Eb Sub) Va).
    - exists v1. auto. }
  destruct P as [v [Ev V]]. rewrite E2 in Ev. injection Ev as <-. exact V.
Qed.

(** *** Openness *)

Fixpoint opn (v : val) : bool :=
  match v with
  | VOr ds => forallb (fun d : bool * val => opn (snd d)) ds
  | VList es r => forallb opn es && match r with Some u => opn u | None => true end
  | VStruct fs rest =>
      forallb (fun f : string * bool * val => opn (snd f)) fs
      && match rest with Some u => opn u | None => false end
  | _ => true
  end.

Definition opt_opn (o : option val) : bool := match o with Some u => opn u | None => true end.

Lemma opn_or : forall ds, opn (VOr ds) = true <-> forall d, In d ds -> opn (snd d) = true.
Proof. intros ds. cbn. apply forallb_forall. Qed.

Lemma opn_list : forall es r, opn (VList es r) = true <->
  (forall e, In e es -> opn e = true) /\ opt_opn r = true.
Proof. intros es r. cbn. rewrite andb_true_iff, forallb_forall. destruct r; reflexivity. Qed.

Lemma opn_struct : forall fs r, opn (VStruct fs r) = true <->
  (forall f, In f fs -> opn (fval f) = true) /\ exists u, r = Some u /\ opn u = true.
Proof.
  intros fs r. cbn. rewrite andb_true_iff, forallb_forall. destruct r as [u|]; split; intros [H1 H2]; split; auto.
  - exists u. auto.
  - destruct H2 as [u' [E H2]]. injection E as <-. exact H2.
  - discriminate.
  - destruct H2 as [u' [E _]]. discriminate.
Qed.

Lemma opn_opened : forall v, opn (opened v) = true.
Proof.
  intros v. induction v as [| |a|t|lo hi|ds IH|es r IHe IHr|fs rest IHf IHr] using val_ind'; try reflexivity.
  - cbn [opened]. apply opn_or. intros d Hd. apply in_map_iff in Hd as [x [<- Hx]].
    rewrite Forall_forall in IH. exact (IH x Hx).
  - cbn [opened]. apply opn_list. rewrite Forall_forall in IHe. split.
    + intros e He. apply in_map_iff in He as [x [<- Hx]]. exact (IHe x Hx).
    + destruct r; [exact IHr|reflexivity].
  - cbn [opened]. apply opn_struct. rewrite Forall_forall in IHf. split.
    + intros e He. apply in_map_iff in He as [x [<- Hx]]. exact (IHf x Hx).
    + destruct rest; eexists; (split; [reflexivity|]); [exact IHr|reflexivity].
Qed.

Lemma opened_opn : forall v, opn v = true -> opened v = v.
Proof.
  intros v. induction v as [| |a|t|lo hi|ds IH|es r IHe IHr|fs rest IHf IHr] using val_ind'; intros H; try reflexivity.
  - pose proof (proj1 (opn_or _) H) as K. cbn [opened]. f_equal. rewrite <- (map_id ds) at 2.
    apply map_ext_in. intros [m v] Hd. cbn [fst snd]. rewrite Forall_forall in IH.
    f_equal. exact (IH _ Hd (K _ Hd)).
  - apply opn_list in H as [H1 H2]. cbn [opened]. rewrite Forall_forall in IHe. f_equal.
    + rewrite <- (map_id es) at 2. apply map_ext_in. intros e He. exact (IHe e He (H1 e He)).
    + destruct r as [u|]; [|reflexivity]. f_equal. exact (IHr H2).
  - apply opn_struct in H as [H1 [u [-> H2]]]. cbn [opened]. rewrite Forall_forall in IHf. f_equal.
    + rewrite <- (map_id fs) at 2. apply map_ext_in. intros [lo v] Hf. cbn [fst snd].
      f_equal. exact (IHf _ Hf (H1 _ Hf)).
    + f_equal. exact (IHr H2).
Qed.

Lemma opn_mk_or : forall ds, (forall d, In d ds -> opn (snd d) = true) -> opn (mk_or ds) = true.
Proof.
  intros ds H. unfold mk_or.
  assert (K : forall d, In d (filter (fun d : bool * val => negb (is_bot (snd d))) ds) -> opn (snd d) = true).
  { intros d Hd. apply filter_In in Hd as [Hd _]. apply H. exact Hd. }
  destruct (filter _ ds) as [|d [|d' l]].
  - reflexivity.
  - apply K. left. reflexivity.
  - apply opn_or. exact K.
Qed.

Lemma opn_mk_list : forall es r, (forall e, In e es -> opn e = true) -> opt_opn r = true ->
  opn (mk_list es r) = true.
Proof.
  intros es r H Hr. unfold mk_list. destruct (existsb is_bot es); [reflexivity|].
  apply opn_list. split; [exact H|]. destruct r as [[]|]; try reflexivity; exact Hr.
Qed.

Lemma opn_unify_list : forall r r' es es',
  (forall e w, In e es -> opn w = true -> opn (unify e w) = true) ->
  (forall u w, r = Some u -> opn w = true -> opn (unify u w) = true) ->
  (forall e, In e es' -> opn e = true) -> opt_opn r' = true ->
  forall l, unify_list r r' es es' = Some l -> forall x, In x l -> opn x = true.
Proof.
  intros r r' es. induction es as [|e es IH]; intros es' He Hr W' Wr l H x Hx.
  - destruct es' as [|e' es']; cbn [unify_list] in H; [injection H as <-; contradiction|].
    destruct r as [u|]; [|discriminate]. injection H as <-.
    change (In x (map (unify u) (e' :: es'))) in Hx. apply in_map_iff in Hx as [y [<- Hy]].
    apply (Hr u _ eq_refl). apply W'. exact Hy.
  - destruct es' as [|e' es']; cbn [unify_list] in H.
    + destruct r' as [w|]; [|discriminate]. injection H as <-.
      change (In x (map (fun e => unify e w) (e :: es))) in Hx.
      apply in_map_iff in Hx as [y [<- Hy]]. apply He; [exact Hy|exact Wr].
    + destruct (unify_list r r' es es') as [l'|] eqn:E; [|discriminate]. injection H as <-.
      destruct Hx as [<-|Hx].
      * apply He; [left; reflexivity|]. apply W'. left. reflexivity.
      * apply (IH es') with (l := l'); auto.
        -- intros e0 w0 H0. apply He. right. exact H0.
        -- intros e0 H0. apply W'. right. exact H0.
Qed.

Lemma scalar_opn : forall v, scalar_val v = true -> opn v = true.
Proof. intros [] H; try discriminate; reflexivity. Qed.

Lemma opn_unify : forall u, opn u = true -> forall w, opn w = true -> opn (unify u w) = true.
Proof.
  intros u. induction u as [| |a|t|lo hi|ds IH|es r IHe IHr|fs rest IHf IHr] using val_ind';
    intros WU w; induction w as [| |a'|t'|lo' hi'|ds' IH'|es' r' IHe' IHr'|fs' rest' IHf' IHr'] using val_ind';
    intros WW; rewrite ?unify_VTop_r, ?unify_VTop_l; try assumption; try reflexivity;
    try (apply scalar_opn; apply scalar_unify; reflexivity).
  all: try (rewrite unify_or_r by (reflexivity || discriminate); apply opn_mk_or; intros d Hd;
            apply in_map_iff in Hd as [x [<- Hx]]; cbn [snd]; rewrite Forall_forall in IH';
            apply (IH' x Hx (proj1 (opn_or _) WW x Hx))).
  all: try (rewrite unify_or_l by (reflexivity || discriminate); apply opn_mk_or; intros d Hd;
            apply in_map_iff in Hd as [x [<- Hx]]; cbn [snd]; rewrite Forall_forall in IH;
            apply (IH x Hx (proj1 (opn_or _) WU x Hx) _ WW)).
  - rewrite unify_or_or. apply opn_mk_or. intros d Hd. apply in_flat_map in Hd as [x [Hx Hd]].
    apply in_map_iff in Hd as [y [<- Hy]]. cbn [snd]. rewrite Forall_forall in IH.
    apply (IH x Hx (proj1 (opn_or _) WU x Hx) _ (proj1 (opn_or _) WW y Hy)).
  - rewrite unify_VList. apply opn_list in WU as [WU1 WU2]. apply opn_list in WW as [WW1 WW2].
    destruct (unify_list r r' es es') as [l|] eqn:E; [|reflexivity]. apply opn_mk_list.
    + apply (opn_unify_list r r' es es'); auto.
      * intros e w He Ww. rewrite Forall_forall in IHe. apply (IHe e He (WU1 e He) w Ww).
      * intros u w -> Ww. apply (IHr WU2 w Ww).
    + destruct r as [u|], r' as [w|]; try reflexivity. apply (IHr WU2 w WW2).
  - rewrite unify_VStruct. apply opn_struct in WU as [WU1 [u [-> WU2]]]. apply opn_struct in WW as [WW1 [w [-> WW2]]].
    rewrite Forall_forall in IHf. unfold mk_struct. destruct (existsb _ _); [reflexivity|]. apply opn_struct.
    split.
    + intros g Hg. apply in_app_iff in Hg as [Hg|Hg].
      * apply in_map_iff in Hg as [f [<- Hf]]. unfold unify_left.
        destruct (field_of (flabel f) fs') as [f'|] eqn:F; cbn [fval snd].
        -- apply field_of_some in F as [Hf' _]. apply (IHf f Hf (WU1 f Hf) _ (WW1 f' Hf')).
        -- apply (IHf f Hf (WU1 f Hf) _ WW2).
      * apply in_flat_map in Hg as [f' [Hf' Hg]]. unfold unify_right in Hg.
        destruct (field_of (flabel f') fs); [contradiction|]. destruct Hg as [<-|[]]. cbn [fval snd].
        apply (IHr WU2 _ (WW1 f' Hf')).
    + exists (unify u w). split; [reflexivity|]. apply (IHr WU2 w WW2).
Qed.

(** *** Structs stay structs *)

Lemma unify_struct_or_bot : forall v w, is_struct v = true -> is_struct w = true ->
  is_struct (unify v w) = true \/ unify v w = VBot.
Proof.
  intros [] [] H K; try discriminate. rewrite unify_VStruct. unfold mk_struct.
  destruct (existsb _ _); [right|left]; reflexivity.
Qed.

Lemma is_struct_opened : forall v, is_struct v = true -> is_struct (opened v) = true.
Proof. intros [] H; try discriminate. reflexivity. Qed.

Lemma default_struct : forall v, is_struct v = true -> default v = (v, false).
Proof. intros [] H; try discriminate. reflexivity. Qed.

(** *** Forward within a major *)

Lemma forward_inv : forall l n (P : nat -> val -> Prop),
  (forall s, In s (all_schemas l) -> exists v, sd_def (s_sd s) = CV v) ->
  (forall j s v w, S j <= n -> nth_error (all_schemas l) (S j) = Some s -> sd_def (s_sd s) = CV v ->
     P j w -> P (S j) (unify (opened w) (opened v))) ->
  forall m k w o, n = k + m ->
    (forall j s s', k <= j -> S j <= n -> nth_error (all_schemas l) j = Some s ->
       nth_error (all_schemas l) (S j) = Some s' -> fst (s_v s) = fst (s_v s')) ->
    P k w -> cue_trans ev l n k (CV w) o ->
    (exists j w', k < j /\ j <= n /\ o = None /\ P j w' /\ eval w' None = Bot) \/
    (exists w', o = Some (CV w') /\ P n w').
Proof.
  intros l n P F Step m. induction m as [|m IH]; intros k w o En M Pk T.
  - assert (n = k) by lia. subst n.
    inversion T as [d|k' d s s' o' Lt|k' d s s' c o' Ne|k' d s s' c Ne]; subst.
    + right. exists w. split; [reflexivity|]. rewrite !Nat.add_0_r. exact Pk.
    + lia.
    + exfalso. lia.
    + exfalso. lia.
  - inversion T as [d|k' d s s' o' Lt Hs Hs' Em A|k' d s s' c o' Ne Hs Hs' Em|k' d s s' c Ne Hs Hs' Em]; subst.
    + lia.
    + destruct (F s') as [v Ev]; [exact (nth_error_In _ _ Hs')|].
      rewrite Ev in A. cbn [ev_embed cue_fragment c_embed] in A.
      assert (Pn : P (S k) (unify (opened w) (opened v))).
      { apply (Step k s' v w); auto; lia. }
      inversion A as [k' d Hb|k' d o' Hb T']; subst.
      * left. exists (S k), (unify (opened w) (opened v)). split; [lia|]. split; [lia|].
        split; [reflexivity|]. split; [exact Pn|].
        cbn in Hb. destruct (eval _ None); [reflexivity|discriminate|discriminate].
      * destruct (IH (S k) (unify (opened w) (opened v)) o) as [[j [w' [J1 [J2 J3]]]]|R]; auto.
        -- lia.
        -- intros j a b Hj. apply M. lia.
        -- left. exists j, w'. split; [lia|]. split; [lia|exact J3].
    + exfalso. unfold toward in Hs'. destruct (Nat.ltb_spec (k + S m) k); [lia|].
      destruct Em as [Em|Em]; [lia|]. apply Em. apply (M k); auto; try lia.
    + exfalso. unfold toward in Hs'. destruct (Nat.ltb_spec (k + S m) k); [lia|].
      destruct Em as [Em|Em]; [lia|]. apply Em. apply (M k); auto; try lia.
Qed.

(** Between two schemas of the same major there are only schemas of that major. *)
Lemma same_major_between : forall l, bound ev l -> forall k n s t,
  nth_error (all_schemas l) k = Some s -> nth_error (all_schemas l) n = Some t ->
  fst (s_v s) = fst (s_v t) ->
  forall j a b, k <= j -> S j <= n -> nth_error (all_schemas l) j = Some a ->
    nth_error (all_schemas l) (S j) = Some b -> fst (s_v a) = fst (s_v b).
Proof.
  intros l B k n s t Hk Hn E j a b J1 J2 Ha Hb.
  assert (W : LineageProofs.wf l) by (apply (bound_wf ev); exact B).
  apply all_schemas_at in Hk, Hn, Ha, Hb.
  pose proof (sch_at_v l W _ _ Hk) as Vk. pose proof (sch_at_v l W _ _ Hn) as Vn.
  pose proof (sch_at_v l W _ _ Ha) as Va. pose proof (sch_at_v l W _ _ Hb) as Vb.
  pose proof (sorted_nth _ (wf_sorted l W) k j _ _ J1 Vk Va) as L1.
  pose proof (sorted_nth _ (wf_sorted l W) j (S j) _ _ ltac:(lia) Va Vb) as L2.
  pose proof (sorted_nth _ (wf_sorted l W) (S j) n _ _ J2 Vb Vn) as L3.
  assert (Q : forall u v, vle u v -> (fst u <= fst v)%N)
    by (intros u v [K|K]; [unfold vlt in K; lia|rewrite K; lia]).
  apply Q in L1, L2, L3. lia.
Qed.

Lemma not_bot_struct : forall v, is_struct v = true \/ v = VBot -> eval v None <> Bot -> is_struct v = true.
Proof. intros v [H|H] K; [exact H|]. subst. exfalso. apply K. reflexivity. Qed.

Lemma forward_keeps : forall rm l,
  bound ev l -> l_lensmap l = [] -> dense (map s_v (all_schemas l)) ->
  exact_cue_lenses l -> struct_lineage l ->
  forall i k n t fuel df r lac,
    i_valid i = true -> i_raw i = CV (embed (DStruct df)) -> dwf (DStruct df) ->
    nth_error (all_schemas l) k = Some (i_sch i) -> nth_error (all_schemas l) n = Some t ->
    k <= n -> fst (s_v (i_sch i)) = fst (s_v t) -> (fst (s_v t) <= 2)%N ->
    translate ev rm (S fuel) i (s_v t) = Ok (r, lac) ->
    i_sch r = t /\
    exists x y vt, sd_def (s_sd t) = CV vt /\
      denotes (i_raw r) x /\ extends (DStruct df) x /\
      (forall j s v, k < j -> j <= n -> nth_error (all_schemas l) j = Some s -> sd_def (s_sd s) = CV v ->
         inst (opened v) x = true) /\
      denotes (c_unify (CV vt) (i_raw r)) y /\ extends (DStruct df) y /\ inst vt y = true.
Proof.
  intros rm l B LM Dn X F i k n t fuel df r lac Hv Hr D Hk Hn Le Em Mt T.
  assert (Hst : ev_struct ev (i_raw i) = true) by (rewrite Hr; reflexivity).
  destruct (translate_cue ev rm l B LM Dn X i k n t fuel Hv Hst Hk Hn ltac:(rewrite Em; auto)) as [o [Ho [_ Et]]].
  rewrite T in Et. rewrite Hr in Ho.
  set (P := fun (m : nat) (w : val) =>
    CueSem.wf w /\ opn w = true /\ (is_struct w = true \/ w = VBot) /\
    (forall x, inst w x = true -> inst (embed (DStruct df)) x = true /\
       forall j s v, k < j -> j <= m -> nth_error (all_schemas l) j = Some s -> sd_def (s_sd s) = CV v ->
         inst (opened v) x = true)).
  assert (Pk : P k (embed (DStruct df))).
  { split; [apply wf_embed; exact D|]. split; [rewrite <- opened_embed; apply opn_opened|].
    split; [left; reflexivity|]. intros x Hx. split; [exact Hx|]. intros j s v J1 J2. lia. }
  assert (Step : forall j s v w, S j <= n -> nth_error (all_schemas l) (S j) = Some s -> sd_def (s_sd s) = CV v ->
     P j w -> P (S j) (unify (opened w) (opened v))).
  { intros j s v w J Hs Ev [Ww [Ow [Sw Iw]]]. rewrite (opened_opn w Ow).
    destruct (F s (nth_error_In _ _ Hs)) as [v' [Ev' [Wv Tv]]]. rewrite Ev in Ev'. injection Ev' as <-.
    assert (Wo := wf_opened v Wv).
    split; [apply wf_unify; assumption|]. split; [apply opn_unify; [exact Ow|apply opn_opened]|].
    split.
    { destruct Sw as [Sw| ->]; [|right; destruct (opened v); reflexivity].
      apply unify_struct_or_bot; [exact Sw|apply is_struct_opened; exact Tv]. }
    intros x Hx. rewrite (inst_unify w Ww (opened v) Wo x) in Hx. apply andb_true_iff in Hx as [Hx1 Hx2].
    destruct (Iw x Hx1) as [A1 A2]. split; [exact A1|]. intros j' s' v' J1 J2 Hs' Ev'.
    destruct (Nat.eq_dec j' (S j)) as [->|Nj].
    - rewrite Hs in Hs'. injection Hs' as <-. rewrite Ev in Ev'. injection Ev' as <-. exact Hx2.
    - apply (A2 j' s' v'); auto. lia. }
  destruct (forward_inv l n P) with (m := n - k) (k := k) (w := embed (DStruct df)) (o := o)
    as [[j [w' [_ [_ [-> _]]]]]|[w' [-> [Ww [Ow [Sw Iw]]]]]]; auto.
  - intros s Hs. destruct (F s Hs) as [v [Ev _]]. eauto.
  - lia.
  - exact (same_major_between l B k n _ _ Hk Hn Em).
  - discriminate Et.
  - cbn [ev_default cue_fragment] in Et.
    assert (E0 : fst (default w') = w').
    { destruct Sw as [Sw| ->]; [rewrite (default_struct _ Sw)|]; reflexivity. }
    rewrite E0 in Et. cbn [ev_json_ok cue_fragment] in Et.
    destruct (eval w' None) as [| |x] eqn:Ex; try discriminate.
    destruct (validate ev t (CV w')) as [i'|x'| |] eqn:V; try discriminate.
    injection Et as <- ->. apply validate_ok in V as [C ->]. cbn [i_sch i_raw]. split; [reflexivity|].
    destruct (F t (nth_error_In _ _ Hn)) as [vt [Evt [Wvt _]]].
    apply (conforms_con t vt w' Evt) in C as [y Ey].
    assert (Ix := eval_inst w' Ww None x Ex). destruct (Iw x Ix) as [Ix1 Ix2].
    assert (Iy := eval_inst _ (wf_unify vt Wvt w' Ww) None y Ey).
    rewrite (inst_unify vt Wvt w' Ww y) in Iy. apply andb_true_iff in Iy as [Iy1 Iy2].
    exists x, y, vt. split; [exact Evt|]. split; [exists w'; auto|].
    split; [apply inst_embed_extends; assumption|]. split; [exact Ix2|].
    split; [exists (unify vt w'); auto|]. split; [|exact Iy1].
    apply inst_embed_extends; [exact D|]. exact (proj1 (Iw y Iy2)).
Qed.

Lemma forward_complete : forall rm id fv lindef e opts l,
  BindLineage ev id fv lindef e opts = Ok l -> negb fv && existsb is_skip opts = false ->
  l_lensmap l = [] -> dense (map s_v (all_schemas l)) ->
  exact_cue_lenses l -> fragment_lineage l ->
  forall i k n t fuel df v,
    i_valid i = true -> i_raw i = CV (embed (DStruct df)) -> dwf (DStruct df) ->
    nth_error (all_schemas l) k = Some (i_sch i) -> nth_error (all_schemas l) n = Some t ->
    k <= n -> fst (s_v (i_sch i)) = fst (s_v t) -> (fst (s_v t) <= 2)%N ->
    sd_def (s_sd (i_sch i)) = CV v -> inst v (DStruct df) = true ->
    exists r, translate ev rm (S fuel) i (s_v t) = Ok (r, []) /\ i_sch r = t /\ i_valid r = true /\
      denotes (i_raw r) (DStruct df).
Proof.
  intros rm id fv lindef e opts l B Sk LM Dn X F i k n t fuel df v Hv Hr D Hk Hn Le Em Mt Ev0 Hi.
  assert (Bd : bound ev l) by (unfold bound; eauto 6).
  assert (W : LineageProofs.wf l) by (apply (bound_wf ev); exact Bd).
  assert (Hst : ev_struct ev (i_raw i) = true) by (rewrite Hr; reflexivity).
  destruct (translate_cue ev rm l Bd LM Dn X i k n t fuel Hv Hst Hk Hn ltac:(rewrite Em; auto)) as [o [Ho [_ Et]]].
  rewrite Hr in Ho.
  assert (St : strict_vs (l_allv l)).
  { rewrite <- all_schemas_versions by exact W. apply dense_strict in Dn as [Dn _]; exact Dn. }
  assert (Mem : forall j s v', k <= j -> j <= n -> nth_error (all_schemas l) j = Some s ->
            sd_def (s_sd s) = CV v' -> inst v' (DStruct df) = true).
  { intros j s v' J1 J2 Hs Ev'.
    assert (Q : exists u, sd_def (s_sd s) = CV u /\ inst u (DStruct df) = true).
    { apply (within_major_pred ev fv opts id lindef e l
               (fun s => exists u, sd_def (s_sd s) = CV u /\ inst u (DStruct df) = true) B)
        with (s1 := i_sch i).
      - rewrite make_cfg_spec. exact Sk.
      - exact St.
      - intros a b Ha Hb Sub [u [Ea Ia]]. destruct (F b Hb) as [u' [Eb _]]. exists u'. split; [exact Eb|].
        rewrite Ea, Eb in Sub. exact (subs_sound u' u _ Sub Ia).
      - exact (nth_error_In _ _ Hk).
      - exact (nth_error_In _ _ Hs).
      - pose proof (same_major_between l Bd k n _ _ Hk Hn Em) as SM. clear - SM Hk Hs J1 J2.
        revert s Hs. induction j as [|j IH]; intros s Hs.
        + assert (k = 0) by lia. subst k. congruence.
        + destruct (Nat.eq_dec k (S j)) as [->|Nk]; [congruence|].
          destruct (nth_error (all_schemas l) j) as [p|] eqn:Hp.
          * rewrite (IH ltac:(lia) ltac:(lia) p eq_refl). apply (SM j p s); auto; lia.
          * exfalso. apply nth_error_None in Hp. assert (S j < length (all_schemas l)) by (apply nth_error_Some; congruence).
            lia.
      - apply all_schemas_at in Hk, Hs. apply (sorted_nth _ (wf_sorted l W) k j); auto; apply sch_at_v; auto.
      - exists v. auto. }
    destruct Q as [u [Eu Iu]]. rewrite Ev' in Eu. injection Eu as <-. exact Iu. }
  set (P := fun (m : nat) (w : val) => CueSem.wf w /\ opn w = true /\ k <= m /\ pin w (DStruct df)).
  destruct (forward_inv l n P) with (m := n - k) (k := k) (w := embed (DStruct df)) (o := o)
    as [[j [w' [_ [_ [_ [Pj Ej]]]]]]|[w' [-> [Ww [Ow [_ Pw]]]]]]; auto.
  - intros s Hs. destruct (F s Hs) as [u [Eu _]]. eauto.
  - intros j s u w J Hs Eu [Ww [Ow [Kj Pw]]]. rewrite (opened_opn w Ow).
    destruct (F s (nth_error_In _ _ Hs)) as [u' [Eu' [Wu [Su _]]]]. rewrite Eu in Eu'. injection Eu' as <-.
    assert (Wo := wf_opened u Wu).
    split; [apply wf_unify; assumption|]. split; [apply opn_unify; [exact Ow|apply opn_opened]|].
    split; [lia|]. apply pin_unify; auto; [apply simple_opened; exact Su|]. apply inst_opened.
    apply (Mem (S j) s u); auto; lia.
  - lia.
  - exact (same_major_between l Bd k n _ _ Hk Hn Em).
  - split; [apply wf_embed; exact D|]. split; [rewrite <- opened_embed; apply opn_opened|].
    split; [lia|apply pin_embed].
  - exfalso. destruct Pj as [_ [_ [_ Pj]]]. rewrite (eval_pin _ _ Pj) in Ej. discriminate.
  - assert (Sw : is_struct w' = true) by (inversion Pw; reflexivity).
    cbn [ev_default cue_fragment] in Et. rewrite (default_struct _ Sw) in Et. cbn [fst ev_json_ok cue_fragment] in Et.
    rewrite (eval_pin _ _ Pw) in Et.
    destruct (F t (nth_error_In _ _ Hn)) as [vt [Evt [Wvt [Svt _]]]].
    assert (C : conforms ev t (CV w')).
    { apply (conforms_con t vt w' Evt). apply (con_unify_pin (DStruct df)); auto.
      apply (Mem n t vt); auto. }
    assert (V : validate ev t (CV w') = Ok (mkInst (CV w') "" t true)) by (apply validate_ok; auto).
    rewrite V in Et. exists (mkInst (CV w') "" t true). split; [exact Et|]. split; [reflexivity|].
    split; [reflexivity|]. exists w'. split; [reflexivity|]. apply eval_pin. exact Pw.
Qed.

End F.
