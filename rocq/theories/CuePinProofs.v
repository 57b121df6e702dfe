(** Values that stand for given data, up to optional fields and constraints on
    fields the data does not have. *)
From Verif Require Import Prelude CueFrag CueSem CueProofs Hydrate HydrateSem HydrateProofs
  HydrateFacts CueEval CueEvalSem CueEvalProofs CueKeepProofs.
Local Open Scope string_scope.
Local Open Scope list_scope.

Definition regs (fs : list (string * bool * val)) : list (string * bool * val) :=
  filter (fun f => negb (fopt f)) fs.

Inductive pin : val -> data -> Prop :=
| pin_atom : forall a, pin (VAtom a) (DAtom a)
| pin_or : forall a ds, ds <> [] -> (forall x, In x ds -> snd x = VAtom a) -> pin (VOr ds) (DAtom a)
| pin_list : forall ws l, Forall2 pin ws l -> pin (VList ws None) (DList l)
| pin_struct : forall fs rest df,
    Forall2 (fun f (kx : string * data) => flabel f = fst kx /\ pin (fval f) (snd kx)) (regs fs) df ->
    pin (VStruct fs rest) (DStruct df).

Lemma pin_not_bot : forall w d, pin w d -> w <> VBot.
Proof. intros w d H. inversion H; discriminate. Qed.

Lemma pin_embed : forall d, pin (embed d) d.
Proof.
  intros d. induction d as [a|l IH|l IH] using data_ind'; cbn [embed]; constructor.
  - induction IH; cbn; constructor; assumption.
  - induction IH; cbn; constructor; auto.
Qed.

Lemma eval_pin : forall d w, pin w d -> eval w None = Con d.
Proof.
  intros d. induction d as [a|l IH|l IH] using data_ind'; intros w H;
    inversion H as [b|b ds Hn H2|ws m H2|fs rest m H2]; subst.
  - reflexivity.
  - cbn [eval]. apply pick_same; [apply deq_atom| |].
    + intros x Hx. apply in_map_iff in Hx as [y [<- Hy]]. right. cbn [snd]. rewrite (H2 y Hy). reflexivity.
    + destruct ds as [|y ds]; [contradiction|]. exists (fst y, eval (snd y) None).
      split; [left; reflexivity|]. cbn [snd]. rewrite (H2 y (or_introl eq_refl)). reflexivity.
  - cbn [eval]. rewrite <- of_list_Con. f_equal. clear H. induction H2; [reflexivity|].
    inversion IH as [|? ? I1 I2]; subst. cbn [map]. f_equal; [apply I1; assumption|apply IHForall2; assumption].
  - cbn [eval]. rewrite <- of_struct_Con. f_equal.
    assert (E : forall fs0, flat_map (fun f : string * bool * val =>
                  if snd (fst f) then [] else [(fst (fst f), eval (snd f) None)]) fs0
                = map (fun f => (flabel f, eval (fval f) None)) (regs fs0)).
    { induction fs0 as [|f fs0 IHf]; [reflexivity|]. cbn [flat_map regs filter]. unfold fopt at 1.
      destruct (snd (fst f)); cbn [negb app map]; [exact IHf|]. rewrite IHf. reflexivity. }
    rewrite E. clear E H. induction H2 as [|f kx ? ? [E P] _ IHF]; [reflexivity|].
    inversion IH as [|? ? I1 I2]; subst.
    cbn [map]. f_equal; [|apply IHF; assumption]. rewrite E. f_equal. apply I1. exact P.
Qed.

(** *** Scalars *)

Lemma atom_l : forall a s, scalar_val s = true ->
  unify (VAtom a) s = if inst s (DAtom a) then VAtom a else VBot.
Proof.
  intros a s H. destruct s as [| |b|t|lo hi| | |]; try discriminate; [destruct a; reflexivity| | |].
  - destruct (atom_eqb_spec a b) as [->|N].
    + cbn. rewrite (proj2 (atom_eqb_eq b b) eq_refl). destruct b; reflexivity.
    + cbn. destruct (atom_eqb a b) eqn:E; [apply atom_eqb_eq in E; contradiction|].
      destruct (atom_eqb b a) eqn:E'; [apply atom_eqb_eq in E'; subst; contradiction|].
      destruct a; reflexivity.
  - cbn. destruct a, t; reflexivity.
  - cbn. destruct a; reflexivity.
Qed.

Lemma atom_r : forall a s, scalar_val s = true ->
  unify s (VAtom a) = if inst s (DAtom a) then VAtom a else VBot.
Proof.
  intros a s H. destruct s as [| |b|t|lo hi| | |]; try discriminate; [destruct a; reflexivity| | |].
  - cbn. destruct (atom_eqb_spec b a) as [->|N].
    + destruct a; reflexivity.
    + destruct b, a; reflexivity.
  - cbn. destruct a, t; reflexivity.
  - cbn. destruct a; reflexivity.
Qed.

Lemma pin_mk_or : forall a ds,
  (forall x, In x ds -> snd x = VAtom a \/ snd x = VBot) -> (exists x, In x ds /\ snd x = VAtom a) ->
  pin (mk_or ds) (DAtom a).
Proof.
  intros a ds H [x [Hx Ex]]. unfold mk_or.
  assert (K : forall y, In y (filter (fun d : bool * val => negb (is_bot (snd d))) ds) -> snd y = VAtom a).
  { intros y Hy. apply filter_In in Hy as [Hy By]. destruct (H y Hy) as [E|E]; [exact E|].
    rewrite E in By. discriminate. }
  assert (J : In x (filter (fun d : bool * val => negb (is_bot (snd d))) ds)).
  { apply filter_In. split; [exact Hx|]. rewrite Ex. reflexivity. }
  destruct (filter _ ds) as [|y [|z l]].
  - contradiction.
  - rewrite (K y (or_introl eq_refl)). constructor.
  - constructor; [discriminate|]. exact K.
Qed.

Lemma unify_or_or : forall xs ys,
  unify (VOr xs) (VOr ys) =
  mk_or (flat_map (fun x : bool * val =>
           map (fun y : bool * val =>
             ((existsb fst xs || existsb fst ys) && (fst x || negb (existsb fst xs))
              && (fst y || negb (existsb fst ys)),
              unify (snd x) (snd y))) ys) xs).
Proof. reflexivity. Qed.

(** A simple value that admits an atom: [_], a scalar or a disjunction of
    scalars. *)
Lemma simple_atom : forall s a, simple s = true -> inst s (DAtom a) = true ->
  s = VTop \/ scalar_val s = true \/
  exists ds, s = VOr ds /\ (forall d, In d ds -> scalar_val (snd d) = true)
    /\ exists d, In d ds /\ inst (snd d) (DAtom a) = true.
Proof.
  intros s a H Hi. destruct s as [| | | | |ds| |]; try discriminate; auto.
  right. right. exists ds. split; [reflexivity|]. split; [intros d Hd; exact (simple_or ds d H Hd)|].
  cbn [inst] in Hi. apply existsb_exists in Hi. exact Hi.
Qed.

Lemma pin_unify_atom : forall a w s, pin w (DAtom a) -> simple s = true -> inst s (DAtom a) = true ->
  pin (unify w s) (DAtom a) /\ pin (unify s w) (DAtom a).
Proof.
  intros a w s P S Hi. destruct (simple_atom s a S Hi) as [->|[Hs|[ds [-> [Hs [d [Hd Hd']]]]]]].
  - rewrite unify_VTop_r, unify_VTop_l. auto.
  - inversion P as [b|b ws Hn Hw| |]; subst.
    + rewrite (atom_l a s Hs), (atom_r a s Hs), Hi. split; constructor.
    + assert (Q : is_or s = false /\ s <> VBot /\ s <> VTop).
      { destruct s; try discriminate; repeat split; discriminate. }
      destruct Q as [Q1 [Q2 Q3]]. rewrite (unify_or_l ws s Q1 Q2 Q3), (unify_or_r s ws Q1 Q2 Q3).
      destruct ws as [|w0 ws]; [contradiction|].
      split; apply pin_mk_or.
      * intros x Hx. apply in_map_iff in Hx as [y [<- Hy]]. cbn [snd]. rewrite (Hw y Hy), (atom_l a s Hs), Hi. auto.
      * eexists. split; [left; reflexivity|]. cbn [snd]. rewrite (Hw w0 (or_introl eq_refl)), (atom_l a s Hs), Hi. reflexivity.
      * intros x Hx. apply in_map_iff in Hx as [y [<- Hy]]. cbn [snd]. rewrite (Hw y Hy), (atom_r a s Hs), Hi. auto.
      * eexists. split; [left; reflexivity|]. cbn [snd]. rewrite (Hw w0 (or_introl eq_refl)), (atom_r a s Hs), Hi. reflexivity.
  - inversion P as [b|b ws Hn Hw| |]; subst.
    + rewrite unify_or_r by (reflexivity || discriminate). rewrite unify_or_l by (reflexivity || discriminate).
      split; apply pin_mk_or.
      * intros x Hx. apply in_map_iff in Hx as [y [<- Hy]]. cbn [snd]. rewrite (atom_l a _ (Hs y Hy)).
        destruct (inst (snd y) (DAtom a)); auto.
      * exists (fst d, unify (VAtom a) (snd d)). split; [apply in_map_iff; exists d; auto|].
        cbn [snd]. rewrite (atom_l a _ (Hs d Hd)), Hd'. reflexivity.
      * intros x Hx. apply in_map_iff in Hx as [y [<- Hy]]. cbn [snd]. rewrite (atom_r a _ (Hs y Hy)).
        destruct (inst (snd y) (DAtom a)); auto.
      * exists (fst d, unify (snd d) (VAtom a)). split; [apply in_map_iff; exists d; auto|].
        cbn [snd]. rewrite (atom_r a _ (Hs d Hd)), Hd'. reflexivity.
    + destruct ws as [|w0 ws]; [contradiction|]. rewrite !unify_or_or. split; apply pin_mk_or.
      * intros x Hx. apply in_flat_map in Hx as [y [Hy Hx]]. apply in_map_iff in Hx as [z [<- Hz]]. cbn [snd].
        rewrite (Hw y Hy), (atom_l a _ (Hs z Hz)). destruct (inst (snd z) (DAtom a)); auto.
      * eexists. split.
        -- apply in_flat_map. exists w0. split; [left; reflexivity|]. apply in_map_iff. exists d.
           split; [reflexivity|exact Hd].
        -- cbn [snd]. rewrite (Hw w0 (or_introl eq_refl)), (atom_l a _ (Hs d Hd)), Hd'. reflexivity.
      * intros x Hx. apply in_flat_map in Hx as [y [Hy Hx]]. apply in_map_iff in Hx as [z [<- Hz]]. cbn [snd].
        rewrite (Hw z Hz), (atom_r a _ (Hs y Hy)). destruct (inst (snd y) (DAtom a)); auto.
      * eexists. split.
        -- apply in_flat_map. exists d. split; [exact Hd|]. apply in_map_iff. exists w0.
           split; [reflexivity|left; reflexivity].
        -- cbn [snd]. rewrite (Hw w0 (or_introl eq_refl)), (atom_r a _ (Hs d Hd)), Hd'. reflexivity.
Qed.

(** *** Lists *)

Lemma simple_not_or : forall s d, simple s = true -> inst s d = true ->
  (forall a, d <> DAtom a) -> scalar_val s = false /\ is_or s = false.
Proof.
  intros s d S H Hd. destruct s as [| | | | |ds| |]; try discriminate; auto;
    try (destruct d as [b| |]; try discriminate; exfalso; exact (Hd b eq_refl)).
  exfalso. cbn [inst] in H. apply existsb_exists in H as [x [Hx H]].
  destruct (scalar_eval (snd x) d (simple_or ds x S Hx)) as [E|[_ [_ [a Ha]]]]; [|exact (Hd a Ha)].
  rewrite (scalar_inst_eval _ _ (simple_or ds x S Hx) H) in E. discriminate.
Qed.

Lemma mk_list_pinned : forall ws l, Forall2 pin ws l -> mk_list ws None = VList ws None.
Proof.
  intros ws l H. unfold mk_list. destruct (existsb is_bot ws) eqn:E; [|reflexivity]. exfalso.
  apply existsb_exists in E as [w [Hw E]]. induction H as [|x y ? ? P _ IH]; [contradiction|].
  destruct Hw as [<-|Hw]; [|exact (IH Hw)]. apply pin_not_bot in P. destruct x; try discriminate. contradiction.
Qed.

Lemma pin_unify_list : forall l,
  Forall (fun d => forall w s, pin w d -> wf w -> wf s -> simple s = true -> inst s d = true -> pin (unify w s) d) l ->
  forall ws es r, Forall2 pin ws l -> (forall w, In w ws -> wf w) ->
  (forall e, In e es -> wf e) -> opt_all wf r ->
  (forall e, In e es -> simple e = true) -> (forall u, r = Some u -> simple u = true) ->
  inst_list r es l = true ->
  exists us, unify_list None r ws es = Some us /\ Forall2 pin us l.
Proof.
  intros l IH. induction IH as [|d l Hd _ IHl]; intros ws es r P Ww We Wr Se Sr H.
  - inversion P; subst. destruct es; [|discriminate]. exists []. split; [reflexivity|constructor].
  - inversion P as [|w ? ws' ? Pw Pws]; subst. destruct es as [|e es]; cbn [inst_list] in H.
    + destruct r as [u|]; [|discriminate]. cbn [unify_list]. eexists. split; [reflexivity|].
      rewrite forallb_forall in H. cbn [map]. constructor.
      * apply Hd; auto; [apply Ww; left; reflexivity|]. apply H. left. reflexivity.
      * destruct (IHl ws' [] (Some u) Pws) as [us [E F]]; auto.
        -- intros w' Hw'. apply Ww. right. exact Hw'.
        -- cbn. apply forallb_forall. intros x Hx. apply H. right. exact Hx.
        -- destruct ws' as [|w' ws']; cbn [unify_list] in E; injection E as <-; exact F.
    + apply andb_true_iff in H as [H1 H2]. cbn [unify_list].
      destruct (IHl ws' es r Pws) as [us [E F]]; auto.
      * intros w' Hw'. apply Ww. right. exact Hw'.
      * intros e' He'. apply We. right. exact He'.
      * intros e' He'. apply Se. right. exact He'.
      * rewrite E. eexists. split; [reflexivity|]. constructor; [|exact F].
        apply Hd; auto; [apply Ww|apply We|apply Se]; left; reflexivity.
Qed.

(** *** Structs *)

Lemma regs_in : forall f fs, In f (regs fs) <-> In f fs /\ fopt f = false.
Proof.
  intros f fs. unfold regs. rewrite filter_In. destruct (fopt f); cbn; intuition congruence.
Qed.

Lemma pinned_field : forall fs df k x,
  Forall2 (fun f (kx : string * data) => flabel f = fst kx /\ pin (fval f) (snd kx)) (regs fs) df ->
  In (k, x) df -> exists f, In f fs /\ fopt f = false /\ flabel f = k /\ pin (fval f) x.
Proof.
  intros fs df k x H Hx.
  assert (G : exists f, In f (regs fs) /\ flabel f = k /\ pin (fval f) x).
  { induction H as [|f kx ? ? [E P] _ IH]; [contradiction|]. destruct Hx as [->|Hx].
    - exists f. split; [left; reflexivity|]. auto.
    - destruct (IH Hx) as [g [Hg G]]. exists g. split; [right; exact Hg|exact G]. }
  destruct G as [f [Hf G]]. apply regs_in in Hf as [Hf Ho]. exists f. auto.
Qed.

Lemma pinned_data : forall fs df f,
  Forall2 (fun f (kx : string * data) => flabel f = fst kx /\ pin (fval f) (snd kx)) (regs fs) df ->
  In f fs -> fopt f = false -> exists x, In (flabel f, x) df /\ pin (fval f) x.
Proof.
  intros fs df f H Hf Ho. assert (Hr : In f (regs fs)) by (apply regs_in; auto).
  induction H as [|g [k y] ? ? [E P] _ IH]; [contradiction|]. destruct Hr as [->|Hr].
  - exists y. cbn [fst snd] in *. subst. split; [left; reflexivity|exact P].
  - destruct (IH Hr) as [x [Hx Px]]. exists x. split; [right; exact Hx|exact Px].
Qed.

(** A label that is regular in an admitting schema is regular in a pinned value. *)
Lemma required_pinned : forall fs df fs' rest' f',
  Forall2 (fun f (kx : string * data) => flabel f = fst kx /\ pin (fval f) (snd kx)) (regs fs) df ->
  inst (VStruct fs' rest') (DStruct df) = true -> In f' fs' -> fopt f' = false ->
  exists f, In f fs /\ fopt f = false /\ flabel f = flabel f'.
Proof.
  intros fs df fs' rest' f' H Hi Hf' Ho. rewrite inst_VStruct in Hi. apply andb_true_iff in Hi as [_ Hi].
  rewrite forallb_forall in Hi. specialize (Hi f' Hf'). rewrite Ho in Hi. cbn in Hi.
  apply has_label_in in Hi as [x Hx]. destruct (pinned_field _ _ _ _ H Hx) as [f [A [B [C _]]]].
  exists f. auto.
Qed.

Lemma same_label : forall fs (f g : string * bool * val), NoDup (map flabel fs) -> In f fs -> In g fs ->
  flabel f = flabel g -> f = g.
Proof.
  intros fs f g N Hf Hg E. pose proof (field_of_in fs f N Hf) as A. pose proof (field_of_in fs g N Hg) as B.
  rewrite E in A. rewrite A in B. injection B as ->. reflexivity.
Qed.

Lemma regs_app : forall a b, regs (a ++ b) = regs a ++ regs b.
Proof. intros a b. apply filter_app. Qed.

Lemma mk_struct_pinned : forall fs rest df,
  Forall2 (fun f (kx : string * data) => flabel f = fst kx /\ pin (fval f) (snd kx)) (regs fs) df ->
  mk_struct fs rest = VStruct fs rest.
Proof.
  intros fs rest df H. apply mk_struct_ok. intros f Hf Ho.
  destruct (pinned_data fs df f H Hf Ho) as [x [_ P]]. exact (pin_not_bot _ _ P).
Qed.

(** Unifying a value that stands for data with a schema that admits the data. *)
Lemma pin_unify : forall d w s, pin w d -> wf w -> wf s -> simple s = true -> inst s d = true ->
  pin (unify w s) d.
Proof.
  intros d. induction d as [a|l IH|df IH] using data_ind'; intros w s P Ww Ws Ss Hi.
  - exact (proj1 (pin_unify_atom a w s P Ss Hi)).
  - destruct (simple_not_or s _ Ss Hi) as [A B]; [discriminate|].
    inversion P as [| |ws ? Pw|]; subst. destruct s as [| |?|?|?|?|es r|fs rest]; try discriminate.
    + rewrite unify_VTop_r. exact P.
    + rewrite unify_VList. rewrite inst_VList in Hi. apply wf_list in Ww as [Ww _]. apply wf_list in Ws as [We Wr].
      apply simple_list in Ss as [Se Sr].
      destruct (pin_unify_list l IH ws es r Pw Ww We Wr Se Sr Hi) as [us [E F]]. rewrite E.
      rewrite (mk_list_pinned us l F). constructor. exact F.
  - destruct (simple_not_or s _ Ss Hi) as [A B]; [discriminate|].
    inversion P as [| | |fs rest ? Pf]; subst. destruct s as [| |?|?|?|?|es r|fs' rest']; try discriminate.
    { rewrite unify_VTop_r. exact P. }
    rewrite unify_VStruct. apply wf_struct in Ww as [N [Wf Wr]]. apply wf_struct in Ws as [N' [Wf' Wr']].
    apply simple_struct in Ss as [Sf Sr]. rewrite Forall_forall in IH.
    assert (K : Forall2 (fun f (kx : string * data) => flabel f = fst kx /\ pin (fval f) (snd kx))
                  (regs (map (unify_left fs' rest') fs ++ flat_map (unify_right fs rest) fs')) df).
    { rewrite regs_app.
      assert (R : regs (flat_map (unify_right fs rest) fs') = []).
      { destruct (regs (flat_map (unify_right fs rest) fs')) as [|g gs] eqn:E; [reflexivity|]. exfalso.
        assert (Hg : In g (regs (flat_map (unify_right fs rest) fs'))) by (rewrite E; left; reflexivity).
        apply regs_in in Hg as [Hg Ho]. apply in_flat_map in Hg as [f' [Hf' Hg]]. unfold unify_right in Hg.
        destruct (field_of (flabel f') fs) eqn:F; [contradiction|]. destruct Hg as [<-|[]].
        destruct (required_pinned _ _ _ _ _ Pf Hi Hf' Ho) as [f [Hf [_ Ef]]].
        exact (field_of_none _ _ F f Hf Ef). }
      rewrite R, app_nil_r.
      assert (L : regs (map (unify_left fs' rest') fs) = map (unify_left fs' rest') (regs fs)).
      { assert (Hopt : forall f, In f fs -> fopt (unify_left fs' rest' f) = fopt f).
        { intros f Hf. unfold unify_left. destruct (field_of (flabel f) fs') as [f'|] eqn:F; [|reflexivity].
          apply field_of_some in F as [Hf' Ef']. cbn [fopt fst snd].
          destruct (fopt f') eqn:Ho'; [unfold fopt; apply andb_true_r|].
          destruct (required_pinned _ _ _ _ _ Pf Hi Hf' Ho') as [g [Hg [Og Eg]]].
          assert (f = g) by (apply (same_label fs f g N Hf Hg); congruence). subst g.
          unfold fopt in Og |- *. rewrite Og. reflexivity. }
        unfold regs. clear - Hopt. induction fs as [|f fs IH]; [reflexivity|]. cbn [map filter].
        rewrite (Hopt f (or_introl eq_refl)). rewrite IH by (intros g Hg; apply Hopt; right; exact Hg).
        destruct (fopt f); reflexivity. }
      rewrite L.
      assert (M : forall f kx, In f (regs fs) -> In kx df -> flabel f = fst kx -> pin (fval f) (snd kx) ->
                flabel (unify_left fs' rest' f) = fst kx /\ pin (fval (unify_left fs' rest' f)) (snd kx)).
      { intros f [k x] Hf Hx E Px. split; [rewrite unify_left_label; exact E|]. cbn [fst snd] in *.
        apply regs_in in Hf as [Hf _].
        rewrite inst_VStruct in Hi. apply andb_true_iff in Hi as [Hi _]. rewrite forallb_forall in Hi.
        specialize (Hi _ Hx). cbn [fst snd] in Hi. unfold inst_at in Hi. unfold unify_left. rewrite E.
        destruct (field_of k fs') as [f'|] eqn:F; cbn [fval snd].
        - apply field_of_some in F as [Hf' _]. apply (IH _ Hx _ _ Px (Wf f Hf) (Wf' f' Hf') (Sf f' Hf') Hi).
        - destruct rest' as [u|]; [|discriminate].
          apply (IH _ Hx _ _ Px (Wf f Hf) Wr' (Sr u eq_refl) Hi). }
      clear - Pf M. induction Pf as [|f kx ? ? [E Px] _ IHF]; [constructor|]. cbn [map]. constructor.
      - apply M; auto; left; reflexivity.
      - apply IHF. intros g ky Hg Hy. apply M; right; assumption. }
    rewrite (mk_struct_pinned _ _ _ K). constructor. exact K.
Qed.

(** The other way round, as [Validate] does it. *)
Lemma con_unify_list : forall l,
  Forall (fun d => forall w s, pin w d -> wf w -> wf s -> simple s = true -> inst s d = true ->
            con (eval (unify s w) None)) l ->
  forall ws es r, Forall2 pin ws l -> (forall w, In w ws -> wf w) ->
  (forall e, In e es -> wf e) -> opt_all wf r ->
  (forall e, In e es -> simple e = true) -> (forall u, r = Some u -> simple u = true) ->
  inst_list r es l = true ->
  exists us, unify_list r None es ws = Some us /\ forall u, In u us -> con (eval u None).
Proof.
  intros l IH. induction IH as [|d l Hd _ IHl]; intros ws es r P Ww We Wr Se Sr H.
  - inversion P; subst. destruct es; [|discriminate]. exists []. split; [reflexivity|]. intros u [].
  - inversion P as [|w ? ws' ? Pw Pws]; subst. destruct es as [|e es]; cbn [inst_list] in H.
    + destruct r as [u|]; [|discriminate]. cbn [unify_list]. eexists. split; [reflexivity|].
      rewrite forallb_forall in H. cbn [map]. intros y [<-|Hy].
      * apply Hd; auto; [apply Ww; left; reflexivity|]. apply H. left. reflexivity.
      * destruct (IHl ws' [] (Some u) Pws) as [us [E F]]; auto.
        -- intros w' Hw'. apply Ww. right. exact Hw'.
        -- cbn. apply forallb_forall. intros x Hx. apply H. right. exact Hx.
        -- destruct ws' as [|w' ws']; cbn [unify_list] in E; injection E as <-; exact (F y Hy).
    + apply andb_true_iff in H as [H1 H2]. cbn [unify_list].
      destruct (IHl ws' es r Pws) as [us [E F]]; auto.
      * intros w' Hw'. apply Ww. right. exact Hw'.
      * intros e' He'. apply We. right. exact He'.
      * intros e' He'. apply Se. right. exact He'.
      * rewrite E. eexists. split; [reflexivity|]. intros y [<-|Hy]; [|exact (F y Hy)].
        apply Hd; auto; [apply Ww|apply We|apply Se]; left; reflexivity.
Qed.

Lemma con_unify_pin : forall d w s, pin w d -> wf w -> wf s -> simple s = true -> inst s d = true ->
  con (eval (unify s w) None).
Proof.
  intros d. induction d as [a|l IH|df IH] using data_ind'; intros w s P Ww Ws Ss Hi.
  - exists (DAtom a). apply eval_pin. exact (proj2 (pin_unify_atom a w s P Ss Hi)).
  - destruct (simple_not_or s _ Ss Hi) as [A B]; [discriminate|].
    inversion P as [| |ws ? Pw|]; subst. destruct s as [| |?|?|?|?|es r|fs rest]; try discriminate.
    + rewrite unify_VTop_l. exists (DList l). apply eval_pin. exact P.
    + rewrite unify_VList. rewrite inst_VList in Hi. apply wf_list in Ww as [Ww _]. apply wf_list in Ws as [We Wr].
      apply simple_list in Ss as [Se Sr].
      destruct (con_unify_list l IH ws es r Pw Ww We Wr Se Sr Hi) as [us [E F]]. rewrite E.
      rewrite eval_mk_list. cbn [eval]. apply con_of_list. intros x Hx. apply in_map_iff in Hx as [u [<- Hu]].
      exact (F u Hu).
  - destruct (simple_not_or s _ Ss Hi) as [A B]; [discriminate|].
    inversion P as [| | |fs rest ? Pf]; subst. destruct s as [| |?|?|?|?|es r|fs' rest']; try discriminate.
    { rewrite unify_VTop_l. exists (DStruct df). apply eval_pin. exact P. }
    rewrite unify_VStruct, eval_mk_struct. apply con_struct_parts.
    apply wf_struct in Ww as [N [Wf Wr]]. apply wf_struct in Ws as [N' [Wf' Wr']].
    apply simple_struct in Ss as [Sf Sr]. rewrite Forall_forall in IH.
    pose proof Hi as Hi'. rewrite inst_VStruct in Hi'. apply andb_true_iff in Hi' as [Hm _].
    rewrite forallb_forall in Hm.
    intros g Hg Ho. apply in_app_iff in Hg as [Hg|Hg].
    + apply in_map_iff in Hg as [f' [<- Hf']]. unfold unify_left in *.
      destruct (field_of (flabel f') fs) as [f|] eqn:F.
      * apply field_of_some in F as [Hf Ef]. cbn [fval snd]. cbn [fopt fst snd] in Ho.
        assert (Of : fopt f = false).
        { destruct (fopt f') eqn:O'; [exact Ho|].
          destruct (required_pinned _ _ _ _ _ Pf Hi Hf' O') as [g [Hg [Og Eg]]].
          assert (f = g) by (apply (same_label fs f g N Hf Hg); congruence). subst g. exact Og. }
        destruct (pinned_data _ _ _ Pf Hf Of) as [x [Hx Px]].
        apply (IH _ Hx _ _ Px (Wf f Hf) (Wf' f' Hf') (Sf f' Hf')).
        specialize (Hm _ Hx). cbn [fst snd] in Hm. unfold inst_at in Hm.
        rewrite Ef, (field_of_in fs' f' N' Hf') in Hm. exact Hm.
      * exfalso. destruct (required_pinned _ _ _ _ _ Pf Hi Hf' Ho) as [f [Hf [_ Ef]]].
        exact (field_of_none _ _ F f Hf Ef).
    + apply in_flat_map in Hg as [f [Hf Hg]]. unfold unify_right in Hg.
      destruct (field_of (flabel f) fs') eqn:F; [contradiction|]. destruct Hg as [<-|[]]. cbn [fval snd].
      destruct (pinned_data _ _ _ Pf Hf Ho) as [x [Hx Px]].
      specialize (Hm _ Hx). cbn [fst snd] in Hm. unfold inst_at in Hm. rewrite F in Hm.
      destruct rest' as [u|]; [|discriminate].
      apply (IH _ Hx _ _ Px (Wf f Hf) Wr' (Sr u eq_refl) Hm).
Qed.
