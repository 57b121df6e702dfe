(** What the joinSchema of a lineage does to its schemas. *)
From Verif Require Import Prelude CueFrag CueSem CueProofs Hydrate HydrateSem HydrateProofs
  HydrateFacts UnifyProofs CueEval CueEvalSem CueEvalProofs CueKeepProofs.
From Verif Require Import Join JoinSem.
Local Open Scope string_scope.
Local Open Scope list_scope.

(** *** Closing *)

Definition close_rest (r : option val) : option val :=
  match r with Some VTop | None => None | Some u => Some (close u) end.

Lemma close_struct : forall fs rest,
  close (VStruct fs rest)
  = VStruct (map (fun f : string * bool * val => (fst f, close (snd f))) fs) (close_rest rest).
Proof. intros fs [[]|]; reflexivity. Qed.

Lemma field_of_close : forall k fs,
  field_of k (map (fun f : string * bool * val => (fst f, close (snd f))) fs)
  = match field_of k fs with Some f => Some (fst f, close (snd f)) | None => None end.
Proof. intros k fs. apply field_of_map. reflexivity. Qed.

Lemma wf_close : forall v, wf v -> wf (close v).
Proof.
  intros v. induction v as [| |a|t|lo hi|ds IH|es r IHe IHr|fs rest IHf IHr] using val_ind'; intros W; try exact W.
  - cbn [close]. apply wf_or_intro. intros d Hd. apply in_map_iff in Hd as [x [<- Hx]].
    rewrite Forall_forall in IH. apply (IH x Hx). apply (wf_or _ W x Hx).
  - apply wf_list in W as [W1 W2]. cbn [close]. apply wf_list_intro.
    + intros e He. apply in_map_iff in He as [x [<- Hx]]. rewrite Forall_forall in IHe. auto.
    + destruct r as [u|]; [apply IHr; exact W2|exact I].
  - apply wf_struct in W as [N [W1 W2]]. rewrite close_struct. apply wf_struct_intro.
    + rewrite map_map. exact N.
    + intros e He. apply in_map_iff in He as [x [<- Hx]]. rewrite Forall_forall in IHf. apply (IHf x Hx). apply (W1 x Hx).
    + destruct rest as [u|]; [|exact I]. specialize (IHr W2). destruct u; try exact I; exact IHr.
Qed.

Lemma simple_close : forall v, simple v = true -> simple (close v) = true.
Proof.
  intros v. induction v as [| |a|t|lo hi|ds IH|es r IHe IHr|fs rest IHf IHr] using val_ind'; intros H; try exact H.
  - cbn [close simple] in *. rewrite forallb_forall in *. intros d Hd.
    apply in_map_iff in Hd as [x [<- Hx]]. cbn [snd]. specialize (H x Hx). destruct (snd x); try discriminate; reflexivity.
  - apply UnifyProofs.simple_list in H as [H1 H2]. cbn [close]. apply UnifyProofs.simple_list. split.
    + intros e He. apply in_map_iff in He as [x [<- Hx]]. rewrite Forall_forall in IHe. apply (IHe x Hx (H1 x Hx)).
    + destruct r as [u|]; [|discriminate]. intros w [= <-]. apply (IHr (H2 u eq_refl)).
  - apply UnifyProofs.simple_struct in H as [H1 H2]. rewrite close_struct. apply UnifyProofs.simple_struct. split.
    + intros e He. apply in_map_iff in He as [x [<- Hx]]. cbn [snd].
      rewrite Forall_forall in IHf. apply (IHf x Hx (H1 x Hx)).
    + destruct rest as [u|]; [|discriminate]. specialize (IHr (H2 u eq_refl)). intros w.
      destruct u; cbn [close_rest]; try discriminate; intros [= <-]; exact IHr.
Qed.

(** Closing admits no more. *)
Lemma inst_close : forall v d, inst (close v) d = true -> inst v d = true.
Proof.
  intros v. induction v as [| |a|t|lo hi|ds IH|es r IHe IHr|fs rest IHf IHr] using val_ind'; intros d H; try exact H.
  - cbn [close inst] in *. rewrite existsb_map in H. cbn [snd] in H. apply existsb_exists in H as [x [Hx H]].
    apply existsb_exists. exists x. split; [exact Hx|]. rewrite Forall_forall in IH. apply (IH x Hx d H).
  - destruct d as [b|l|df]; try discriminate. cbn [close] in H. rewrite inst_VList in *.
    revert l H. induction IHe as [|e es He _ IHes]; intros l H.
    + cbn [map inst_list] in *. destruct r as [u|]; [|exact H].
      rewrite forallb_forall in *. intros x Hx. apply IHr. apply H. exact Hx.
    + destruct l as [|x l]; [discriminate|]. cbn [map inst_list] in *.
      apply andb_true_iff in H as [H1 H2]. rewrite (He x H1). apply IHes. exact H2.
  - destruct d as [b|l|df]; try (destruct rest as [[]|]; discriminate). rewrite close_struct in H. rewrite inst_VStruct in *.
    apply andb_true_iff in H as [H1 H2]. apply andb_true_iff. rewrite forallb_forall in H1, H2.
    rewrite Forall_forall in IHf. split; apply forallb_forall.
    + intros [k x] Hx. specialize (H1 _ Hx). cbn [fst snd] in *. unfold inst_at in *.
      rewrite field_of_close in H1. destruct (field_of k fs) as [f|] eqn:F.
      * cbn [snd] in H1. apply field_of_some in F as [Hf _]. apply (IHf f Hf x H1).
      * destruct rest as [u|]; [|discriminate]. cbn [opt_all] in IHr.
        destruct u; cbn [close_rest] in H1; try discriminate; apply (IHr x H1).
    + intros f Hf. apply (H2 (fst f, close (snd f))). apply in_map_iff. exists f. auto.
Qed.

(** *** Known fields *)

Lemma known_list_inv : forall u w l, known u w (DList l) ->
  forall i x, nth_error l i = Some x -> known (at_index i u) (at_index i w) x.
Proof. intros u w l H i x Hx. inversion H; subst; [constructor|auto]. Qed.

Lemma known_struct_inv : forall u w df, known u w (DStruct df) ->
  (u = VTop /\ w = VTop) \/
  forall k x, In (k, x) df -> names k u || names k w = true /\ known (at_field k u) (at_field k w) x.
Proof. intros u w df H. inversion H; subst; auto. Qed.

Lemma known_sym : forall d u w, known u w d -> known w u d.
Proof.
  intros d. induction d as [a|l IH|l IH] using data_ind'; intros u w H.
  - constructor.
  - constructor. intros i x Hx. rewrite Forall_forall in IH.
    apply IH; [eapply nth_error_In; exact Hx|]. apply (known_list_inv _ _ _ H i x Hx).
  - apply known_struct_inv in H as [[-> ->]|H]; [constructor|]. constructor. intros k x Hx. rewrite Forall_forall in IH.
    destruct (H k x Hx) as [K1 K2]. split; [rewrite orb_comm; exact K1|]. apply (IH _ Hx). exact K2.
Qed.

Lemma inst_list_nth : forall r es l, inst_list r es l = true ->
  forall i x, nth_error l i = Some x ->
    match nth_error es i, r with
    | Some e, _ => inst e x = true
    | None, Some u => inst u x = true
    | None, None => False
    end.
Proof.
  intros r es. induction es as [|e es IH]; intros l H i x Hx.
  - cbn in H. replace (nth_error (@nil val) i) with (@None val) by (destruct i; reflexivity).
    destruct r as [u|].
    + rewrite forallb_forall in H. apply H. eapply nth_error_In. exact Hx.
    + destruct l; [destruct i; discriminate|discriminate].
  - destruct l as [|y l]; [discriminate|]. cbn in H. apply andb_true_iff in H as [H1 H2].
    destruct i as [|i]; cbn in Hx |- *; [injection Hx as <-; exact H1|]. apply (IH l H2 i x Hx).
Qed.

Lemma inst_list_intro : forall r es l, length es <= length l ->
  (forall i x, nth_error l i = Some x ->
    match nth_error es i, r with
    | Some e, _ => inst e x = true
    | None, Some u => inst u x = true
    | None, None => False
    end) -> inst_list r es l = true.
Proof.
  intros r es. induction es as [|e es IH]; intros l L H.
  - cbn. destruct r as [u|].
    + apply forallb_forall. intros x Hx. apply In_nth_error in Hx as [i Hi]. specialize (H i x Hi).
      destruct i; exact H.
    + destruct l as [|x l]; [reflexivity|]. destruct (H 0 x eq_refl).
  - destruct l as [|y l]; [cbn in L; lia|]. cbn. rewrite (H 0 y eq_refl). cbn. apply IH; [cbn in L; lia|].
    intros i x Hx. apply (H (S i) x Hx).
Qed.

Lemma inst_list_length : forall r es l, inst_list r es l = true -> length es <= length l.
Proof.
  intros r es. induction es as [|e es IH]; intros l H; [cbn; lia|].
  destruct l as [|x l]; [discriminate|]. cbn in H |- *. apply andb_true_iff in H as [_ H]. apply IH in H. lia.
Qed.

Lemma names_struct : forall k fs rest,
  names k (VStruct fs rest)
  = match field_of k fs with Some _ => true | None => match rest with Some u => negb (is_top u) | None => false end end.
Proof.
  intros k fs rest. cbn [names].
  assert (E : existsb (fun f => String.eqb k (flabel f)) fs = match field_of k fs with Some _ => true | None => false end).
  { unfold field_of. induction fs as [|f fs IH]; [reflexivity|]. cbn. destruct (String.eqb k (flabel f)); [reflexivity|exact IH]. }
  rewrite E. destruct (field_of k fs); reflexivity.
Qed.

(** Complete data is admitted by the closed value when the value admits it and names
    its fields. *)
Lemma close_exact : forall v, simple v = true -> forall d,
  inst (close v) d = true <-> inst v d = true /\ known v VTop d.
Proof.
  intros v S d. split.
  - intros H. split; [apply inst_close; exact H|]. revert v S H.
    induction d as [a|l IH|l IH] using data_ind'; intros v S H.
    + constructor.
    + constructor. intros i x Hx. change (at_index i VTop) with VTop.
      destruct v as [| |a|t|lo hi|ds|es r|fs rest]; try constructor.
      cbn [close] in H. rewrite inst_VList in H. apply UnifyProofs.simple_list in S as [S1 S2].
      pose proof (inst_list_nth _ _ _ H i x Hx) as K. rewrite nth_error_map in K. cbn [at_index].
      rewrite Forall_forall in IH. assert (Ix : In x l) by (eapply nth_error_In; exact Hx).
      destruct (nth_error es i) as [e|] eqn:E; cbn [option_map] in K.
      * apply IH; auto. apply S1. eapply nth_error_In. exact E.
      * destruct r as [u|]; [|destruct K]. apply IH; auto.
    + destruct v as [| |a|t|lo hi|ds|es r|fs rest]; try discriminate; try constructor.
      * cbn [close inst] in H. rewrite existsb_map in H. apply existsb_exists in H as [y [Hy H]].
        cbn [simple] in S. rewrite forallb_forall in S. specialize (S y Hy). cbn [snd] in H.
        destruct (snd y); discriminate.
      * intros k x Hx. change (names k VTop) with false. rewrite orb_false_r. change (at_field k VTop) with VTop.
        rewrite close_struct, inst_VStruct in H. apply andb_true_iff in H as [H _].
        rewrite forallb_forall in H. specialize (H _ Hx). cbn [fst snd] in H. unfold inst_at in H.
        rewrite field_of_close in H. rewrite names_struct. cbn [at_field].
        apply UnifyProofs.simple_struct in S as [S1 S2]. rewrite Forall_forall in IH.
        destruct (field_of k fs) as [f|] eqn:F.
        -- split; [reflexivity|]. apply field_of_some in F as [Hf _]. apply (IH _ Hx _ (S1 f Hf) H).
        -- destruct rest as [u|]; [|discriminate].
           specialize (S2 u eq_refl).
           destruct u; cbn [close_rest] in H; try discriminate; (split; [reflexivity|]);
             apply (IH _ Hx _ S2 H).
  - intros [H K]. revert v S H K. induction d as [a|l IH|l IH] using data_ind'; intros v S H K.
    + destruct v as [| |b|t|lo hi|ds|es r|fs rest]; try exact H; try discriminate.
      cbn [close inst] in *. rewrite existsb_map. apply existsb_exists in H as [y [Hy H]].
      apply existsb_exists. exists y. split; [exact Hy|]. cbn [snd simple] in *. rewrite forallb_forall in S.
      specialize (S y Hy). destruct (snd y); try discriminate; exact H.
    + pose proof (known_list_inv _ _ _ K) as H2.
      destruct v as [| |b|t|lo hi|ds|es r|fs rest]; try exact H; try discriminate.
      * cbn [close inst] in *. rewrite existsb_map. apply existsb_exists in H as [y [Hy H]].
        cbn [snd simple] in *. rewrite forallb_forall in S.
        specialize (S y Hy). destruct (snd y); discriminate.
      * cbn [close]. rewrite inst_VList in *. apply UnifyProofs.simple_list in S as [S1 S2].
        rewrite Forall_forall in IH. pose proof (inst_list_nth _ _ _ H) as N.
        apply inst_list_intro; [rewrite map_length; eapply inst_list_length; exact H|].
        intros i x Hx. specialize (N i x Hx). specialize (H2 i x Hx). cbn [at_index] in H2.
        assert (Ix : In x l) by (eapply nth_error_In; exact Hx).
        rewrite nth_error_map. destruct (nth_error es i) as [e|] eqn:E; cbn [option_map].
        -- apply IH; auto. apply S1. eapply nth_error_In. exact E.
        -- destruct r as [u|]; [|exact N]. apply IH; auto.
    + apply known_struct_inv in K as [[-> _]|H2]; [reflexivity|].
      destruct v as [| |b|t|lo hi|ds|es r|fs rest]; try exact H; try discriminate.
      * cbn [close inst] in *. rewrite existsb_map. apply existsb_exists in H as [y [Hy H]].
        cbn [snd simple] in *. rewrite forallb_forall in S.
        specialize (S y Hy). destruct (snd y); discriminate.
      * rewrite close_struct. rewrite inst_VStruct in *. apply andb_true_iff in H as [H1 H3]. apply andb_true_iff.
        apply UnifyProofs.simple_struct in S as [S1 S2]. rewrite Forall_forall in IH. rewrite forallb_forall in H1, H3.
        split; apply forallb_forall.
        -- intros [k x] Hx. specialize (H1 _ Hx). cbn [fst snd] in *. unfold inst_at in *. rewrite field_of_close.
           destruct (H2 k x Hx) as [N1 N2]. change (names k VTop) with false in N1. rewrite orb_false_r in N1.
           rewrite names_struct in N1. cbn [at_field] in N2. change (at_field k VTop) with VTop in N2.
           destruct (field_of k fs) as [f|] eqn:F.
           ++ apply field_of_some in F as [Hf _]. apply (IH _ Hx _ (S1 f Hf) H1 N2).
           ++ destruct rest as [u|]; [|discriminate]. specialize (S2 u eq_refl).
              destruct u; cbn [close_rest]; try discriminate; apply (IH _ Hx _ S2 H1 N2).
        -- intros g Hg. apply in_map_iff in Hg as [f [<- Hf]]. apply (H3 f Hf).
Qed.

(** *** The fields of a unification *)

Lemma simple_top : forall u w, simple u = true -> simple w = true -> unify u w = VTop -> u = VTop /\ w = VTop.
Proof.
  intros u w Su Sw H.
  destruct (val_top_dec u) as [->|Tu]; [rewrite unify_VTop_l in H; auto|].
  destruct (val_top_dec w) as [->|Tw]; [rewrite unify_VTop_r in H; auto|]. exfalso.
  assert (N : forall ds, (forall d, In d ds -> snd d <> VTop) -> mk_or ds <> VTop).
  { intros ds Hd. unfold mk_or.
    assert (K : forall d, In d (filter (fun d : bool * val => negb (is_bot (snd d))) ds) -> snd d <> VTop)
      by (intros d K; apply filter_In in K as [K _]; auto).
    destruct (filter _ ds) as [|d [|e l]]; try discriminate. apply K. left. reflexivity. }
  assert (Sc : forall x y, scalar_val x = true -> scalar_val y = true -> unify x y <> VTop).
  { intros x y Hx Hy. destruct x; try discriminate; destruct y; try discriminate; cbn;
      repeat match goal with
      | |- context [if ?b then _ else _] => destruct b
      | |- context [match ?a with ANull => _ | _ => _ end] => destruct a
      end; try discriminate; unfold mk_range;
      repeat match goal with |- context [match ?a with _ => _ end] => destruct a end; discriminate. }
  destruct u as [| |a|t|lo hi|ds|es r|fs rest]; try contradiction;
    destruct w as [| |a'|t'|lo' hi'|ds'|es' r'|fs' rest']; try contradiction; try discriminate;
    try (revert H; apply Sc; reflexivity).
  all: cbn [simple] in Su, Sw; try rewrite forallb_forall in Su; try rewrite forallb_forall in Sw.
  all: try (rewrite unify_or_r in H by (reflexivity || discriminate); revert H; apply N; intros d Hd;
            apply in_map_iff in Hd as [x [<- Hx]]; cbn [snd]; first [apply Sc; [reflexivity|apply (Sw x Hx)]|
            specialize (Sw x Hx); destruct (snd x); discriminate]).
  all: try (rewrite unify_or_l in H by (reflexivity || discriminate); revert H; apply N; intros d Hd;
            apply in_map_iff in Hd as [x [<- Hx]]; cbn [snd]; first [apply Sc; [apply (Su x Hx)|reflexivity]|
            specialize (Su x Hx); destruct (snd x); discriminate]).
  - revert H. apply N. intros d Hd. apply in_flat_map in Hd as [x [Hx Hd]]. apply in_map_iff in Hd as [y [<- Hy]].
    cbn [snd]. apply Sc; [apply (Su x Hx)|apply (Sw y Hy)].
  - rewrite unify_VList in H. destruct (unify_list r r' es es'); [|discriminate]. unfold mk_list in H.
    destruct (existsb is_bot l); discriminate.
  - rewrite unify_VStruct in H. unfold mk_struct in H.
    destruct (existsb _ _); discriminate.
Qed.

(** Data admitted by a value without unions of structs is what the value is. *)
Lemma simple_list_inst : forall v l, simple v = true -> inst v (DList l) = true ->
  v = VTop \/ exists es r, v = VList es r.
Proof.
  intros v l S H. destruct v as [| |a|t|lo hi|ds|es r|fs rest]; try discriminate; eauto.
  cbn [inst] in H. apply existsb_exists in H as [y [Hy H]]. cbn [simple] in S. rewrite forallb_forall in S.
  specialize (S y Hy). destruct (snd y); discriminate.
Qed.

Lemma simple_struct_inst : forall v l, simple v = true -> inst v (DStruct l) = true ->
  v = VTop \/ exists fs r, v = VStruct fs r.
Proof.
  intros v l S H. destruct v as [| |a|t|lo hi|ds|es r|fs rest]; try discriminate; eauto.
  cbn [inst] in H. apply existsb_exists in H as [y [Hy H]]. cbn [simple] in S. rewrite forallb_forall in S.
  specialize (S y Hy). destruct (snd y); discriminate.
Qed.

Lemma unify_list_nth : forall r r' es es' m, unify_list r r' es es' = Some m ->
  forall i, nth_error m i =
    match nth_error es i, nth_error es' i with
    | Some e, Some e' => Some (unify e e')
    | Some e, None => match r' with Some w => Some (unify e w) | None => None end
    | None, Some e' => match r with Some u => Some (unify u e') | None => None end
    | None, None => None
    end.
Proof.
  intros r r' es. induction es as [|e es IH]; intros es' m H i.
  - destruct es' as [|e' es']; cbn [unify_list] in H; [injection H as <-; destruct i; reflexivity|].
    destruct r as [u|]; [|discriminate]. injection H as <-.
    replace (nth_error (@nil val) i) with (@None val) by (destruct i; reflexivity).
    change (nth_error (map (unify u) (e' :: es')) i = match nth_error (e' :: es') i with Some y => Some (unify u y) | None => None end).
    rewrite nth_error_map. reflexivity.
  - destruct es' as [|e' es']; cbn [unify_list] in H.
    + destruct r' as [w|]; [|discriminate]. injection H as <-.
      replace (nth_error (@nil val) i) with (@None val) by (destruct i; reflexivity).
      change (nth_error (map (fun x => unify x w) (e :: es)) i
              = match nth_error (e :: es) i with Some y => Some (unify y w) | None => None end).
      rewrite nth_error_map. reflexivity.
    + destruct (unify_list r r' es es') as [l'|] eqn:E; [|discriminate]. injection H as <-.
      destruct i as [|i]; [reflexivity|]. cbn [nth_error]. apply (IH es' l' E i).
Qed.

Lemma inst_bot_rest : forall (x : data) u, inst u x = true -> u <> VBot.
Proof. intros x u H ->. discriminate. Qed.

(** What the unification says of an element is the unification of what the two say. *)
Lemma at_index_unify : forall es r es' r' l i x, wf (VList es r) -> wf (VList es' r') ->
  inst (VList es r) (DList l) = true -> inst (VList es' r') (DList l) = true ->
  nth_error l i = Some x ->
  at_index i (unify (VList es r) (VList es' r')) = unify (at_index i (VList es r)) (at_index i (VList es' r'))
  /\ inst (at_index i (VList es r)) x = true /\ inst (at_index i (VList es' r')) x = true.
Proof.
  intros es r es' r' l i x W W' H H' Hx.
  assert (U : inst (unify (VList es r) (VList es' r')) (DList l) = true)
    by (rewrite inst_unify, H, H' by assumption; reflexivity).
  rewrite inst_VList in H, H'. pose proof (inst_list_nth _ _ _ H i x Hx) as N.
  pose proof (inst_list_nth _ _ _ H' i x Hx) as N'.
  rewrite unify_VList in *. destruct (unify_list r r' es es') as [m|] eqn:E; [|discriminate].
  pose proof (unify_list_nth _ _ _ _ _ E i) as M. unfold mk_list in *.
  destruct (existsb is_bot m); [discriminate|]. rewrite inst_VList in U.
  pose proof (inst_list_nth _ _ _ U i x Hx) as NU. cbn [at_index].
  destruct (nth_error es i) as [e|], (nth_error es' i) as [e'|]; rewrite M in NU |- *.
  - auto.
  - destruct r' as [w|]; [|contradiction]. auto.
  - destruct r as [u|]; [|contradiction]. auto.
  - destruct r as [u|], r' as [w|]; try contradiction.
    destruct (unify u w) eqn:Euw; try contradiction; auto.
Qed.

Lemma at_field_unify : forall fs rest fs' rest' df k x, wf (VStruct fs rest) -> wf (VStruct fs' rest') ->
  simple (VStruct fs rest) = true -> simple (VStruct fs' rest') = true ->
  inst (VStruct fs rest) (DStruct df) = true -> inst (VStruct fs' rest') (DStruct df) = true ->
  In (k, x) df ->
  let U := unify (VStruct fs rest) (VStruct fs' rest') in
  at_field k U = unify (at_field k (VStruct fs rest)) (at_field k (VStruct fs' rest'))
  /\ names k U = names k (VStruct fs rest) || names k (VStruct fs' rest')
  /\ inst (at_field k (VStruct fs rest)) x = true /\ inst (at_field k (VStruct fs' rest')) x = true.
Proof.
  intros fs rest fs' rest' df k x W W' S S' H H' Hx. cbv zeta.
  assert (U : inst (unify (VStruct fs rest) (VStruct fs' rest')) (DStruct df) = true)
    by (rewrite inst_unify, H, H' by assumption; reflexivity).
  rewrite inst_VStruct in H, H'. apply andb_true_iff in H as [H _]. apply andb_true_iff in H' as [H' _].
  rewrite forallb_forall in H, H'. specialize (H _ Hx). specialize (H' _ Hx). cbn [fst snd] in H, H'.
  unfold inst_at in H, H'. rewrite unify_VStruct in *. unfold mk_struct in *.
  destruct (existsb _ _); [discriminate|]. rewrite !names_struct. cbn [at_field].
  apply UnifyProofs.simple_struct in S as [_ S]. apply UnifyProofs.simple_struct in S' as [_ S'].
  rewrite field_of_app, field_of_map by (intros f; apply unify_left_label).
  destruct (field_of k fs) as [f|] eqn:F.
  - apply field_of_some in F as [Hf Ef]. unfold unify_left. rewrite Ef.
    destruct (field_of k fs') as [f'|] eqn:F'; cbn [fval snd]; [auto|].
    destruct rest' as [w|]; [|discriminate]. auto.
  - rewrite field_of_right by exact F. destruct (field_of k fs') as [f'|] eqn:F'; cbn [fval snd].
    + destruct rest as [u|]; [|discriminate]. rewrite orb_true_r. auto.
    + destruct rest as [u|], rest' as [w|]; try discriminate. split; [reflexivity|]. split; [|auto].
      specialize (S u eq_refl). specialize (S' w eq_refl).
      destruct (is_top u && is_top w) eqn:T.
      * apply andb_true_iff in T as [T1 T2]. destruct u; try discriminate. destruct w; try discriminate. reflexivity.
      * rewrite <- negb_andb, T. destruct (unify u w) eqn:Euw; try reflexivity.
        apply (simple_top u w S S') in Euw as [-> ->]. discriminate.
Qed.

Lemma known_unify : forall d u w, wf u -> wf w -> simple u = true -> simple w = true ->
  inst u d = true -> inst w d = true -> known (unify u w) VTop d <-> known u w d.
Proof.
  intros d. induction d as [a|l IH|l IH] using data_ind'; intros u w Wu Ww Su Sw Hu Hw.
  - split; intros _; constructor.
  - destruct (simple_list_inst u l Su Hu) as [->|[es [r ->]]].
    { rewrite unify_VTop_l. split; apply known_sym. }
    destruct (simple_list_inst w l Sw Hw) as [->|[es' [r' ->]]].
    { rewrite unify_VTop_r. tauto. }
    rewrite Forall_forall in IH. apply wf_list in Wu as Wu'. apply wf_list in Ww as Ww'.
    apply UnifyProofs.simple_list in Su as Su'. apply UnifyProofs.simple_list in Sw as Sw'.
    assert (K : forall i x, nth_error l i = Some x ->
              (known (at_index i (unify (VList es r) (VList es' r'))) VTop x
               <-> known (at_index i (VList es r)) (at_index i (VList es' r')) x)).
    { intros i x Hx. destruct (at_index_unify es r es' r' l i x Wu Ww Hu Hw Hx) as [E [I1 I2]]. rewrite E.
      apply IH; auto; try (eapply nth_error_In; exact Hx); cbn [at_index].
      - destruct (nth_error es i) eqn:N; [apply (proj1 Wu'); eapply nth_error_In; exact N|].
        destruct r; [apply (proj2 Wu')|exact I].
      - destruct (nth_error es' i) eqn:N; [apply (proj1 Ww'); eapply nth_error_In; exact N|].
        destruct r'; [apply (proj2 Ww')|exact I].
      - destruct (nth_error es i) eqn:N; [apply (proj1 Su'); eapply nth_error_In; exact N|].
        destruct r; [apply (proj2 Su'); reflexivity|reflexivity].
      - destruct (nth_error es' i) eqn:N; [apply (proj1 Sw'); eapply nth_error_In; exact N|].
        destruct r'; [apply (proj2 Sw'); reflexivity|reflexivity]. }
    split; intros H; constructor; intros i x Hx; apply (K i x Hx);
      pose proof (known_list_inv _ _ _ H i x Hx) as Z; exact Z.
  - destruct (simple_struct_inst u l Su Hu) as [->|[fs [rest ->]]].
    { rewrite unify_VTop_l. split; apply known_sym. }
    destruct (simple_struct_inst w l Sw Hw) as [->|[fs' [rest' ->]]].
    { rewrite unify_VTop_r. tauto. }
    rewrite Forall_forall in IH. pose proof Wu as Wu'. pose proof Ww as Ww'.
    apply wf_struct in Wu' as [_ [Wu1 Wu2]]. apply wf_struct in Ww' as [_ [Ww1 Ww2]].
    apply UnifyProofs.simple_struct in Su as Su'. apply UnifyProofs.simple_struct in Sw as Sw'.
    assert (K : forall k x, In (k, x) l ->
              names k (unify (VStruct fs rest) (VStruct fs' rest')) = names k (VStruct fs rest) || names k (VStruct fs' rest')
              /\ (known (at_field k (unify (VStruct fs rest) (VStruct fs' rest'))) VTop x
                  <-> known (at_field k (VStruct fs rest)) (at_field k (VStruct fs' rest')) x)).
    { intros k x Hx.
      destruct (at_field_unify fs rest fs' rest' l k x Wu Ww Su Sw Hu Hw Hx) as [E [En [I1 I2]]]. rewrite E.
      split; [exact En|]. apply (IH _ Hx); auto; cbn [at_field].
      - destruct (field_of k fs) as [f|] eqn:N; [apply field_of_some in N as [N _]; apply (Wu1 f N)|].
        destruct rest; [exact Wu2|exact I].
      - destruct (field_of k fs') as [f|] eqn:N; [apply field_of_some in N as [N _]; apply (Ww1 f N)|].
        destruct rest'; [exact Ww2|exact I].
      - destruct (field_of k fs) as [f|] eqn:N; [apply field_of_some in N as [N _]; apply (proj1 Su' f N)|].
        destruct rest; [apply (proj2 Su'); reflexivity|reflexivity].
      - destruct (field_of k fs') as [f|] eqn:N; [apply field_of_some in N as [N _]; apply (proj1 Sw' f N)|].
        destruct rest'; [apply (proj2 Sw'); reflexivity|reflexivity]. }
    split; intros H; (apply known_struct_inv in H as [[H1 H2]|H]; [try discriminate|]); try constructor.
    + apply (simple_top _ _ Su Sw) in H1 as [H1 _]. discriminate.
    + intros k x Hx. destruct (K k x Hx) as [K1 K2]. destruct (H k x Hx) as [G1 G2].
      change (names k VTop) with false in G1. rewrite orb_false_r, K1 in G1. split; [exact G1|]. apply K2. exact G2.
    + intros k x Hx. destruct (K k x Hx) as [K1 K2]. destruct (H k x Hx) as [G1 G2].
      change (names k VTop) with false. rewrite orb_false_r, K1. split; [exact G1|]. apply K2. exact G2.
Qed.

(** *** The definition of a schema *)

Lemma handle_inst : forall j body, wf j -> wf body -> forall d,
  inst (schema_handle j body) d = true -> inst (join_of j) d = true /\ inst body d = true.
Proof.
  intros j body Wj Wb d H. apply inst_close in H.
  assert (W : wf (join_of j)) by (unfold join_of; destruct (is_bot j); [exact I|exact Wj]).
  rewrite inst_unify in H by assumption. apply andb_true_iff. exact H.
Qed.

Lemma handle_exact : forall j body, wf j -> wf body -> simple j = true -> simple body = true -> j <> VBot -> forall d,
  inst (schema_handle j body) d = true <-> inst j d = true /\ inst body d = true /\ known j body d.
Proof.
  intros j body Wj Wb Sj Sb NB d. unfold schema_handle.
  assert (E : join_of j = j) by (unfold join_of; destruct j; try reflexivity; contradiction). rewrite E.
  rewrite close_exact by (apply simple_unify; assumption). rewrite inst_unify by assumption.
  rewrite andb_true_iff. split.
  - intros [[H1 H2] K]. split; [exact H1|]. split; [exact H2|]. apply (known_unify d j body); assumption.
  - intros [H1 [H2 K]]. split; [auto|]. apply known_unify; assumption.
Qed.
