(** Unifying values that agree on the data they complete. *)
From Verif Require Import Prelude CueFrag CueSem CueProofs Hydrate HydrateSem HydrateProofs HydrateFacts.
Local Open Scope string_scope.
Local Open Scope list_scope.

(** *** Evaluation against data ignores how values are built *)

Lemma eval_mk_struct_some : forall fs rest d, NoDup (map flabel fs) ->
  eval (mk_struct fs rest) (Some d) = eval (VStruct fs rest) (Some d).
Proof.
  intros fs rest d N. unfold mk_struct. destruct (existsb _ fs) eqn:E; [|reflexivity].
  destruct d as [|l|df]; try reflexivity. rewrite eval_VStruct'. cbn [eval]. unfold of_struct.
  apply existsb_exists in E as [f [Hf E]]. apply andb_true_iff in E as [E1 E2].
  apply negb_true_iff in E1. rewrite (all_con_bot _ (flabel f)); [reflexivity|].
  apply in_app_iff. destruct (has_label (flabel f) df) eqn:H.
  - left. apply has_label_in in H as [x Hx]. apply in_map_iff. exists (flabel f, x). split; [|exact Hx].
    cbn [fst snd]. f_equal. unfold eval_at. rewrite (field_of_in fs f N Hf).
    apply eval_is_bot. exact E2.
  - right. unfold missing. apply in_flat_map. exists f. split; [exact Hf|].
    rewrite E1, H. left. f_equal. apply eval_is_bot. exact E2.
Qed.

Lemma eval_mk_list_some : forall es rest d,
  eval (mk_list es rest) (Some d) = eval (VList es rest) (Some d).
Proof.
  intros es rest d. unfold mk_list. destruct (existsb is_bot es) eqn:E.
  - destruct d as [|l|]; try reflexivity. rewrite eval_VList. cbn [eval]. symmetry.
    destruct (eval_list rest es l) as [rs|] eqn:F; [|reflexivity].
    assert (B : In Bot rs).
    { revert l rs F. induction es as [|e es IH]; intros l rs F; [discriminate|].
      destruct l as [|x l]; [discriminate|]. cbn [eval_list] in F.
      destruct (eval_list rest es l) as [rs'|] eqn:G; [|discriminate]. injection F as <-.
      cbn [existsb] in E. apply orb_true_iff in E as [E|E].
      - left. apply eval_is_bot. exact E.
      - right. apply (IH E l rs' G). }
    unfold of_list. rewrite (all_con_bot _ tt); [reflexivity|]. apply in_map_iff. exists Bot. auto.
  - destruct rest as [u|]; [|reflexivity]. destruct (is_bot u) eqn:Bu.
    2: { destruct u; try discriminate; reflexivity. }
    destruct u; try discriminate. destruct d as [|l|]; try reflexivity. rewrite !eval_VList.
    assert (G : forall es l, match eval_list None es l with Some rs => of_list rs | None => Bot end
              = match eval_list (Some VBot) es l with Some rs => of_list rs | None => Bot end).
    { clear. induction es as [|e es IH]; intros l.
      - destruct l as [|x l]; [reflexivity|]. cbn. reflexivity.
      - destruct l as [|x l]; [reflexivity|]. cbn [eval_list]. specialize (IH l).
        destruct (eval_list None es l) as [rs|], (eval_list (Some VBot) es l) as [rs'|]; cbn in *;
          try reflexivity.
        + unfold of_list in *. cbn [map all_con].
          destruct (all_con (map (fun r => (tt, r)) rs)) as [[a|]|],
                   (all_con (map (fun r => (tt, r)) rs')) as [[b|]|]; try discriminate;
            destruct (eval e (Some x)); try reflexivity.
          injection IH as IH. cbn [map snd]. rewrite IH. reflexivity.
        + unfold of_list in *. cbn [map all_con].
          destruct (all_con (map (fun r => (tt, r)) rs)) as [[a|]|]; try discriminate;
            destruct (eval e (Some x)); reflexivity.
        + unfold of_list in *. cbn [map all_con].
          destruct (all_con (map (fun r => (tt, r)) rs')) as [[a|]|]; try discriminate;
            destruct (eval e (Some x)); reflexivity. }
    apply G.
Qed.

Lemma eval_none_struct : forall fs rest,
  eval (VStruct fs rest) None = eval (VStruct fs rest) (Some (DStruct [])).
Proof.
  intros fs rest. cbn [eval map app]. f_equal. apply flat_map_ext. intros f.
  unfold has_label. cbn [existsb]. rewrite orb_false_r. reflexivity.
Qed.

(** *** Data unified with a value it is evaluated against *)

Lemma wf_embed : forall d, dwf d -> wf (embed d).
Proof.
  intros d. induction d as [a|l IH|l IH] using data_ind'; intros W; [exact I| |].
  - apply dwf_list in W. cbn. split; [|exact I].
    induction l as [|x l IHl]; [exact I|]. inversion IH; subst. inversion W; subst.
    split; [apply H1; assumption|apply IHl; assumption].
  - apply dwf_struct in W as [N W]. cbn [embed wf]. split; [|split; [|exact I]].
    + rewrite map_map. exact N.
    + clear N. induction l as [|x l IHl]; [exact I|]. inversion IH; subst. inversion W; subst.
      split; [apply H1; assumption|apply IHl; assumption].
Qed.

Lemma unify_emb_or : forall d ds, unify (embed d) (VOr ds)
  = mk_or (map (fun e : bool * val => (fst e, unify (embed d) (snd e))) ds).
Proof. intros d ds. destruct d; reflexivity. Qed.

Lemma unify_or_emb : forall d ds, unify (VOr ds) (embed d)
  = mk_or (map (fun e : bool * val => (fst e, unify (snd e) (embed d))) ds).
Proof. intros d ds. destruct d; reflexivity. Qed.

Lemma has_label_no : forall k df, has_label k df = false <-> no_label k df.
Proof.
  intros k df. unfold no_label. split.
  - intros H HI. apply in_map_iff in HI as [[l x] [E Hx]]. cbn in E. subst l.
    assert (has_label k df = true) by (apply has_label_in; exists x; exact Hx). congruence.
  - intros H. destruct (has_label k df) eqn:E; [|reflexivity]. apply has_label_in in E as [x Hx].
    exfalso. apply H. apply in_map_iff. exists (k, x). auto.
Qed.

Lemma missing_emb : forall df, missing df (emb_fields df) = [].
Proof.
  intros df. unfold missing, emb_fields.
  assert (G : forall m, incl m df ->
    flat_map (fun f => if fopt f || has_label (flabel f) df then [] else [(flabel f, eval (fval f) None)])
      (map (fun kx : string * data => (fst kx, false, embed (snd kx))) m) = []).
  { induction m as [|[k x] m IH]; intros H; [reflexivity|]. cbn [map flat_map fopt flabel fst snd].
    rewrite IH by (intros y Hy; apply H; right; exact Hy).
    assert (E : has_label k df = true) by (apply has_label_in; exists x; apply H; left; reflexivity).
    rewrite E. reflexivity. }
  apply G. apply incl_refl.
Qed.

Lemma missing_known : forall df fs, (forall f, In f fs -> has_label (flabel f) df = true) -> missing df fs = [].
Proof.
  intros df fs H. unfold missing. induction fs as [|f fs IH]; [reflexivity|]. cbn [flat_map].
  rewrite (H f (or_introl eq_refl)), orb_true_r. apply IH. intros g Hg. apply H. right. exact Hg.
Qed.

Lemma labels_emb : forall df, map flabel (emb_fields df) = map fst df.
Proof. intros df. unfold emb_fields. rewrite map_map. reflexivity. Qed.

Lemma field_unify : forall fs rest fs' rest' k,
  field_of k (map (unify_left fs' rest') fs ++ flat_map (unify_right fs rest) fs') =
  match field_of k fs, field_of k fs' with
  | Some f, Some f' => Some (k, fopt f && fopt f', unify (fval f) (fval f'))
  | Some f, None => Some (k, fopt f, match rest' with Some w => unify (fval f) w | None => VBot end)
  | None, Some f' => Some (k, fopt f', match rest with Some u => unify u (fval f') | None => VBot end)
  | None, None => None
  end.
Proof.
  intros fs rest fs' rest' k. rewrite field_of_app, field_of_map by (intros; apply unify_left_label).
  destruct (field_of k fs) as [f|] eqn:F.
  - pose proof (field_of_label k fs f F) as L. unfold unify_left. rewrite L.
    destruct (field_of k fs') as [f'|]; [reflexivity|]. destruct f as [[l o] v]. cbn in L. subst l. reflexivity.
  - rewrite field_of_right by exact F. destruct (field_of k fs') as [f'|] eqn:F'; [|reflexivity].
    pose proof (field_of_label k fs' f' F') as L. destruct f' as [[l o] v]. cbn in L. subst l. reflexivity.
Qed.

Lemma eval_at_unify : forall fs rest fs' rest' k x y,
  (forall u w, (In u (map fval fs) \/ rest = Some u) -> (In w (map fval fs') \/ rest' = Some w) ->
     eval u (Some x) = Con y -> eval w (Some x) = Con y -> eval (unify u w) (Some x) = Con y) ->
  eval_at fs rest k x = Con y -> eval_at fs' rest' k x = Con y ->
  eval_at (map (unify_left fs' rest') fs ++ flat_map (unify_right fs rest) fs')
    (match rest, rest' with Some u, Some w => Some (unify u w) | _, _ => None end) k x = Con y.
Proof.
  intros fs rest fs' rest' k x y IH E E'. unfold eval_at in *. rewrite field_unify.
  destruct (field_of k fs) as [f|] eqn:F, (field_of k fs') as [f'|] eqn:F'; cbn [snd].
  - apply IH; auto; left; apply in_map; [apply field_of_some in F|apply field_of_some in F']; tauto.
  - destruct rest' as [w|]; [|discriminate]. apply IH; auto. left. apply in_map.
    apply field_of_some in F. tauto.
  - destruct rest as [u|]; [|discriminate]. apply IH; auto. left. apply in_map.
    apply field_of_some in F'. tauto.
  - destruct rest as [u|]; [|discriminate]. destruct rest' as [w|]; [|discriminate]. apply IH; auto.
Qed.

Lemma self_unify : forall w, wf w -> forall d, dwf d ->
  eval (unify (embed d) w) (Some d) = eval w (Some d)
  /\ eval (unify w (embed d)) (Some d) = eval w (Some d).
Proof.
  intros w. induction w as [| |a|t|lo hi|ds IH|es r IHe IHr|fs rest IHf IHr] using val_ind';
    intros W d D.
  - destruct d; split; reflexivity.
  - rewrite unify_VTop_r, unify_VTop_l, eval_self by exact D. split; reflexivity.
  - destruct d as [b|l|l]; [|split; reflexivity|split; reflexivity].
    assert (U : unify (embed (DAtom b)) (VAtom a) = if atom_eqb b a then VAtom b else VBot)
      by (destruct b; reflexivity).
    assert (U' : unify (VAtom a) (embed (DAtom b)) = if atom_eqb a b then VAtom a else VBot)
      by (destruct a; reflexivity).
    rewrite U, U'. cbn [eval].
    destruct (atom_eqb_spec b a) as [E|E]; destruct (atom_eqb_spec a b) as [E'|E']; try congruence.
    + subst. cbn [eval]. rewrite (proj2 (atom_eqb_eq a a) eq_refl). split; reflexivity.
    + split; reflexivity.
  - destruct d as [b|l|l]; [|split; reflexivity|split; reflexivity].
    assert (R : atom_eqb b b = true) by (apply atom_eqb_eq; reflexivity).
    assert (U : unify (embed (DAtom b)) (VType t) = if type_has t b then VAtom b else VBot)
      by (destruct b; reflexivity).
    assert (U' : unify (VType t) (embed (DAtom b)) = if type_has t b then VAtom b else VBot)
      by reflexivity.
    rewrite U, U'. cbn [eval]. destruct (type_has t b); cbn [eval]; rewrite ?R; split; reflexivity.
  - destruct d as [b|l|l]; [|split; reflexivity|split; reflexivity].
    destruct b; try (split; reflexivity). cbn. destruct (in_lo lo z && in_hi hi z) eqn:E; cbn;
      rewrite ?Z.eqb_refl; split; reflexivity.
  - rewrite unify_emb_or, unify_or_emb, !eval_mk_or, !map_map. cbn [eval].
    rewrite Forall_forall in IH. split; f_equal; apply map_ext_in; intros x Hx; cbn [fst snd]; f_equal;
      apply (IH x Hx (wf_or ds W x Hx) d D).
  - destruct d as [b|l|l]; [split; reflexivity| |split; reflexivity].
    apply wf_list in W as [We Wr]. apply dwf_list in D. rewrite Forall_forall in D.
    cbn [embed]. rewrite !unify_VList, eval_VList.
    assert (R1 : match unify_list None r (map embed l) es with
                 | Some u => eval_list None u l | None => None end = eval_list r es l).
    { revert l D. induction es as [|e es IHes]; intros l D.
      - destruct l as [|x l]; [destruct r; reflexivity|]. cbn [map unify_list eval_list].
        destruct r as [u|]; [|reflexivity].
        assert (G : eval_list None (map (fun e => unify e u) (map embed l)) l
                    = Some (map (fun x => eval u (Some x)) l)).
        { assert (D' : forall x, In x l -> dwf x) by (intros y Hy; apply D; right; exact Hy).
          clear D. induction l as [|y l IHl]; [reflexivity|]. cbn [map eval_list].
          rewrite IHl by (intros z Hz; apply D'; right; exact Hz).
          rewrite (proj1 (IHr Wr y (D' y (or_introl eq_refl)))). reflexivity. }
        cbn [map eval_list]. rewrite G, (proj1 (IHr Wr x (D x (or_introl eq_refl)))). reflexivity.
      - destruct l as [|x l]; [reflexivity|]. cbn [map unify_list eval_list].
        inversion IHe; subst. rewrite <- IHes.
        + destruct (unify_list None r (map embed l) es) as [u|]; [|reflexivity]. cbn [eval_list].
          rewrite (proj1 (H1 (We e (or_introl eq_refl)) x (D x (or_introl eq_refl)))). reflexivity.
        + assumption.
        + intros e' He'. apply We. right. exact He'.
        + intros y Hy. apply D. right. exact Hy. }
    assert (R2 : match unify_list r None es (map embed l) with
                 | Some u => eval_list None u l | None => None end = eval_list r es l).
    { revert l D R1. induction es as [|e es IHes]; intros l D R1.
      - destruct l as [|x l]; [destruct r; reflexivity|]. cbn [map unify_list eval_list].
        destruct r as [u|]; [|reflexivity].
        assert (G : eval_list None (map (unify u) (map embed l)) l
                    = Some (map (fun x => eval u (Some x)) l)).
        { assert (D' : forall x, In x l -> dwf x) by (intros y Hy; apply D; right; exact Hy).
          clear D R1. induction l as [|y l IHl]; [reflexivity|]. cbn [map eval_list].
          rewrite IHl by (intros z Hz; apply D'; right; exact Hz).
          rewrite (proj2 (IHr Wr y (D' y (or_introl eq_refl)))). reflexivity. }
        cbn [map eval_list]. rewrite G, (proj2 (IHr Wr x (D x (or_introl eq_refl)))). reflexivity.
      - destruct l as [|x l]; [reflexivity|]. cbn [map unify_list eval_list].
        inversion IHe; subst.
        assert (X : match unify_list r None es (map embed l) with
                    | Some u => eval_list None u l | None => None end = eval_list r es l).
        { apply IHes.
          - assumption.
          - intros e' He'. apply We. right. exact He'.
          - intros y Hy. apply D. right. exact Hy.
          - cbn [map unify_list eval_list] in R1.
            rewrite (proj1 (H1 (We e (or_introl eq_refl)) x (D x (or_introl eq_refl)))) in R1 || idtac.
            destruct (unify_list None r (map embed l) es) as [u|]; cbn [eval_list] in R1.
            + destruct (eval_list None u l), (eval_list r es l); try discriminate; try reflexivity.
              injection R1 as _ ->. reflexivity.
            + destruct (eval_list r es l); [discriminate|reflexivity]. }
        rewrite <- X.
        destruct (unify_list r None es (map embed l)) as [u|]; [|reflexivity]. cbn [eval_list].
        rewrite (proj2 (H1 (We e (or_introl eq_refl)) x (D x (or_introl eq_refl)))). reflexivity. }
    split.
    + rewrite <- R1. destruct (unify_list None r (map embed l) es) as [u|]; [|reflexivity].
      rewrite eval_mk_list_some, eval_VList. reflexivity.
    + rewrite <- R2. destruct (unify_list r None es (map embed l)) as [u|]; [|reflexivity].
      rewrite eval_mk_list_some, eval_VList. destruct r; reflexivity.
  - destruct d as [b|l|df]; [split; reflexivity|split; reflexivity|].
    apply wf_struct in W as [N [Wf Wr]]. apply dwf_struct in D as [ND D]. rewrite Forall_forall in D.
    rewrite Forall_forall in IHf.
    cbn [embed]. fold (emb_fields df). rewrite !unify_VStruct.
    assert (NE : NoDup (map flabel (emb_fields df))) by (rewrite labels_emb; exact ND).
    rewrite !eval_mk_struct_some by (apply nodup_unify; assumption).
    rewrite !eval_VStruct'. split; f_equal; f_equal.
    + apply map_ext_in. intros [k x] Hx. cbn [fst snd]. f_equal. unfold eval_at. rewrite field_unify, field_of_emb.
      rewrite (lookup_in df k x ND Hx). pose proof (D _ Hx) as Dx. cbn [snd] in Dx.
      destruct (field_of k fs) as [f|] eqn:F; cbn [fval snd].
      * apply field_of_some in F as [F _]. apply (IHf f F (Wf f F) x Dx).
      * destruct rest as [u|]; [|reflexivity]. apply (IHr Wr x Dx).
    + unfold missing. rewrite flat_map_app.
      assert (L1 : forall m, incl m (emb_fields df) ->
        flat_map (fun f => if fopt f || has_label (flabel f) df then [] else [(flabel f, eval (fval f) None)])
          (map (unify_left fs rest) m) = []).
      { induction m as [|f m IHm]; intros H; [reflexivity|]. cbn [map flat_map].
        rewrite IHm by (intros y Hy; apply H; right; exact Hy). rewrite unify_left_label.
        assert (E : has_label (flabel f) df = true).
        { specialize (H f (or_introl eq_refl)). apply in_map_iff in H as [[k x] [<- Hx]].
          apply has_label_in. exists x. exact Hx. }
        rewrite E, orb_true_r. reflexivity. }
      rewrite L1 by apply incl_refl. cbn [app]. clear. induction fs as [|f fs IH]; [reflexivity|].
      cbn [flat_map]. rewrite flat_map_app, IH. f_equal. unfold unify_right.
      rewrite field_of_emb. destruct (lookup (flabel f) df) as [x|] eqn:K.
      * rewrite has_label_lookup, K, orb_true_r. reflexivity.
      * rewrite unify_VTop_l. destruct f as [[k o] v]. cbn [flat_map flabel fopt fval fst snd].
        rewrite app_nil_r. reflexivity.
    + apply map_ext_in. intros [k x] Hx. cbn [fst snd]. f_equal. unfold eval_at. rewrite field_unify, field_of_emb.
      rewrite (lookup_in df k x ND Hx). pose proof (D _ Hx) as Dx. cbn [snd] in Dx.
      destruct (field_of k fs) as [f|] eqn:F; cbn [fval snd].
      * apply field_of_some in F as [F _]. apply (IHf f F (Wf f F) x Dx).
      * destruct rest as [u|]; [|reflexivity]. apply (IHr Wr x Dx).
    + unfold missing. rewrite flat_map_app. fold (missing df (flat_map (unify_right fs rest) (emb_fields df))).
      rewrite missing_known, app_nil_r.
      2: { intros g Hg. apply in_flat_map in Hg as [f [Hf Hg]]. unfold unify_right in Hg.
           destruct (field_of (flabel f) fs); [contradiction|]. destruct Hg as [<-|[]].
           apply in_map_iff in Hf as [[k x] [<- Hx]]. apply has_label_in. exists x. exact Hx. }
      clear. induction fs as [|f fs IH]; [reflexivity|].
      cbn [map flat_map]. rewrite IH. f_equal. unfold unify_left. rewrite field_of_emb.
      destruct (lookup (flabel f) df) as [x|] eqn:K.
      * cbn [fopt flabel fst snd]. fold (flabel f). rewrite has_label_lookup, K, !orb_true_r. reflexivity.
      * rewrite unify_VTop_r. destruct f as [[k o] v]. reflexivity.
Qed.

(** *** Unification stays within the fragment *)

Lemma simple_embed : forall d, simple (embed d) = true.
Proof.
  intros d. induction d as [a|l IH|l IH] using data_ind'; [reflexivity| |]; cbn; rewrite andb_true_r;
    rewrite forallb_forall; intros y Hy; apply in_map_iff in Hy as [x [<- Hx]]; rewrite Forall_forall in IH;
    apply (IH x Hx).
Qed.

Lemma simple_list : forall es r, simple (VList es r) = true <->
  (forall e, In e es -> simple e = true) /\ (forall u, r = Some u -> simple u = true).
Proof.
  intros es r. cbn [simple]. rewrite andb_true_iff, forallb_forall. split; intros [H1 H2]; split; auto.
  - intros u ->. exact H2.
  - destruct r as [u|]; auto.
Qed.

Lemma simple_struct : forall fs r, simple (VStruct fs r) = true <->
  (forall f, In f fs -> simple (fval f) = true) /\ (forall u, r = Some u -> simple u = true).
Proof.
  intros fs r. cbn [simple]. rewrite andb_true_iff, forallb_forall. split; intros [H1 H2]; split; auto.
  - intros u ->. exact H2.
  - destruct r as [u|]; auto.
Qed.

Lemma simple_cases : forall v, simple v = true ->
  shallow v = true \/ (exists es r, v = VList es r) \/ (exists fs r, v = VStruct fs r).
Proof. intros v H. destruct v; auto; eauto. Qed.

Lemma unify_shallow_list : forall v es r, shallow v = true -> v <> VTop ->
  unify v (VList es r) = VBot /\ unify (VList es r) v = VBot.
Proof.
  intros v es r H T. destruct v as [| |a|t|lo hi|ds| |]; try discriminate; try contradiction; try (split; reflexivity).
  cbn [shallow] in H.
  assert (G : forall f : val -> val, (forall x, scalar_val x = true -> f x = VBot) ->
             mk_or (map (fun e : bool * val => (fst e, f (snd e))) ds) = VBot).
  { intros f Hf. unfold mk_or.
    assert (E : filter (fun d : bool * val => negb (is_bot (snd d)))
                  (map (fun e : bool * val => (fst e, f (snd e))) ds) = []).
    { clear T. induction ds as [|x ds IH]; [reflexivity|]. cbn in H. apply andb_true_iff in H as [H1 H2].
      cbn [map filter snd]. rewrite (Hf _ H1). cbn. apply IH. exact H2. }
    rewrite E. reflexivity. }
  split.
  - rewrite unify_or_l by (reflexivity || discriminate). apply (G (fun x => unify x (VList es r))).
    intros x Hx. destruct x; try discriminate; reflexivity.
  - rewrite unify_or_r by (reflexivity || discriminate). apply (G (unify (VList es r))).
    intros x Hx. destruct x; try discriminate; reflexivity.
Qed.

Lemma unify_shallow_struct : forall v fs r, shallow v = true -> v <> VTop ->
  unify v (VStruct fs r) = VBot /\ unify (VStruct fs r) v = VBot.
Proof.
  intros v fs r H T. destruct v as [| |a|t|lo hi|ds| |]; try discriminate; try contradiction; try (split; reflexivity).
  cbn [shallow] in H.
  assert (G : forall f : val -> val, (forall x, scalar_val x = true -> f x = VBot) ->
             mk_or (map (fun e : bool * val => (fst e, f (snd e))) ds) = VBot).
  { intros f Hf. unfold mk_or.
    assert (E : filter (fun d : bool * val => negb (is_bot (snd d)))
                  (map (fun e : bool * val => (fst e, f (snd e))) ds) = []).
    { clear T. induction ds as [|x ds IH]; [reflexivity|]. cbn in H. apply andb_true_iff in H as [H1 H2].
      cbn [map filter snd]. rewrite (Hf _ H1). cbn. apply IH. exact H2. }
    rewrite E. reflexivity. }
  split.
  - rewrite unify_or_l by (reflexivity || discriminate). apply (G (fun x => unify x (VStruct fs r))).
    intros x Hx. destruct x; try discriminate; reflexivity.
  - rewrite unify_or_r by (reflexivity || discriminate). apply (G (unify (VStruct fs r))).
    intros x Hx. destruct x; try discriminate; reflexivity.
Qed.

Lemma val_top_dec : forall v, v = VTop \/ v <> VTop.
Proof. intros []; (left; reflexivity) || (right; discriminate). Qed.

(** A property that holds of the parts of two values holds of the parts of their
    unification. *)
Lemma unify_list_all : forall (P : val -> Prop) r r' es es' l,
  unify_list r r' es es' = Some l ->
  (forall u w, (In u es \/ r = Some u) -> (In w es' \/ r' = Some w) -> P (unify u w)) ->
  forall e, In e l -> P e.
Proof.
  intros P r r' es. induction es as [|e es IH]; intros es' l H HP x Hx.
  - destruct es' as [|e' es'].
    + injection H as <-. contradiction.
    + cbn [unify_list] in H. destruct r as [u|]; [|discriminate]. injection H as <-.
      change (unify u e' :: map (unify u) es') with (map (unify u) (e' :: es')) in Hx.
      apply in_map_iff in Hx as [y [<- Hy]]. apply HP; auto.
  - destruct es' as [|e' es'].
    + cbn [unify_list] in H. destruct r' as [w|]; [|discriminate]. injection H as <-.
      change (unify e w :: map (fun e => unify e w) es) with (map (fun e => unify e w) (e :: es)) in Hx.
      apply in_map_iff in Hx as [y [<- Hy]]. apply HP; auto.
    + cbn [unify_list] in H. destruct (unify_list r r' es es') as [m|] eqn:E; [|discriminate].
      injection H as <-. destruct Hx as [<-|Hx].
      * apply HP; left; left; reflexivity.
      * apply (IH es' m E); [|exact Hx]. intros u w [Hu|Hu] [Hw|Hw]; apply HP; auto; left; right; assumption.
Qed.

Lemma unify_fields_all : forall (P : val -> Prop) fs rest fs' rest',
  P VBot ->
  (forall u w, (In u (map fval fs) \/ rest = Some u) -> (In w (map fval fs') \/ rest' = Some w) -> P (unify u w)) ->
  forall f, In f (map (unify_left fs' rest') fs ++ flat_map (unify_right fs rest) fs') -> P (fval f).
Proof.
  intros P fs rest fs' rest' HB HP f Hf. apply in_app_iff in Hf as [Hf|Hf].
  - apply in_map_iff in Hf as [g [<- Hg]]. unfold unify_left.
    destruct (field_of (flabel g) fs') as [g'|] eqn:F; cbn [fval snd].
    + apply field_of_some in F as [F _]. apply HP; left; apply in_map; assumption.
    + destruct rest' as [w|]; [|exact HB]. apply HP; auto. left. apply in_map. exact Hg.
  - apply in_flat_map in Hf as [g [Hg Hf]]. unfold unify_right in Hf.
    destruct (field_of (flabel g) fs); [contradiction|]. destruct Hf as [<-|[]]. cbn [fval snd].
    destruct rest as [u|]; [|exact HB]. apply HP; auto. left. apply in_map. exact Hg.
Qed.

Lemma simple_mk_list : forall l r, simple (VList l r) = true -> simple (mk_list l r) = true.
Proof.
  intros l r H. unfold mk_list. destruct (existsb is_bot l); [reflexivity|].
  apply simple_list in H as [H1 H2]. apply simple_list. split; [exact H1|].
  intros u Hu. apply H2. destruct r as [w|]; [|discriminate]. destruct w; congruence.
Qed.

Lemma simple_unify : forall u, simple u = true -> forall w, simple w = true -> simple (unify u w) = true.
Proof.
  intros u. induction u as [| |a|t|lo hi|ds IH|es r IHe IHr|fs rest IHf IHr] using val_ind';
    intros Su w Sw.
  1-6: destruct (simple_cases w Sw) as [Hw|[[es [r ->]]|[fs [r ->]]]];
      [apply shallow_simple, shallow_unify; [exact Su || reflexivity|exact Hw]
      |match goal with |- simple (unify ?v _) = true =>
         destruct (val_top_dec v) as [E|E]; [first [discriminate|rewrite unify_VTop_l; exact Sw]
           |rewrite (proj1 (unify_shallow_list v es r Su E)); reflexivity] end
      |match goal with |- simple (unify ?v _) = true =>
         destruct (val_top_dec v) as [E|E]; [first [discriminate|rewrite unify_VTop_l; exact Sw]
           |rewrite (proj1 (unify_shallow_struct v fs r Su E)); reflexivity] end].
  - destruct (simple_cases w Sw) as [Hw|[[es' [r' ->]]|[fs' [r' ->]]]]; [| |reflexivity].
    + destruct (val_top_dec w) as [->|E]; [rewrite unify_VTop_r; exact Su|].
      rewrite (proj2 (unify_shallow_list w es r Hw E)). reflexivity.
    + rewrite unify_VList. destruct (unify_list r r' es es') as [l|] eqn:E; [|reflexivity].
      apply simple_list in Su as [Su1 Su2]. apply simple_list in Sw as [Sw1 Sw2].
      rewrite Forall_forall in IHe.
      assert (HP : forall u w, (In u es \/ r = Some u) -> (In w es' \/ r' = Some w) -> simple (unify u w) = true).
      { intros u w Hu Hw. assert (simple w = true) by (destruct Hw; auto).
        destruct Hu as [Hu|Hu]; [apply (IHe u Hu); auto|]. subst r. apply IHr; auto. }
      apply simple_mk_list, simple_list. split.
      * apply (unify_list_all (fun v => simple v = true) _ _ _ _ _ E HP).
      * intros v. destruct r as [u|]; [|discriminate]. destruct r' as [w|]; [|discriminate].
        intros [= <-]. apply HP; auto.
  - destruct (simple_cases w Sw) as [Hw|[[es' [r' ->]]|[fs' [rest' ->]]]]; [|reflexivity|].
    + destruct (val_top_dec w) as [->|E]; [rewrite unify_VTop_r; exact Su|].
      rewrite (proj2 (unify_shallow_struct w fs rest Hw E)). reflexivity.
    + rewrite unify_VStruct. unfold mk_struct. destruct (existsb _ _); [reflexivity|].
      apply simple_struct in Su as [Su1 Su2]. apply simple_struct in Sw as [Sw1 Sw2].
      rewrite Forall_forall in IHf.
      assert (HP : forall u w, (In u (map fval fs) \/ rest = Some u) -> (In w (map fval fs') \/ rest' = Some w) ->
                simple (unify u w) = true).
      { intros u w Hu Hw. assert (simple w = true).
        { destruct Hw as [Hw|Hw]; [|auto]. apply in_map_iff in Hw as [f [<- Hf]]. auto. }
        destruct Hu as [Hu|Hu].
        - apply in_map_iff in Hu as [f [<- Hf]]. apply (IHf f Hf); auto.
        - subst rest. apply IHr; auto. }
      apply simple_struct. split.
      * intros f Hf. apply (unify_fields_all (fun v => simple v = true) fs rest fs' rest'); auto.
      * intros v. destruct rest as [u|]; [|discriminate]. destruct rest' as [w|]; [|discriminate].
        intros [= <-]. apply HP; auto.
Qed.

Lemma wf_list' : forall es r, (forall e, In e es -> wf e) -> (forall u, r = Some u -> wf u) -> wf (VList es r).
Proof.
  intros es r H1 H2. cbn. split.
  - induction es as [|e es IH]; [exact I|]. split; [apply H1; left; reflexivity|].
    apply IH. intros x Hx. apply H1. right. exact Hx.
  - destruct r as [u|]; [apply H2; reflexivity|exact I].
Qed.

Lemma wf_struct' : forall fs r, NoDup (map flabel fs) -> (forall f, In f fs -> wf (fval f)) ->
  (forall u, r = Some u -> wf u) -> wf (VStruct fs r).
Proof.
  intros fs r N H1 H2. cbn [wf]. split; [exact N|]. split.
  - clear N. induction fs as [|f fs IH]; [exact I|]. split; [apply (H1 f); left; reflexivity|].
    apply IH. intros x Hx. apply H1. right. exact Hx.
  - destruct r as [u|]; [apply H2; reflexivity|exact I].
Qed.

Lemma opt_all_some : forall {A} (P : A -> Prop) o, opt_all P o -> forall u, o = Some u -> P u.
Proof. intros A P o H u ->. exact H. Qed.

Lemma wf_unify : forall u, simple u = true -> wf u -> forall w, simple w = true -> wf w -> wf (unify u w).
Proof.
  intros u. induction u as [| |a|t|lo hi|ds IH|es r IHe IHr|fs rest IHf IHr] using val_ind';
    intros Su Wu w Sw Ww.
  1-6: destruct (simple_cases w Sw) as [Hw|[[es [r ->]]|[fs [r ->]]]];
      [apply shallow_wf, shallow_unify; [exact Su || reflexivity|exact Hw]
      |match goal with |- wf (unify ?v _) =>
         destruct (val_top_dec v) as [E|E]; [first [discriminate|rewrite unify_VTop_l; exact Ww]
           |rewrite (proj1 (unify_shallow_list v es r Su E)); exact I] end
      |match goal with |- wf (unify ?v _) =>
         destruct (val_top_dec v) as [E|E]; [first [discriminate|rewrite unify_VTop_l; exact Ww]
           |rewrite (proj1 (unify_shallow_struct v fs r Su E)); exact I] end].
  - destruct (simple_cases w Sw) as [Hw|[[es' [r' ->]]|[fs' [r' ->]]]]; [| |exact I].
    + destruct (val_top_dec w) as [->|E]; [rewrite unify_VTop_r; exact Wu|].
      rewrite (proj2 (unify_shallow_list w es r Hw E)). exact I.
    + rewrite unify_VList. destruct (unify_list r r' es es') as [l|] eqn:E; [|exact I].
      apply simple_list in Su as [Su1 Su2]. apply simple_list in Sw as [Sw1 Sw2].
      apply wf_list in Wu as [Wu1 Wu2]. apply wf_list in Ww as [Ww1 Ww2].
      pose proof (opt_all_some _ _ Wu2) as Wu3. pose proof (opt_all_some _ _ Ww2) as Ww3.
      rewrite Forall_forall in IHe.
      assert (HP : forall u w, (In u es \/ r = Some u) -> (In w es' \/ r' = Some w) -> wf (unify u w)).
      { intros u w Hu Hw. assert (Q : simple w = true /\ wf w) by (destruct Hw; auto).
        destruct Q as [Q1 Q2].
        destruct Hu as [Hu|Hu]; [apply (IHe u Hu); auto|]. subst r. apply IHr; auto. }
      unfold mk_list. destruct (existsb is_bot l); [exact I|]. apply wf_list'.
      * apply (unify_list_all wf _ _ _ _ _ E HP).
      * intros v Hv. destruct r as [u|]; [|discriminate]. destruct r' as [w|]; [|discriminate].
        assert (v = unify u w) as -> by (destruct (unify u w); congruence). apply HP; auto.
  - destruct (simple_cases w Sw) as [Hw|[[es' [r' ->]]|[fs' [rest' ->]]]]; [|exact I|].
    + destruct (val_top_dec w) as [->|E]; [rewrite unify_VTop_r; exact Wu|].
      rewrite (proj2 (unify_shallow_struct w fs rest Hw E)). exact I.
    + rewrite unify_VStruct. unfold mk_struct. destruct (existsb _ _); [exact I|].
      apply simple_struct in Su as [Su1 Su2]. apply simple_struct in Sw as [Sw1 Sw2].
      apply wf_struct in Wu as [N [Wu1 Wu2]]. apply wf_struct in Ww as [N' [Ww1 Ww2]].
      pose proof (opt_all_some _ _ Wu2) as Wu3. pose proof (opt_all_some _ _ Ww2) as Ww3.
      rewrite Forall_forall in IHf.
      assert (HP : forall u w, (In u (map fval fs) \/ rest = Some u) -> (In w (map fval fs') \/ rest' = Some w) ->
                wf (unify u w)).
      { intros u w Hu Hw. assert (Q : simple w = true /\ wf w).
        { destruct Hw as [Hw|Hw]; [|auto]. apply in_map_iff in Hw as [f [<- Hf]]. auto. }
        destruct Q as [Q1 Q2]. destruct Hu as [Hu|Hu].
        - apply in_map_iff in Hu as [f [<- Hf]]. apply (IHf f Hf); auto.
        - subst rest. apply IHr; auto. }
      apply wf_struct'.
      * apply nodup_unify; assumption.
      * intros f Hf. apply (unify_fields_all wf fs rest fs' rest'); auto. exact I.
      * intros v. destruct rest as [u|]; [|discriminate]. destruct rest' as [w|]; [|discriminate].
        intros [= <-]. apply HP; auto.
Qed.

(** *** Two values that complete the data in the same way *)

Lemma pick_marked : forall l a,
  (exists m, In m l /\ m = (true, Con (DAtom a))) ->
  (forall x, In (true, x) l -> x = Bot \/ x = Con (DAtom a)) -> pick l = Con (DAtom a).
Proof.
  intros l a [m [Hm ->]] H. rewrite <- pick_filter.
  set (l1 := filter (fun x => not_bot (snd x)) l).
  assert (E : pick l1 = pick (filter fst l1)).
  { unfold pick. assert (F : forall m : list (bool * res), (forall x, In x m -> not_bot (snd x) = true) ->
      filter (fun x => not_bot (snd x)) m = m).
    { induction m as [|x m IH]; intros Hall; [reflexivity|]. cbn [filter].
      rewrite (Hall x (or_introl eq_refl)), IH; [reflexivity|]. intros y Hy. apply Hall. right. exact Hy. }
    rewrite !F.
    2: { intros x Hx. apply filter_In in Hx as [Hx _]. apply filter_In in Hx. tauto. }
    2: { intros x Hx. apply filter_In in Hx. tauto. }
    assert (X : existsb fst l1 = true).
    { apply existsb_exists. exists (true, Con (DAtom a)). split; [|reflexivity]. apply filter_In. auto. }
    rewrite X.
    assert (Y : existsb fst (filter fst l1) = true).
    { apply existsb_exists. exists (true, Con (DAtom a)). split; [|reflexivity]. apply filter_In.
      split; [|reflexivity]. apply filter_In. auto. }
    rewrite Y.
    assert (Z : filter fst (filter fst l1) = filter fst l1).
    { clear. induction l1 as [|x l0 IH]; [reflexivity|]. cbn [filter]. destruct (fst x) eqn:E; [|exact IH].
      cbn [filter]. rewrite E, IH. reflexivity. }
    rewrite Z. reflexivity. }
  rewrite E. apply pick_same.
  - apply deq_atom.
  - intros [b x] Hx. apply filter_In in Hx as [Hx Eb]. cbn in Eb. subst b.
    apply filter_In in Hx as [Hx _]. apply H. exact Hx.
  - exists (true, Con (DAtom a)). split; [|reflexivity]. apply filter_In. split; [|reflexivity].
    apply filter_In. auto.
Qed.

Lemma pick_atom : forall l a, pick l = Con (DAtom a) ->
  ((exists m, In m l /\ m = (true, Con (DAtom a))) /\ (forall x, In (true, x) l -> x = Bot \/ x = Con (DAtom a)))
  \/ ((exists m, In (m, Con (DAtom a)) l) /\ (forall m x, In (m, x) l -> x = Bot \/ x = Con (DAtom a))).
Proof.
  intros l a H. unfold pick in H.
  assert (S : forall l2 : list (bool * res),
     match l2 with
     | [] => Bot
     | [x] => snd x
     | x :: r => if forallb (fun y => same_as (snd x) (snd y)) r then snd x else Inc
     end = Con (DAtom a) -> l2 <> [] /\ forall x, In x l2 -> snd x = Con (DAtom a)).
  { intros [|x [|y t]] E; [discriminate| |].
    - split; [discriminate|]. intros z [<-|[]]. exact E.
    - split; [discriminate|]. destruct (forallb _ (y :: t)) eqn:F; [|discriminate].
      intros z [<-|Hz]; [exact E|]. rewrite forallb_forall in F. specialize (F z Hz).
      rewrite E in F. cbn in F. destruct (snd z) as [| |[b| |]]; try discriminate. cbn in F.
      apply atom_eqb_eq in F. subst b. reflexivity. }
  destruct (existsb fst (filter (fun x => not_bot (snd x)) l)) eqn:M.
  - apply S in H as [_ H]. left. split.
    + apply existsb_exists in M as [[m x] [Hx Em]]. cbn in Em. subst m.
      assert (E : x = Con (DAtom a)) by (apply (H (true, x)); apply filter_In; split; [exact Hx|reflexivity]).
      subst x. exists (true, Con (DAtom a)). split; [|reflexivity]. apply filter_In in Hx. tauto.
    + intros x Hx. destruct x as [| |d]; [auto| |].
      * right. apply (H (true, Inc)). apply filter_In. split; [|reflexivity]. apply filter_In. auto.
      * right. apply (H (true, Con d)). apply filter_In. split; [|reflexivity]. apply filter_In. auto.
  - apply S in H as [N H]. right. split.
    + destruct (filter (fun x => not_bot (snd x)) l) as [|[m x] t] eqn:F; [contradiction|].
      assert (Hx : In (m, x) (filter (fun x => not_bot (snd x)) l)) by (rewrite F; left; reflexivity).
      apply filter_In in Hx as [Hx _].
      assert (E : x = Con (DAtom a)) by (apply (H (m, x)); left; reflexivity).
      subst x. exists m. exact Hx.
    + intros m x Hx. destruct x as [| |d]; [auto| |].
      * right. apply (H (m, Inc)). apply filter_In. auto.
      * right. apply (H (m, Con d)). apply filter_In. auto.
Qed.

(** A value as a disjunction. *)
Definition alts (v : val) : list (bool * val) := match v with VOr ds => ds | _ => [(false, v)] end.

Definition both (xs ys : list (bool * val)) : list (bool * val) :=
  flat_map (fun d : bool * val =>
    map (fun e : bool * val =>
      ((existsb fst xs || existsb fst ys) && (fst d || negb (existsb fst xs)) && (fst e || negb (existsb fst ys)),
       unify (snd d) (snd e))) ys) xs.

Lemma eval_alts : forall v o, eval v o = pick (map (fun x : bool * val => (fst x, eval (snd x) o)) (alts v)).
Proof.
  intros v o. destruct v as [| | | | |ds| |]; try reflexivity;
    match goal with |- ?l = pick _ => unfold alts, pick; cbn [map fst snd filter]; destruct l; reflexivity end.
Qed.

Lemma eval_both : forall u w o, shallow u = true -> shallow w = true -> u <> VTop -> w <> VTop ->
  eval (unify u w) o = pick (map (fun x : bool * val => (fst x, eval (snd x) o)) (both (alts u) (alts w))).
Proof.
  intros u w o Su Sw Tu Tw.
  destruct (is_or u) eqn:Ou, (is_or w) eqn:Ow.
  - destruct u as [| | | | |xs| |]; try discriminate. destruct w as [| | | | |ys| |]; try discriminate.
    cbn [unify alts]. rewrite eval_mk_or. reflexivity.
  - destruct u as [| | | | |xs| |]; try discriminate.
    assert (A : alts w = [(false, w)]) by (destruct w; try reflexivity; discriminate). rewrite A. cbn [alts].
    assert (E : both xs [(false, w)] = map (fun d : bool * val => (fst d, unify (snd d) w)) xs).
    { unfold both. cbn [existsb fst snd map]. rewrite orb_false_r.
      assert (G : forall l, incl l xs -> flat_map (fun d : bool * val =>
          [((existsb fst xs) && (fst d || negb (existsb fst xs)) && (false || negb false), unify (snd d) w)]) l
          = map (fun d : bool * val => (fst d, unify (snd d) w)) l).
      { induction l as [|d l IH]; intros H; [reflexivity|]. cbn [flat_map map app].
        rewrite IH by (intros y Hy; apply H; right; exact Hy). f_equal. f_equal.
        cbn [orb negb]. rewrite andb_true_r. destruct (existsb fst xs) eqn:X; cbn [negb andb].
        - rewrite orb_false_r. reflexivity.
        - destruct (fst d) eqn:F; [|reflexivity]. rewrite <- X. apply existsb_exists.
          exists d. split; [apply H; left; reflexivity|exact F]. }
      apply G. apply incl_refl. }
    rewrite E, <- eval_mk_or. destruct (is_bot w) eqn:B.
    + destruct w; try discriminate. rewrite eval_mk_or. cbn [unify eval]. symmetry.
      rewrite <- pick_filter. rewrite map_map. cbn [fst snd].
      assert (F : filter (fun x : bool * res => not_bot (snd x))
                 (map (fun x : bool * val => (fst x, eval (unify (snd x) VBot) o)) xs) = []).
      { clear. induction xs as [|x xs IH]; [reflexivity|]. cbn [map filter snd].
        assert (U : unify (snd x) VBot = VBot) by (destruct (snd x); reflexivity). rewrite U. exact IH. }
      rewrite F. reflexivity.
    + f_equal. apply unify_or_l; [exact Ow| |exact Tw]. intros ->. discriminate.
  - destruct w as [| | | | |ys| |]; try discriminate.
    assert (A : alts u = [(false, u)]) by (destruct u; try reflexivity; discriminate). rewrite A. cbn [alts].
    assert (E : both [(false, u)] ys = map (fun d : bool * val => (fst d, unify u (snd d))) ys).
    { unfold both. cbn [existsb fst snd flat_map orb negb app]. rewrite app_nil_r. apply map_ext_in.
      intros e He. f_equal. rewrite andb_true_r. destruct (existsb fst ys) eqn:X; cbn [negb andb].
      - rewrite orb_false_r. reflexivity.
      - destruct (fst e) eqn:F; [|reflexivity]. rewrite <- X. apply existsb_exists. exists e. auto. }
    rewrite E, <- eval_mk_or. destruct (is_bot u) eqn:B.
    + destruct u; try discriminate. rewrite eval_mk_or. change (eval (unify VBot (VOr ys)) o) with Bot. symmetry.
      rewrite <- pick_filter. rewrite map_map. cbn [fst snd].
      assert (F : filter (fun x : bool * res => not_bot (snd x))
                 (map (fun x : bool * val => (fst x, eval (unify VBot (snd x)) o)) ys) = []).
      { clear. induction ys as [|x xs IH]; [reflexivity|]. cbn [map filter snd].
        assert (U : unify VBot (snd x) = VBot) by (destruct (snd x); reflexivity). rewrite U. exact IH. }
      rewrite F. reflexivity.
    + f_equal. apply unify_or_r; [exact Ou| |exact Tu]. intros ->. discriminate.
  - assert (A : alts u = [(false, u)]) by (destruct u; try reflexivity; discriminate).
    assert (A' : alts w = [(false, w)]) by (destruct w; try reflexivity; discriminate).
    rewrite A, A'. unfold both. cbn [existsb fst snd flat_map map orb negb andb app].
    unfold pick. cbn [filter snd fst]. destruct (eval (unify u w) o); reflexivity.
Qed.

Lemma scalar_none : forall v, scalar_val v = true ->
  (eval v None = Bot -> v = VBot) /\ (forall a, eval v None = Con (DAtom a) -> v = VAtom a)
  /\ (forall r, eval v None = Con r -> exists a, r = DAtom a).
Proof.
  intros v H. destruct v; try discriminate; (split; [|split]); cbn; try discriminate; try congruence.
  intros r [= <-]. eauto.
Qed.

Lemma alts_scalar : forall v x, shallow v = true -> v <> VTop -> In x (alts v) -> scalar_val (snd x) = true.
Proof.
  intros v x H T Hx. destruct v as [| | | | |ds| |]; try discriminate; try contradiction;
    try (destruct Hx as [<-|[]]; reflexivity).
  cbn [shallow] in H. rewrite forallb_forall in H. apply H. exact Hx.
Qed.

Lemma unify_atoms : forall a, unify (VAtom a) (VAtom a) = VAtom a.
Proof.
  intros a. assert (E : unify (VAtom a) (VAtom a) = if atom_eqb a a then VAtom a else VBot) by (destruct a; reflexivity).
  rewrite E, (proj2 (atom_eqb_eq a a) eq_refl). reflexivity.
Qed.

Lemma unify_atom_scalar : forall a v, scalar_val v = true ->
  (unify (VAtom a) v = VBot \/ unify (VAtom a) v = VAtom a) /\ (unify v (VAtom a) = VBot \/ unify v (VAtom a) = VAtom a).
Proof.
  intros a v H. destruct v as [| |b|t|lo hi| | |]; try discriminate.
  - split; left; [destruct a|]; reflexivity.
  - assert (E : unify (VAtom a) (VAtom b) = if atom_eqb a b then VAtom a else VBot) by (destruct a; reflexivity).
    assert (E' : unify (VAtom b) (VAtom a) = if atom_eqb b a then VAtom b else VBot) by (destruct b; reflexivity).
    rewrite E, E'. destruct (atom_eqb_spec a b), (atom_eqb_spec b a); subst; auto.
  - assert (E : unify (VAtom a) (VType t) = if type_has t a then VAtom a else VBot) by (destruct a; reflexivity).
    assert (E' : unify (VType t) (VAtom a) = if type_has t a then VAtom a else VBot) by reflexivity.
    rewrite E, E'. destruct (type_has t a); auto.
  - destruct a; cbn; auto. destruct (in_lo lo z && in_hi hi z); auto.
Qed.

Lemma shallow_none : forall u r, shallow u = true -> eval u None = Con r -> exists a, r = DAtom a.
Proof.
  intros u r S E. rewrite eval_alts in E. apply pick_con in E as [m H]. apply in_map_iff in H as [x [E Hx]].
  injection E as _ E. destruct (val_top_dec u) as [->|T].
  - destruct Hx as [<-|[]]. discriminate.
  - apply (scalar_none (snd x)); [apply (alts_scalar u x S T Hx)|exact E].
Qed.

Lemma agree_shallow : forall u w r, shallow u = true -> shallow w = true ->
  eval u None = Con r -> eval w None = Con r -> eval (unify u w) None = Con r.
Proof.
  intros u w r Su Sw Eu Ew.
  assert (Tu : u <> VTop) by (intros ->; discriminate). assert (Tw : w <> VTop) by (intros ->; discriminate).
  destruct (shallow_none u r Su Eu) as [a ->].
  rewrite eval_both by assumption. rewrite eval_alts in Eu, Ew.
  pose proof (fun x => alts_scalar u x Su Tu) as Au. pose proof (fun x => alts_scalar w x Sw Tw) as Aw.
  clear Su Sw Tu Tw. revert Eu Ew Au Aw. generalize (alts u) (alts w). clear u w. intros xs ys Eu Ew Au Aw.
  apply pick_atom in Eu. apply pick_atom in Ew.
  assert (IN : forall l m r, In (m, r) (map (fun x : bool * val => (fst x, eval (snd x) None)) l) <->
             exists v, In (m, v) l /\ eval v None = r).
  { intros l m r. rewrite in_map_iff. split.
    - intros [[m' v] [E H]]. cbn in E. injection E as <- <-. eauto.
    - intros [v [H <-]]. exists (m, v). auto. }
  assert (HA : forall l : list (bool * val), (forall x, In x l -> scalar_val (snd x) = true) -> forall m v, In (m, v) l ->
             eval v None = Con (DAtom a) -> v = VAtom a).
  { intros l Al m v H E. apply (scalar_none v); [apply (Al _ H)|exact E]. }
  assert (HB : forall l : list (bool * val), (forall x, In x l -> scalar_val (snd x) = true) -> forall m v, In (m, v) l ->
             eval v None = Bot -> v = VBot).
  { intros l Al m v H E. apply (scalar_none v); [apply (Al _ H)|exact E]. }
  assert (BOTH : forall z, In z (both xs ys) -> exists d e, In d xs /\ In e ys /\
     z = ((existsb fst xs || existsb fst ys) && (fst d || negb (existsb fst xs)) && (fst e || negb (existsb fst ys)),
          unify (snd d) (snd e))).
  { intros z Hz. apply in_flat_map in Hz as [d [Hd Hz]]. apply in_map_iff in Hz as [e [<- He]]. eauto 6. }
  assert (CMB : forall d e, In d xs -> In e ys ->
     In ((existsb fst xs || existsb fst ys) && (fst d || negb (existsb fst xs)) && (fst e || negb (existsb fst ys)),
          unify (snd d) (snd e)) (both xs ys)).
  { intros d e Hd He. apply in_flat_map. exists d. split; [exact Hd|]. apply in_map_iff. exists e. auto. }
  assert (EX : (exists m, In (m, VAtom a) xs) /\ (exists m, In (m, VAtom a) ys)).
  { split.
    - destruct Eu as [[[m [H ->]] _]|[[m H] _]]; apply IN in H as [v [H E]];
        rewrite (HA xs Au _ _ H E) in H; eauto.
    - destruct Ew as [[[m [H ->]] _]|[[m H] _]]; apply IN in H as [v [H E]];
        rewrite (HA ys Aw _ _ H E) in H; eauto. }
  assert (ALL : (forall z, In z (both xs ys) -> eval (snd z) None = Bot \/ eval (snd z) None = Con (DAtom a)) ->
     pick (map (fun x : bool * val => (fst x, eval (snd x) None)) (both xs ys)) = Con (DAtom a)).
  { intros H. apply pick_same; [apply deq_atom| |].
    - intros z Hz. apply in_map_iff in Hz as [y [<- Hy]]. apply H. exact Hy.
    - destruct EX as [[m Hm] [m' Hm']]. pose proof (CMB _ _ Hm Hm') as C. cbn [fst snd] in C.
      rewrite unify_atoms in C. eexists. split; [apply in_map; exact C|]. reflexivity. }
  destruct Eu as [[U1 U2]|[U1 U2]]; [destruct Ew as [[W1 W2]|[W1 W2]]|].
  - destruct U1 as [m [U1 ->]]. destruct W1 as [m [W1 ->]].
    apply IN in U1 as [v [U1 E1]]. apply IN in W1 as [v' [W1 E2]].
    rewrite (HA xs Au _ _ U1 E1) in U1. rewrite (HA ys Aw _ _ W1 E2) in W1.
    assert (MX : existsb fst xs = true) by (apply existsb_exists; exists (true, VAtom a); auto).
    assert (MY : existsb fst ys = true) by (apply existsb_exists; exists (true, VAtom a); auto).
    apply pick_marked.
    + eexists. split; [|reflexivity]. apply IN. exists (VAtom a). split; [|reflexivity].
      pose proof (CMB _ _ U1 W1) as C. cbn [fst snd] in C. rewrite unify_atoms, MX, MY in C. exact C.
    + intros x Hx. apply IN in Hx as [y [Hy <-]]. apply BOTH in Hy as [d [e [Hd [He E]]]].
      rewrite MX, MY in E. cbn [negb orb andb] in E. rewrite !orb_false_r in E. injection E as E ->.
      symmetry in E. apply andb_true_iff in E as [Ed Ee]. destruct d as [md d], e as [me e]. cbn [fst snd] in *. subst md me.
      assert (D : d = VBot \/ d = VAtom a).
      { destruct (U2 (eval d None)) as [X|X]; [apply IN; eauto|left; apply (HB xs Au _ _ Hd X)|right; apply (HA xs Au _ _ Hd X)]. }
      assert (F : e = VBot \/ e = VAtom a).
      { destruct (W2 (eval e None)) as [X|X]; [apply IN; eauto|left; apply (HB ys Aw _ _ He X)|right; apply (HA ys Aw _ _ He X)]. }
      destruct D as [->| ->]; [left; clear; destruct e; reflexivity|]. destruct F as [->| ->]; [left; destruct a; reflexivity|].
      rewrite unify_atoms. right. reflexivity.
  - apply ALL. intros z Hz. apply BOTH in Hz as [[md d] [[me e] [Hd [He ->]]]]. cbn [snd].
    pose proof (Au _ Hd) as Sd. cbn [snd] in Sd.
    destruct (W2 me (eval e None)) as [X|X]; [apply IN; eauto| |].
    + rewrite (HB ys Aw _ _ He X). left. destruct d; reflexivity.
    + rewrite (HA ys Aw _ _ He X). destruct (proj2 (unify_atom_scalar a d Sd)) as [->| ->]; auto.
  - apply ALL. intros z Hz. apply BOTH in Hz as [[md d] [[me e] [Hd [He ->]]]]. cbn [snd].
    pose proof (Aw _ He) as Se. cbn [snd] in Se.
    destruct (U2 md (eval d None)) as [X|X]; [apply IN; eauto| |].
    + rewrite (HB xs Au _ _ Hd X). left. destruct e; reflexivity.
    + rewrite (HA xs Au _ _ Hd X). destruct (proj1 (unify_atom_scalar a e Se)) as [->| ->]; auto.
Qed.

Lemma app_split : forall {A} (a b c d : list A), List.length a = List.length c -> a ++ b = c ++ d -> a = c /\ b = d.
Proof.
  intros A a. induction a as [|x a IH]; intros b [|y c] d L E; try discriminate; [auto|].
  cbn in *. injection E as -> E. injection L as L. destruct (IH b c d L E) as [-> ->]. auto.
Qed.

(** The entries of the fields that the data lacks. *)
Lemma missing_in : forall df fs k z, In (k, z) (missing df fs) <->
  exists f, In f fs /\ flabel f = k /\ fopt f = false /\ has_label k df = false /\ eval (fval f) None = z.
Proof.
  intros df fs k z. unfold missing. rewrite in_flat_map. split.
  - intros [f [Hf H]]. exists f. split; [exact Hf|]. destruct (fopt f || has_label (flabel f) df) eqn:O; [contradiction|].
    apply orb_false_iff in O as [O1 O2]. destruct H as [H|[]]. injection H as <- <-. auto.
  - intros [f [Hf [<- [O1 [O2 <-]]]]]. exists f. split; [exact Hf|]. rewrite O1, O2. left. reflexivity.
Qed.

Lemma agree_unify : forall u, simple u = true -> wf u -> forall w, simple w = true -> wf w -> forall o r,
  (forall d, o = Some d -> dwf d) ->
  eval u o = Con r -> eval w o = Con r -> eval (unify u w) o = Con r.
Proof.
  intros u. induction u as [| |a|t|lo hi|ds IH|es q IHe IHr|fs rest IHf IHr] using val_ind';
    intros Su Wu w Sw Ww o r D Eu Ew.
  1-6: match goal with |- eval (unify ?v _) _ = _ =>
        assert (SH : shallow v = true) by (exact Su || reflexivity);
        destruct (val_top_dec v) as [TE|TE]; [first [discriminate|rewrite unify_VTop_l; exact Ew]|];
        destruct (simple_cases w Sw) as [Hw|[[es' [r' ->]]|[fs' [r' ->]]]];
        [ destruct o as [d|];
          [ destruct (shallow_eval _ _ _ SH Eu) as [-> [I1 _]]; destruct (shallow_eval _ _ _ Hw Ew) as [_ [I2 _]];
            apply shallow_both; assumption
          | apply agree_shallow; assumption ]
        | exfalso; destruct o as [d|];
          [ destruct (shallow_eval _ _ _ SH Eu) as [-> [_ [?|[b ->]]]]; [contradiction|discriminate]
          | destruct (shallow_none _ _ SH Eu) as [b ->]; cbn [eval] in Ew; apply of_list_con in Ew as [? [? _]]; discriminate ]
        | exfalso; destruct o as [d|];
          [ destruct (shallow_eval _ _ _ SH Eu) as [-> [_ [?|[b ->]]]]; [contradiction|discriminate]
          | destruct (shallow_none _ _ SH Eu) as [b ->]; cbn [eval] in Ew; apply of_struct_con in Ew as [? [? _]]; discriminate ] ]
      end.
  - (* lists *)
    destruct (simple_cases w Sw) as [Hw|[[es' [q' ->]]|[fs' [r' ->]]]].
    + destruct (val_top_dec w) as [->|TE]; [rewrite unify_VTop_r; exact Eu|]. exfalso.
      destruct o as [d|].
      * destruct (shallow_eval _ _ _ Hw Ew) as [-> [_ [?|[b ->]]]]; [contradiction|discriminate].
      * destruct (shallow_none _ _ Hw Ew) as [b ->]. cbn [eval] in Eu. apply of_list_con in Eu as [? [? _]]. discriminate.
    + apply simple_list in Su as [Su1 Su2]. apply simple_list in Sw as [Sw1 Sw2].
      apply wf_list in Wu as [Wu1 Wu2]. apply wf_list in Ww as [Ww1 Ww2].
      pose proof (opt_all_some _ _ Wu2) as Wu3. pose proof (opt_all_some _ _ Ww2) as Ww3.
      rewrite Forall_forall in IHe.
      assert (HP : forall u w, (In u es \/ q = Some u) -> (In w es' \/ q' = Some w) -> forall o r,
          (forall d, o = Some d -> dwf d) -> eval u o = Con r -> eval w o = Con r -> eval (unify u w) o = Con r).
      { intros u w Hu Hw. assert (Q : simple w = true /\ wf w) by (destruct Hw; auto). destruct Q as [Q1 Q2].
        destruct Hu as [Hu|Hu]; [apply (IHe u Hu); auto|]. subst q. apply IHr; auto. }
      rewrite unify_VList. destruct o as [d|].
      * destruct d as [|l|]; try discriminate. rewrite eval_VList in Eu, Ew.
        destruct (eval_list q es l) as [rs|] eqn:E1; [|discriminate].
        destruct (eval_list q' es' l) as [rs'|] eqn:E2; [|discriminate].
        apply of_list_con in Eu as [ds [-> ->]]. apply of_list_con in Ew as [ds' [[= <-] ->]].
        specialize (D _ eq_refl). apply dwf_list in D. rewrite Forall_forall in D.
        assert (G : exists ul, unify_list q q' es es' = Some ul /\
                  eval_list (match q, q' with Some u, Some w => Some (unify u w) | _, _ => None end) ul l
                  = Some (map Con ds)).
        { clear - E1 E2 HP D. revert es' l ds E1 E2 HP D. induction es as [|e es IH]; intros es' l ds E1 E2 HP D.
          - destruct es' as [|e' es'].
            + exists []. split; [reflexivity|]. cbn [eval_list] in *.
              destruct q as [u|]; [|destruct q'; destruct l; try discriminate; exact E1].
              destruct q' as [w|]; [|destruct l; try discriminate; exact E1]. f_equal. injection E1 as E1. injection E2 as E2.
              revert ds E1 E2. induction l as [|x l IHl]; intros [|y ds] E1 E2; try discriminate; [reflexivity|].
              cbn [map] in *. injection E1 as E1 E1'. injection E2 as E2 E2'. f_equal.
              * apply HP; auto. intros d [= <-]. apply D. left. reflexivity.
              * apply IHl; auto. intros z Hz. apply D. right. exact Hz.
            + cbn [eval_list] in E1. destruct q as [u|]; [|destruct l; discriminate].
              injection E1 as E1. exists (map (unify u) (e' :: es')). split; [reflexivity|].
              assert (G : forall es'' l ds, incl es'' (e' :: es') -> (forall x, In x l -> dwf x) ->
                 map (fun x => eval u (Some x)) l = map Con ds -> eval_list q' es'' l = Some (map Con ds) ->
                 eval_list (match q' with Some w => Some (unify u w) | None => None end) (map (unify u) es'') l = Some (map Con ds)).
              { clear - HP. intros es''. induction es'' as [|e es'' IH]; intros l ds Hin D E1 E2.
                - cbn [map eval_list] in *. destruct q' as [w|]; [|destruct l; [exact E2|discriminate]].
                  f_equal. injection E2 as E2.
                  revert ds E1 E2. induction l as [|x l IHl]; intros [|y ds] E1 E2; try discriminate; [reflexivity|].
                  cbn [map] in *. injection E1 as E1 E1'. injection E2 as E2 E2'. f_equal.
                  + apply HP; auto. intros d [= <-]. apply D. left. reflexivity.
                  + apply IHl; auto. intros z Hz. apply D. right. exact Hz.
                - destruct l as [|x l]; [discriminate|]. destruct ds as [|y ds]; [discriminate|].
                  cbn [map eval_list] in *. injection E1 as E1 E1'.
                  destruct (eval_list q' es'' l) as [rs|] eqn:F; [|discriminate]. injection E2 as E2 E2'. subst rs.
                  rewrite (IH l ds); auto.
                  + do 2 f_equal. apply HP; auto; [left; apply Hin; left; reflexivity|]. intros d [= <-]. apply D. left. reflexivity.
                  + intros z Hz. apply Hin. right. exact Hz.
                  + intros z Hz. apply D. right. exact Hz. }
              apply G; auto. apply incl_refl.
          - destruct es' as [|e' es'].
            + cbn [eval_list] in E2. destruct q' as [w|]; [|destruct l; discriminate].
              injection E2 as E2. exists (map (fun e => unify e w) (e :: es)). split; [reflexivity|].
              assert (G : forall es'' l ds, incl es'' (e :: es) -> (forall x, In x l -> dwf x) ->
                 map (fun x => eval w (Some x)) l = map Con ds -> eval_list q es'' l = Some (map Con ds) ->
                 eval_list (match q with Some u => Some (unify u w) | None => None end) (map (fun e => unify e w) es'') l = Some (map Con ds)).
              { clear - HP. intros es''. induction es'' as [|x es'' IH]; intros l ds Hin D E1 E2.
                - cbn [map eval_list] in *. destruct q as [u|]; [|destruct l; [exact E2|discriminate]].
                  f_equal. injection E2 as E2.
                  revert ds E1 E2. induction l as [|x l IHl]; intros [|y ds] E1 E2; try discriminate; [reflexivity|].
                  cbn [map] in *. injection E1 as E1 E1'. injection E2 as E2 E2'. f_equal.
                  + apply HP; auto. intros d [= <-]. apply D. left. reflexivity.
                  + apply IHl; auto. intros z Hz. apply D. right. exact Hz.
                - destruct l as [|z l]; [discriminate|]. destruct ds as [|y ds]; [discriminate|].
                  cbn [map eval_list] in *. injection E1 as E1 E1'.
                  destruct (eval_list q es'' l) as [rs|] eqn:F; [|discriminate]. injection E2 as E2 E2'. subst rs.
                  rewrite (IH l ds); auto.
                  + do 2 f_equal. apply HP; auto; [left; apply Hin; left; reflexivity|]. intros d [= <-]. apply D. left. reflexivity.
                  + intros z' Hz. apply Hin. right. exact Hz.
                  + intros z' Hz. apply D. right. exact Hz. }
              apply G; auto. apply incl_refl.
            + destruct l as [|x l]; [discriminate|]. destruct ds as [|y ds].
              { cbn [eval_list] in E1. destruct (eval_list q es l); discriminate. }
              cbn [eval_list map] in E1, E2. destruct (eval_list q es l) as [rs|] eqn:F1; [|discriminate].
              destruct (eval_list q' es' l) as [rs'|] eqn:F2; [|discriminate].
              injection E1 as E1 ->. injection E2 as E2 ->.
              destruct (IH es' l ds F1 F2) as [ul [U1 U2]].
              * intros u w [Hu|Hu] [Hw|Hw]; apply HP; auto; left; right; assumption.
              * intros z Hz. apply D. right. exact Hz.
              * exists (unify e e' :: ul). cbn [unify_list]. rewrite U1. split; [reflexivity|].
                cbn [eval_list map]. rewrite U2. do 2 f_equal.
                apply HP; auto; try (left; left; reflexivity). intros d [= <-]. apply D. left. reflexivity. }
        destruct G as [ul [G1 G2]]. rewrite G1, eval_mk_list_some, eval_VList, G2. apply of_list_Con.
      * cbn [eval] in Eu, Ew. apply of_list_con in Eu as [ds [-> Eu]]. apply of_list_con in Ew as [ds' [[= <-] Ew]].
        assert (G : exists ul, unify_list q q' es es' = Some ul /\ map (fun e => eval e None) ul = map Con ds).
        { clear - Eu Ew HP. revert es' ds Eu Ew HP. induction es as [|e es IH]; intros es' ds Eu Ew HP.
          - destruct ds; [|discriminate]. destruct es'; [|discriminate]. exists []. auto.
          - destruct ds as [|y ds]; [discriminate|]. destruct es' as [|e' es']; [discriminate|].
            cbn [map] in *. injection Eu as E1 Eu. injection Ew as E2 Ew.
            destruct (IH es' ds Eu Ew) as [ul [U1 U2]].
            + intros u w [Hu|Hu] [Hw|Hw]; apply HP; auto; left; right; assumption.
            + exists (unify e e' :: ul). cbn [unify_list]. rewrite U1. split; [reflexivity|]. cbn [map]. rewrite U2.
              f_equal. apply HP; auto; try (left; left; reflexivity). intros d H. discriminate. }
        destruct G as [ul [G1 G2]]. rewrite G1, eval_mk_list. cbn [eval]. rewrite G2. apply of_list_Con.
    + exfalso. destruct o as [[]|]; try discriminate. cbn [eval] in Eu, Ew.
      apply of_list_con in Eu as [? [-> _]]. apply of_struct_con in Ew as [? [? _]]. discriminate.
  - (* structs *)
    destruct (simple_cases w Sw) as [Hw|[[es' [q' ->]]|[fs' [rest' ->]]]].
    + destruct (val_top_dec w) as [->|TE]; [rewrite unify_VTop_r; exact Eu|]. exfalso.
      destruct o as [d|].
      * destruct (shallow_eval _ _ _ Hw Ew) as [-> [_ [?|[b ->]]]]; [contradiction|discriminate].
      * destruct (shallow_none _ _ Hw Ew) as [b ->]. cbn [eval] in Eu. apply of_struct_con in Eu as [? [? _]]. discriminate.
    + exfalso. destruct o as [[]|]; try discriminate. cbn [eval] in Eu, Ew.
      apply of_list_con in Ew as [? [-> _]]. apply of_struct_con in Eu as [? [? _]]. discriminate.
    + apply simple_struct in Su as [Su1 Su2]. apply simple_struct in Sw as [Sw1 Sw2].
      apply wf_struct in Wu as [N [Wu1 Wu2]]. apply wf_struct in Ww as [N' [Ww1 Ww2]].
      pose proof (opt_all_some _ _ Wu2) as Wu3. pose proof (opt_all_some _ _ Ww2) as Ww3.
      rewrite Forall_forall in IHf.
      assert (HP : forall u w, (In u (map fval fs) \/ rest = Some u) -> (In w (map fval fs') \/ rest' = Some w) ->
          forall o r, (forall d, o = Some d -> dwf d) -> eval u o = Con r -> eval w o = Con r -> eval (unify u w) o = Con r).
      { intros u w Hu Hw. assert (Q : simple w = true /\ wf w).
        { destruct Hw as [Hw|Hw]; [|auto]. apply in_map_iff in Hw as [f [<- Hf]]. auto. }
        destruct Q as [Q1 Q2]. destruct Hu as [Hu|Hu].
        - apply in_map_iff in Hu as [f [<- Hf]]. apply (IHf f Hf); auto.
        - subst rest. apply IHr; auto. }
      assert (RED : exists df, dwf (DStruct df) /\ eval (VStruct fs rest) (Some (DStruct df)) = Con r
                 /\ eval (VStruct fs' rest') (Some (DStruct df)) = Con r
                 /\ eval (unify (VStruct fs rest) (VStruct fs' rest')) o
                    = eval (unify (VStruct fs rest) (VStruct fs' rest')) (Some (DStruct df))).
      { destruct o as [d|].
        - destruct d as [| |df]; try discriminate. exists df. auto.
        - exists []. rewrite <- !eval_none_struct. split; [repeat constructor|]. split; [exact Eu|]. split; [exact Ew|].
          rewrite unify_VStruct, eval_mk_struct, eval_mk_struct_some by (apply nodup_unify; assumption).
          apply eval_none_struct. }
      destruct RED as [df [Dd [Eu' [Ew' ->]]]]. clear Eu Ew D o IHf IHr.
      rewrite unify_VStruct, eval_mk_struct_some by (apply nodup_unify; assumption).
      rewrite eval_VStruct' in *. apply of_struct_con in Eu' as [ds [-> Eu]]. apply of_struct_con in Ew' as [ds' [[= <-] Ew]].
      apply dwf_struct in Dd as [ND Dd]. rewrite Forall_forall in Dd.
      rewrite <- of_struct_Con. f_equal. rewrite <- Eu. rewrite <- Ew in Eu.
      apply app_split in Eu as [A M]; [|rewrite !map_length; reflexivity].
      assert (C : forall k z, In (k, z) (map (fun kx => (fst kx, eval_at fs' rest' (fst kx) (snd kx))) df ++ missing df fs')
                 -> exists y, z = Con y).
      { rewrite Ew. intros k z Hz. apply in_map_iff in Hz as [y [E _]]. injection E as _ <-. eauto. }
      f_equal.
      * apply map_ext_in. intros [k x] Hx. cbn [fst snd]. f_equal.
        assert (E : eval_at fs rest k x = eval_at fs' rest' k x).
        { clear - A Hx. induction df as [|kx df IH]; [contradiction|]. cbn [map] in A. injection A as A1 A2.
          destruct Hx as [->|Hx]; [exact A1|apply IH; assumption]. }
        destruct (C k (eval_at fs' rest' k x)) as [y Hy].
        { apply in_app_iff. left. apply in_map_iff. exists (k, x). auto. }
        rewrite E, Hy. apply eval_at_unify; [|rewrite E; exact Hy|exact Hy].
        intros u w Hu Hw. apply HP; auto. intros d [= <-]. apply (Dd _ Hx).
      * unfold missing at 1. rewrite flat_map_app. fold (missing df (flat_map (unify_right fs rest) fs')).
        assert (R : missing df (flat_map (unify_right fs rest) fs') = []).
        { destruct (missing df (flat_map (unify_right fs rest) fs')) as [|[k z] t] eqn:Q; [reflexivity|]. exfalso.
          assert (HI : In (k, z) (missing df (flat_map (unify_right fs rest) fs'))) by (rewrite Q; left; reflexivity).
          apply missing_in in HI as [g [Hg [L [O [H _]]]]]. apply in_flat_map in Hg as [f' [Hf' Hg]].
          unfold unify_right in Hg. destruct (field_of (flabel f') fs) as [?|] eqn:F; [contradiction|].
          destruct Hg as [<-|[]]. cbn in L, O. fold (flabel f') in L. fold (fopt f') in O. subst k.
          assert (HI : In (flabel f', eval (fval f') None) (missing df fs')) by (apply missing_in; exists f'; auto).
          rewrite <- M in HI. apply missing_in in HI as [f [Hf [L _]]].
          exact (field_of_none _ _ F f Hf L). }
        rewrite R, app_nil_r.
        assert (G : forall l, incl l fs -> flat_map (fun f => if fopt f || has_label (flabel f) df then []
                       else [(flabel f, eval (fval f) None)]) (map (unify_left fs' rest') l) = missing df l).
        { induction l as [|f l IH]; intros Hin; [reflexivity|]. unfold missing in *. cbn [map flat_map].
          rewrite IH by (intros z Hz; apply Hin; right; exact Hz). f_equal. rewrite unify_left_label.
          assert (Hf : In f fs) by (apply Hin; left; reflexivity).
          destruct (has_label (flabel f) df) eqn:H; [rewrite !orb_true_r; reflexivity|]. rewrite !orb_false_r.
          destruct (fopt f) eqn:O.
          - assert (OL : fopt (unify_left fs' rest' f) = true).
            { unfold unify_left. destruct (field_of (flabel f) fs') as [f'|] eqn:F; [|exact O].
              cbn [fopt fst snd]. fold (fopt f) (fopt f'). rewrite O. cbn. destruct (fopt f') eqn:O'; [reflexivity|]. exfalso.
              apply field_of_some in F as [Hf' L].
              assert (HI : In (flabel f', eval (fval f') None) (missing df fs')).
              { apply missing_in. exists f'. rewrite L. auto. }
              unfold missing in HI. rewrite <- M in HI. apply missing_in in HI as [g [Hg [Lg [Og _]]]].
              rewrite L in Lg. pose proof (field_of_in fs g N Hg) as X. rewrite Lg in X.
              pose proof (field_of_in fs f N Hf). congruence. }
            rewrite OL. reflexivity.
          - assert (HI : In (flabel f, eval (fval f) None) (missing df fs)) by (apply missing_in; exists f; auto).
            unfold missing in HI. rewrite M in HI. destruct (C (flabel f) (eval (fval f) None)) as [y Hy].
            { apply in_app_iff. right. exact HI. }
            apply missing_in in HI as [f' [Hf' [L [O' [_ E']]]]].
            unfold unify_left. rewrite <- L, (field_of_in fs' f' N' Hf'). cbn [fopt fval flabel fst snd].
            fold (fopt f) (fopt f'). rewrite O. cbn [andb]. f_equal. f_equal. rewrite Hy. apply HP; auto.
            + left. apply in_map. exact Hf.
            + left. apply in_map. exact Hf'.
            + intros d [= ].
            + congruence. }
        apply G. apply incl_refl.
Qed.
