(** What embedding and unification keep of data. *)
From Verif Require Import Prelude CueFrag CueSem CueProofs Hydrate HydrateSem HydrateProofs
  HydrateFacts CueEval CueEvalSem CueEvalProofs.
Local Open Scope string_scope.
Local Open Scope list_scope.

(** *** Well-formedness *)

Lemma wf_or_intro : forall ds, (forall d, In d ds -> wf (snd d)) -> wf (VOr ds).
Proof.
  intros ds H. cbn. induction ds as [|d ds IH]; [exact I|]. split; [apply H; left; reflexivity|].
  apply IH. intros x Hx. apply H. right. exact Hx.
Qed.

Lemma wf_list_intro : forall es r, (forall e, In e es -> wf e) -> opt_all wf r -> wf (VList es r).
Proof.
  intros es r H Hr. split; [|destruct r; exact Hr]. induction es as [|d es IH]; [exact I|].
  split; [apply H; left; reflexivity|]. apply IH. intros x Hx. apply H. right. exact Hx.
Qed.

Lemma wf_struct_intro : forall fs r, NoDup (map flabel fs) -> (forall f, In f fs -> wf (snd f)) ->
  opt_all wf r -> wf (VStruct fs r).
Proof.
  intros es r N H Hr. split; [exact N|]. split; [|destruct r; exact Hr]. clear N.
  induction es as [|d es IH]; [exact I|].
  split; [apply H; left; reflexivity|]. apply IH. intros x Hx. apply H. right. exact Hx.
Qed.

Lemma wf_mk_or : forall ds, (forall d, In d ds -> wf (snd d)) -> wf (mk_or ds).
Proof.
  intros ds H. unfold mk_or.
  assert (K : forall d, In d (filter (fun d : bool * val => negb (is_bot (snd d))) ds) -> wf (snd d)).
  { intros d Hd. apply filter_In in Hd as [Hd _]. apply H. exact Hd. }
  destruct (filter _ ds) as [|d [|d' l]].
  - exact I.
  - apply K. left. reflexivity.
  - apply wf_or_intro. exact K.
Qed.

Lemma wf_mk_struct : forall fs r, wf (VStruct fs r) -> wf (mk_struct fs r).
Proof. intros fs r H. unfold mk_struct. destruct (existsb _ fs); [exact I|exact H]. Qed.

Lemma wf_mk_list : forall fs r, wf (VList fs r) -> wf (mk_list fs r).
Proof.
  intros fs r H. unfold mk_list. destruct (existsb _ fs); [exact I|].
  destruct r as [[]|]; exact H.
Qed.

Lemma wf_scalar : forall v, scalar_val v = true -> wf v.
Proof. intros [] H; try discriminate; exact I. Qed.

Lemma wf_unify_list : forall r r' es es',
  (forall e w, In e es -> wf w -> wf (unify e w)) -> (forall u w, r = Some u -> wf w -> wf (unify u w)) ->
  (forall e, In e es' -> wf e) -> opt_all wf r' ->
  forall l, unify_list r r' es es' = Some l -> forall x, In x l -> wf x.
Proof.
  intros r r' es. induction es as [|e es IH]; intros es' He Hr W' Wr l H x Hx.
  - destruct es' as [|e' es']; cbn [unify_list] in H; [injection H as <-; contradiction|].
    destruct r as [u|]; [|discriminate]. injection H as <-.
    change (In x (map (unify u) (e' :: es'))) in Hx. apply in_map_iff in Hx as [y [<- Hy]].
    apply (Hr u _ eq_refl). apply W'. exact Hy.
  - destruct es' as [|e' es']; cbn [unify_list] in H.
    + destruct r' as [w|]; [|discriminate]. injection H as <-.
      change (In x (map (fun e => unify e w) (e :: es))) in Hx.
      apply in_map_iff in Hx as [y [<- Hy]]. apply He; [exact Hy|exact Wr].
    + destruct (unify_list r r' es es') as [l'|] eqn:E; [|discriminate]. injection H as <-.
      destruct Hx as [<-|Hx].
      * apply He; [left; reflexivity|]. apply W'. left. reflexivity.
      * apply (IH es') with (l := l'); auto.
        -- intros e0 w0 H0. apply He. right. exact H0.
        -- intros e0 H0. apply W'. right. exact H0.
Qed.

Lemma wf_unify : forall u, wf u -> forall w, wf w -> wf (unify u w).
Proof.
  intros u. induction u as [| |a|t|lo hi|ds IH|es r IHe IHr|fs rest IHf IHr] using val_ind';
    intros WU w; induction w as [| |a'|t'|lo' hi'|ds' IH'|es' r' IHe' IHr'|fs' rest' IHf' IHr'] using val_ind';
    intros WW; rewrite ?unify_VTop_r, ?unify_VTop_l; try assumption; try exact I;
    try (apply wf_scalar; apply scalar_unify; reflexivity).
  all: try (rewrite unify_or_r by (reflexivity || discriminate); apply wf_mk_or; intros d Hd;
            apply in_map_iff in Hd as [x [<- Hx]]; cbn [snd]; rewrite Forall_forall in IH';
            apply (IH' x Hx (wf_or _ WW x Hx))).
  all: try (rewrite unify_or_l by (reflexivity || discriminate); apply wf_mk_or; intros d Hd;
            apply in_map_iff in Hd as [x [<- Hx]]; cbn [snd]; rewrite Forall_forall in IH;
            apply (IH x Hx (wf_or _ WU x Hx) _ WW)).
  - change (wf (mk_or (flat_map (fun x : bool * val =>
               map (fun y : bool * val =>
                 ((existsb fst ds || existsb fst ds') && (fst x || negb (existsb fst ds))
                  && (fst y || negb (existsb fst ds')),
                  unify (snd x) (snd y))) ds') ds))).
    apply wf_mk_or. intros d Hd. apply in_flat_map in Hd as [x [Hx Hd]].
    apply in_map_iff in Hd as [y [<- Hy]]. cbn [snd]. rewrite Forall_forall in IH.
    apply (IH x Hx (wf_or _ WU x Hx) _ (wf_or _ WW y Hy)).
  - rewrite unify_VList. apply wf_list in WU as [WU1 WU2]. apply wf_list in WW as [WW1 WW2].
    destruct (unify_list r r' es es') as [l|] eqn:E; [|exact I]. apply wf_mk_list. apply wf_list_intro.
    + apply (wf_unify_list r r' es es'); auto.
      * intros e w He Ww. rewrite Forall_forall in IHe. apply (IHe e He (WU1 e He) w Ww).
      * intros u w -> Ww. apply (IHr WU2 w Ww).
    + destruct r as [u|], r' as [w|]; try exact I. apply (IHr WU2 w WW2).
  - rewrite unify_VStruct. apply wf_struct in WU as [N [WU1 WU2]]. apply wf_struct in WW as [N' [WW1 WW2]].
    rewrite Forall_forall in IHf. apply wf_mk_struct. apply wf_struct_intro.
    + apply nodup_unify; assumption.
    + intros g Hg. apply in_app_iff in Hg as [Hg|Hg].
      * apply in_map_iff in Hg as [f [<- Hf]]. unfold unify_left.
        destruct (field_of (flabel f) fs') as [f'|] eqn:F; cbn [snd].
        -- apply field_of_some in F as [Hf' _]. apply (IHf f Hf (WU1 f Hf) _ (WW1 f' Hf')).
        -- destruct rest' as [w|]; [|exact I]. apply (IHf f Hf (WU1 f Hf) _ WW2).
      * apply in_flat_map in Hg as [f' [Hf' Hg]]. unfold unify_right in Hg.
        destruct (field_of (flabel f') fs); [contradiction|]. destruct Hg as [<-|[]]. cbn [snd].
        destruct rest as [u|]; [|exact I]. apply (IHr WU2 _ (WW1 f' Hf')).
    + destruct rest as [u|], rest' as [w|]; try exact I. apply (IHr WU2 w WW2).
Qed.

Lemma labels_opened : forall fs : list (string * bool * val),
  map flabel (map (fun f => (fst f, opened (snd f))) fs) = map flabel fs.
Proof. intros fs. rewrite map_map. reflexivity. Qed.

Lemma wf_opened : forall v, wf v -> wf (opened v).
Proof.
  intros v. induction v as [| |a|t|lo hi|ds IH|es r IHe IHr|fs rest IHf IHr] using val_ind'; intros W; try exact I.
  - cbn [opened]. apply wf_or_intro. intros d Hd. apply in_map_iff in Hd as [x [<- Hx]]. cbn [snd].
    rewrite Forall_forall in IH. apply (IH x Hx). exact (wf_or _ W x Hx).
  - apply wf_list in W as [W1 W2]. cbn [opened]. apply wf_list_intro.
    + intros e He. apply in_map_iff in He as [x [<- Hx]]. rewrite Forall_forall in IHe.
      apply (IHe x Hx (W1 x Hx)).
    + destruct r as [u|]; [|exact I]. apply (IHr W2).
  - apply wf_struct in W as [N [W1 W2]]. cbn [opened]. apply wf_struct_intro.
    + rewrite labels_opened. exact N.
    + intros e He. apply in_map_iff in He as [x [<- Hx]]. cbn [snd]. rewrite Forall_forall in IHf.
      apply (IHf x Hx (W1 x Hx)).
    + destruct rest as [u|]; [|exact I]. apply (IHr W2).
Qed.

Lemma wf_embed : forall d, dwf d -> wf (embed d).
Proof.
  intros d. induction d as [a|l IH|l IH] using data_ind'; intros D.
  - exact I.
  - apply dwf_list in D. rewrite Forall_forall in D, IH. cbn [embed]. apply wf_list_intro; [|exact I].
    intros e He. apply in_map_iff in He as [x [<- Hx]]. apply (IH x Hx (D x Hx)).
  - apply dwf_struct in D as [N D]. rewrite Forall_forall in D, IH. cbn [embed].
    apply wf_struct_intro; [| |exact I].
    + rewrite map_map. exact N.
    + intros f Hf. apply in_map_iff in Hf as [x [<- Hx]]. apply (IH x Hx (D x Hx)).
Qed.

(** *** Opening structs *)

Lemma field_of_opened : forall k fs,
  field_of k (map (fun f : string * bool * val => (fst f, opened (snd f))) fs)
  = match field_of k fs with Some f => Some (fst f, opened (snd f)) | None => None end.
Proof. intros k fs. apply field_of_map. reflexivity. Qed.

(** Opening a value only admits more. *)
Lemma inst_opened : forall v d, inst v d = true -> inst (opened v) d = true.
Proof.
  intros v. induction v as [| |a|t|lo hi|ds IH|es r IHe IHr|fs rest IHf IHr] using val_ind'; intros d H; try exact H.
  - cbn [opened inst] in *. rewrite existsb_map. cbn [snd]. apply existsb_exists in H as [x [Hx H]].
    apply existsb_exists. exists x. split; [exact Hx|]. rewrite Forall_forall in IH. apply (IH x Hx d H).
  - destruct d as [b|l|df]; try discriminate. cbn [opened]. rewrite inst_VList in *.
    revert l H. induction IHe as [|e es He _ IHes]; intros l H.
    + cbn [map inst_list] in *. destruct r as [u|]; [|exact H].
      rewrite forallb_forall in *. intros x Hx. apply IHr. apply H. exact Hx.
    + destruct l as [|x l]; [discriminate|]. cbn [map inst_list] in *.
      apply andb_true_iff in H as [H1 H2]. rewrite (He x H1). apply IHes. exact H2.
  - destruct d as [b|l|df]; try discriminate. cbn [opened]. rewrite inst_VStruct in *.
    apply andb_true_iff in H as [H1 H2]. apply andb_true_iff. rewrite forallb_forall in H1, H2.
    rewrite Forall_forall in IHf. split; apply forallb_forall.
    + intros [k x] Hx. specialize (H1 _ Hx). cbn [fst snd] in *. unfold inst_at in *.
      rewrite field_of_opened. destruct (field_of k fs) as [f|] eqn:F.
      * cbn [snd]. apply field_of_some in F as [Hf _]. apply (IHf f Hf x H1).
      * destruct rest as [u|]; [apply (IHr x H1)|discriminate].
    + intros g Hg. apply in_map_iff in Hg as [f [<- Hf]]. exact (H2 f Hf).
Qed.

Lemma simple_opened : forall v, simple v = true -> simple (opened v) = true.
Proof.
  intros v. induction v as [| |a|t|lo hi|ds IH|es r IHe IHr|fs rest IHf IHr] using val_ind'; intros H; try exact H.
  - cbn [opened simple] in *. rewrite forallb_forall in *. intros d Hd.
    apply in_map_iff in Hd as [x [<- Hx]]. cbn [snd]. specialize (H x Hx). destruct (snd x); try discriminate; reflexivity.
  - apply simple_list in H as [H1 H2]. cbn [opened simple]. apply andb_true_iff. split.
    + apply forallb_forall. intros e He. apply in_map_iff in He as [x [<- Hx]].
      rewrite Forall_forall in IHe. apply (IHe x Hx (H1 x Hx)).
    + destruct r as [u|]; [|reflexivity]. apply (IHr (H2 u eq_refl)).
  - apply simple_struct in H as [H1 H2]. cbn [opened simple]. apply andb_true_iff. split.
    + apply forallb_forall. intros e He. apply in_map_iff in He as [x [<- Hx]]. cbn [snd].
      rewrite Forall_forall in IHf. apply (IHf x Hx (H1 x Hx)).
    + destruct rest as [u|]; [|reflexivity]. apply (IHr (H2 u eq_refl)).
Qed.

Lemma opened_embed : forall d, opened (embed d) = embed d.
Proof.
  intros d. induction d as [a|l IH|l IH] using data_ind'.
  - reflexivity.
  - cbn [embed opened]. rewrite map_map. f_equal. rewrite Forall_forall in IH. apply map_ext_in. exact IH.
  - cbn [embed opened]. rewrite map_map. f_equal. rewrite Forall_forall in IH. apply map_ext_in.
    intros x Hx. cbn [fst snd]. f_equal. exact (IH x Hx).
Qed.

(** *** Data below data *)

Lemma inst_embed_extends : forall d, dwf d -> forall x, inst (embed d) x = true -> extends d x.
Proof.
  intros d. induction d as [a|l IH|l IH] using data_ind'; intros D x H.
  - destruct x as [b| |]; try discriminate. cbn in H. apply atom_eqb_eq in H as ->. constructor.
  - destruct x as [|m|]; try discriminate. cbn [embed] in H. rewrite inst_VList in H. constructor.
    apply dwf_list in D. revert m H. induction l as [|y l IHl]; intros m H.
    + destruct m; [constructor|discriminate].
    + destruct m as [|z m]; [discriminate|]. cbn [map inst_list] in H. apply andb_true_iff in H as [H1 H2].
      inversion IH; subst. inversion D; subst. constructor; [|apply IHl; assumption]. apply H3; assumption.
  - destruct x as [| |m]; try discriminate. cbn [embed] in H. fold (emb_fields l) in H.
    rewrite inst_VStruct in H. apply andb_true_iff in H as [H1 H2]. rewrite forallb_forall in H1, H2.
    apply dwf_struct in D as [N D]. rewrite Forall_forall in D, IH. constructor. intros k y Hy.
    assert (Hl : has_label k m = true).
    { assert (Hin : In (k, false, embed y) (emb_fields l)) by (apply in_map_iff; exists (k, y); auto).
      exact (H2 _ Hin). }
    apply has_label_in in Hl as [z Hz]. exists z. split; [exact Hz|].
    specialize (H1 _ Hz). cbn [fst snd] in H1. unfold inst_at in H1.
    rewrite field_of_emb, (lookup_in l k y N Hy) in H1. exact (IH _ Hy (D _ Hy) z H1).
Qed.
