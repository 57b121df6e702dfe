(** The exact result of [doDehydrate] on a schema body. *)
From Verif Require Import Prelude CueFrag CueSem CueProofs Hydrate HydrateSem HydrateProofs HydrateFacts DehydrateFacts.
Local Open Scope string_scope.
Local Open Scope list_scope.

Definition exact (s : val) (d : data) (o : outcome (val * bool)) : Prop :=
  match trim s d with
  | None => exists v, o = Ok (v, true)
  | Some d' => o = Ok (embed d', false)
  end.

Lemma atom_eqb_sym : forall a b, atom_eqb a b = atom_eqb b a.
Proof.
  intros a b. destruct a, b; try reflexivity; cbn;
    try apply String.eqb_sym; try apply Z.eqb_sym.
  destruct b, b0; reflexivity.
Qed.

Lemma equal_or : forall ds d, at_most_one ds = true ->
  isCueValueEqual (VOr ds) (embed d) = the_default ds d.
Proof.
  intros ds d H. unfold isCueValueEqual, getDefault, the_default, at_most_one in *. cbn [default].
  destruct (filter fst ds) as [|[m v] l]; [reflexivity|].
  destruct v as [| |a| | | | |], l; try discriminate. cbn [snd andb empty_list].
  unfold subs_default. rewrite strip_embed. cbn [strip].
  destruct d as [b|l|l]; cbn [embed subs andb]; [|reflexivity|reflexivity].
  rewrite (atom_eqb_sym b a). apply Bool.andb_diag.
Qed.

Lemma equal_plain : forall v d, (forall ds, v <> VOr ds) -> (forall e es u, v <> VList (e :: es) (Some u)) ->
  isCueValueEqual v (embed d) = false.
Proof.
  intros v d H1 H2. destruct v as [| |a|t|lo hi|ds|es r|fs rest]; try reflexivity.
  - exfalso. apply (H1 ds). reflexivity.
  - destruct r as [u|]; [|reflexivity]. destruct es as [|e es]; [reflexivity|].
    exfalso. apply (H2 e es u). reflexivity.
Qed.

Definition kept (df : list (string * data)) (fs : list (string * bool * val)) : list (string * data) :=
  flat_map (fun f : string * bool * val =>
    match lookup (fst (fst f)) df with
    | Some x => match trim (snd f) x with Some y => [(fst (fst f), y)] | None => [] end
    | None => []
    end) fs.

Lemma kept_labels : forall df fs k, In k (map fst (kept df fs)) -> In k (map flabel fs).
Proof.
  intros df fs k H. apply in_map_iff in H as [[k' x] [E H]]. cbn in E. subst k'. unfold kept in H.
  apply in_flat_map in H as [f [Hf H]]. destruct (lookup (fst (fst f)) df); [|contradiction].
  destruct (trim (snd f) d); [|contradiction]. destruct H as [H|[]]. injection H as H _.
  apply in_map_iff. exists f. auto.
Qed.

Lemma deh_kept : forall n df fs done,
  (forall f x, In f fs -> lookup (flabel f) df = Some x -> exact (fval f) x (doDehydrate n (fval f) (embed x))) ->
  NoDup (map flabel fs) -> (forall k, In k (map fst done) -> ~ In k (map flabel fs)) ->
  deh_fields n (embed (DStruct df)) fs (VStruct (emb_fields done) (Some VTop))
  = Ok (VStruct (emb_fields (done ++ kept df fs)) (Some VTop)).
Proof.
  intros n df fs. induction fs as [|f fs IH]; intros done H N HD.
  - cbn. rewrite app_nil_r. reflexivity.
  - cbn [map] in N. inversion N as [|? ? N1 N2]; subst.
    assert (H' : forall g x, In g fs -> lookup (flabel g) df = Some x ->
      exact (fval g) x (doDehydrate n (fval g) (embed x))).
    { intros g x Hg. apply H. right. exact Hg. }
    assert (HD' : forall k, In k (map fst done) -> ~ In k (map flabel fs)).
    { intros k Hk Hin. apply (HD k Hk). right. exact Hin. }
    cbn [deh_fields]. rewrite lookup_field_emb. unfold kept. cbn [flat_map]. fold (flabel f). fold (kept df fs).
    destruct (lookup (flabel f) df) as [x|] eqn:L; [|apply IH; assumption].
    specialize (H f x (or_introl eq_refl) L). unfold exact in H. unfold fval in H at 1.
    destruct (trim (snd f) x) as [y|] eqn:T.
    + rewrite H. rewrite fill_emb.
      2: { intros Hd. apply (HD _ Hd). left. reflexivity. }
      rewrite IH; try assumption; [rewrite <- app_assoc; reflexivity|].
      intros k Hk. rewrite map_app, in_app_iff in Hk. destruct Hk as [Hk|[<-|[]]]; [apply HD'; exact Hk|exact N1].
    + destruct H as [v H]. rewrite H. apply IH; assumption.
Qed.

Lemma branch_scalar : forall n b x, scalar_val b = true ->
  doDehydrate (S n) b (embed x) = Ok (embed x, false).
Proof.
  intros n b x H. rewrite doDehydrate_other.
  - rewrite equal_plain; [reflexivity| |]; intros; intros ->; discriminate.
  - apply shallow_not_list. destruct b; try discriminate; reflexivity.
  - apply shallow_not_struct. destruct b; try discriminate; reflexivity.
Qed.

Definition stay (u : val) (x : data) : data := match trim u x with Some y => y | None => x end.

Lemma deh_stay : forall n u l, simple u = true ->
  (forall x, In x l -> exact u x (doDehydrate (S n) u (embed x))) ->
  deh_elems (S n) u (map embed l) = Ok (map embed (map (stay u) l)).
Proof.
  intros n u l SU. induction l as [|x l IH]; intros H; [reflexivity|].
  cbn [map deh_elems]. rewrite IH by (intros y Hy; apply H; right; exact Hy).
  specialize (H x (or_introl eq_refl)).
  assert (W : forall ref, ref = u -> 
    match doDehydrate (S n) ref (embed x) with
    | Ok (re, isEqual) => (l0 <- Ok (map embed (map (stay u) l)) ;; Ok ((if isEqual then embed x else re) :: l0))
    | Err _ => (l0 <- Ok (map embed (map (stay u) l)) ;; Ok (embed x :: l0))
    | Panic => Panic
    | OutOfFuel => OutOfFuel
    end = Ok (embed (stay u x) :: map embed (map (stay u) l))).
  { intros ref ->. unfold exact in H. unfold stay at 3.
    destruct (trim u x) as [y|]; [rewrite H; reflexivity|destruct H as [v H]; rewrite H; reflexivity]. }
  assert (O : forall ds, u = VOr ds -> stay u x = x).
  { intros ds ->. unfold stay. cbn [trim]. destruct (the_default ds x); reflexivity. }
  destruct (getBranch u (embed x)) as [ref|er| |] eqn:G.
  - apply getBranch_ok in G as [->|G]; [apply W; reflexivity|].
    apply expr_in in G as [->|[ds [m [-> Hb]]]]; [apply W; reflexivity|].
    cbn [simple] in SU. rewrite forallb_forall in SU. specialize (SU _ Hb). cbn [snd] in SU.
    rewrite branch_scalar by exact SU. rewrite (O ds eq_refl). reflexivity.
  - unfold getBranch in G. destruct u; cbn in G; try discriminate. rewrite (O ds eq_refl). reflexivity.
  - unfold getBranch in G. destruct (expr u) as [[] ?]; [destruct (find _ _)|]; discriminate.
  - unfold getBranch in G. destruct (expr u) as [[] ?]; [destruct (find _ _)|]; discriminate.
Qed.

Lemma dehydrate_exact : forall s, simple s = true -> plain_lists s = true -> wf s -> live s = true ->
  one_default s = true ->
  forall n d, dwf d -> shapes s d = true -> vdepth s < n -> exact s d (doDehydrate n s (embed d)).
Proof.
  intros s. induction s as [| |a|t|lo hi|ds IH|es r IHe IHr|fs rest IHf IHr] using val_ind';
    intros SS P W L O n d D Sh Hn; (destruct n as [|n]; [lia|]);
    try (unfold exact; cbn [trim]; rewrite doDehydrate_other
           by (reflexivity || (destruct a; reflexivity) || (destruct t; reflexivity));
         rewrite equal_plain by (intros; discriminate); reflexivity).
  - rewrite doDehydrate_other by ((apply shallow_not_list + apply shallow_not_struct); exact SS).
    rewrite equal_or by exact O. unfold exact. cbn [trim].
    destruct (the_default ds d); [eexists; reflexivity|reflexivity].
  - destruct r as [u|].
    + destruct d as [a|l|df]; try discriminate.
      cbn [plain_lists] in P. destruct es as [|e es]; [|discriminate].
      rewrite doDehydrate_list, equal_plain by (intros; discriminate).
      cbn [live] in L. apply andb_true_iff in L as [_ L]. apply andb_true_iff in L as [L1 L2].
      apply negb_true_iff in L1. rewrite L1.
      cbn [simple] in SS. apply andb_true_iff in SS as [_ SU]. apply wf_list in W as [_ WU]. cbn in WU.
      cbn [list_elems default embed fst]. cbn [vdepth] in Hn. destruct n as [|n]; [lia|].
      apply dwf_list in D. cbn [shapes] in Sh. rewrite forallb_forall in Sh. rewrite Forall_forall in D.
      rewrite deh_stay; [|exact SU|].
      2: { intros x Hx. apply (IHr SU P WU L2 O); auto. lia. }
      cbn [bind]. destruct (is_bot_emb (map (stay u) l)) as [B1 B2]. rewrite B1, B2. reflexivity.
    + rewrite doDehydrate_closed, equal_plain by (intros; discriminate). reflexivity.
  - destruct d as [a|l|df]; try discriminate.
    rewrite doDehydrate_struct. apply wf_struct in W as [N [W _]].
    cbn [simple] in SS. apply andb_true_iff in SS as [SF _]. cbn [live] in L. apply andb_true_iff in L as [LF _].
    cbn [plain_lists] in P. apply andb_true_iff in P as [PF _]. cbn [one_default] in O.
    rewrite forallb_forall in SF, LF, PF, O. rewrite Forall_forall in IHf.
    apply dwf_struct in D as [ND D]. rewrite Forall_forall in D.
    cbn [shapes] in Sh. rewrite forallb_forall in Sh.
    unfold empty_struct. change (VStruct [] (Some VTop)) with (VStruct (emb_fields []) (Some VTop)).
    rewrite deh_kept.
    + cbn [bind app]. rewrite reg_fields_emb, copy_emb.
      2: exact ND.
      2: intros k Hk; left; apply (kept_labels df); exact Hk.
      reflexivity.
    + intros f x Hf Hl. apply (IHf f Hf (SF f Hf) (PF f Hf) (W f Hf) (LF f Hf) (O f Hf)).
      * apply (D (flabel f, x)). apply lookup_In. exact Hl.
      * specialize (Sh f Hf). fold (flabel f) in Sh. rewrite Hl in Sh. exact Sh.
      * pose proof (vdepth_field fs rest f Hf) as V. unfold fval in V. lia.
    + exact N.
    + intros k [].
Qed.

Lemma body_exact : forall s d r, simple s = true -> plain_lists s = true -> live s = true ->
  one_default s = true -> wf s -> dwf d -> eval s (Some d) = Con r -> forall n, vdepth s < n ->
  match trim s d with
  | None => exists v, doDehydrate n s (embed d) = Ok (v, true)
  | Some d' => doDehydrate n s (embed d) = Ok (embed d', false)
  end.
Proof.
  intros s d r SS P L O W D E n Hn. apply (dehydrate_exact s SS P W L O n d D); [|exact Hn].
  apply (valid_shapes s SS P W d r D E).
Qed.
