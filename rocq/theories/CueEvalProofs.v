(** Unification of the fragment with data on either side, and what it keeps. *)
From Verif Require Import Prelude CueFrag CueSem CueProofs Hydrate HydrateSem HydrateProofs
  HydrateFacts CueEval CueEvalSem.
Local Open Scope string_scope.
Local Open Scope list_scope.

Definition con (r : res) : Prop := exists x, r = Con x.

Lemma con_of_struct : forall l, con (of_struct l) <-> (forall x, In x l -> con (snd x)).
Proof.
  intros l. split.
  - intros [x H]. apply of_struct_con in H as [ds [-> ->]]. intros y Hy.
    apply in_map_iff in Hy as [z [<- _]]. eexists. reflexivity.
  - intros H. destruct (con_choice2 l) as [ds E].
    + intros k r Hr. exact (H (k, r) Hr).
    + exists (DStruct ds). apply of_struct_con. exists ds. split; [reflexivity|]. exact E.
Qed.

Lemma con_of_list : forall l, con (of_list l) <-> (forall x, In x l -> con x).
Proof.
  intros l. split.
  - intros [x H]. apply of_list_con in H as [ds [-> ->]]. intros y Hy.
    apply in_map_iff in Hy as [z [<- _]]. eexists. reflexivity.
  - intros H. assert (E : exists ds, l = map Con ds).
    { induction l as [|r l IH]; [exists []; reflexivity|].
      destruct (H r (or_introl eq_refl)) as [d ->].
      destruct IH as [ds ->]; [intros x Hx; apply H; right; exact Hx|]. exists (d :: ds). reflexivity. }
    destruct E as [ds ->]. exists (DList ds). apply of_list_Con.
Qed.

(** *** Data on the right *)

Lemma scalar_data_right : forall x d, scalar_val x = true ->
  eval (unify x (embed d)) None = eval x (Some d).
Proof.
  intros x d H. destruct x as [| |a|t|lo hi| | |]; try discriminate; destruct d as [b|l|l]; try reflexivity.
  - cbn. destruct (atom_eqb_spec a b) as [->|N].
    + destruct b; reflexivity.
    + destruct a, b; reflexivity.
  - cbn. destruct b, t; reflexivity.
  - cbn. destruct b; try reflexivity; try (destruct (in_lo lo z && in_hi hi z); reflexivity).
Qed.

Lemma atom_not_or : forall d, is_or (embed d) = false /\ embed d <> VBot /\ embed d <> VTop.
Proof. intros []; repeat split; discriminate. Qed.

Lemma simple_list : forall es r, simple (VList es r) = true ->
  (forall e, In e es -> simple e = true) /\ (forall u, r = Some u -> simple u = true).
Proof.
  intros es r H. cbn [simple] in H. apply andb_true_iff in H as [H1 H2].
  rewrite forallb_forall in H1. split; [exact H1|]. intros u ->. exact H2.
Qed.

Lemma simple_struct : forall fs r, simple (VStruct fs r) = true ->
  (forall f, In f fs -> simple (fval f) = true) /\ (forall u, r = Some u -> simple u = true).
Proof.
  intros es r H. cbn [simple] in H. apply andb_true_iff in H as [H1 H2].
  rewrite forallb_forall in H1. split; [exact H1|]. intros u ->. exact H2.
Qed.

Definition cons_of (o : option (list res)) : Prop :=
  match o with Some l => forall x, In x l -> con x | None => False end.

Lemma con_list_unify : forall r es l,
  con (eval (unify (VList es r) (embed (DList l))) None) <->
  cons_of (match unify_list r None es (map embed l) with
           | Some u => Some (map (fun e => eval e None) u) | None => None end).
Proof.
  intros r es l. cbn [embed]. rewrite unify_VList.
  destruct (unify_list r None es (map embed l)) as [u|].
  - rewrite eval_mk_list. cbn [eval cons_of]. apply con_of_list.
  - cbn. split; [intros [x H]; discriminate|contradiction].
Qed.

Lemma in_regular : forall fs p,
  In p (flat_map (fun f : string * bool * val => if snd (fst f) then [] else [(fst (fst f), eval (snd f) None)]) fs)
  <-> exists f, In f fs /\ fopt f = false /\ p = (flabel f, eval (fval f) None).
Proof.
  intros fs p. rewrite in_flat_map. split.
  - intros [f [Hf H]]. exists f. unfold fopt. destruct (snd (fst f)); [contradiction|].
    destruct H as [<-|[]]. auto.
  - intros [f [Hf [H ->]]]. exists f. unfold fopt in H. rewrite H. split; [exact Hf|]. left. reflexivity.
Qed.

Lemma con_struct_parts : forall fs rest,
  con (eval (VStruct fs rest) None) <->
  (forall f, In f fs -> fopt f = false -> con (eval (fval f) None)).
Proof.
  intros fs rest. cbn [eval]. rewrite con_of_struct. split.
  - intros H f Hf Ho. apply (H (flabel f, eval (fval f) None)). apply in_regular. eauto.
  - intros H p Hp. apply in_regular in Hp as [f [Hf [Ho ->]]]. exact (H f Hf Ho).
Qed.

Lemma con_struct_data : forall fs rest df,
  con (eval (VStruct fs rest) (Some (DStruct df))) <->
  (forall k x, In (k, x) df -> con (eval_at fs rest k x)) /\
  (forall f, In f fs -> fopt f = false -> has_label (flabel f) df = false -> con (eval (fval f) None)).
Proof.
  intros fs rest df. rewrite eval_VStruct, con_of_struct. split.
  - intros H. split.
    + intros k x Hx. apply (H (k, eval_at fs rest k x)). apply in_app_iff. left.
      apply in_map_iff. exists (k, x). auto.
    + intros f Hf Ho Hl. apply (H (flabel f, eval (fval f) None)). apply in_app_iff. right.
      apply in_flat_map. exists f. split; [exact Hf|]. rewrite Ho, Hl. left. reflexivity.
  - intros [H1 H2] p Hp. apply in_app_iff in Hp as [Hp|Hp].
    + apply in_map_iff in Hp as [[k x] [<- Hx]]. exact (H1 k x Hx).
    + apply in_flat_map in Hp as [f [Hf Hp]].
      destruct (fopt f) eqn:Ho; [contradiction|]. destruct (has_label (flabel f) df) eqn:Hl; [contradiction|].
      destruct Hp as [<-|[]]. exact (H2 f Hf Ho Hl).
Qed.

Lemma lookup_some_in : forall k df x, lookup k df = Some x -> In (k, x) df.
Proof.
  intros k df x. induction df as [|[l y] df IH]; intros H; [discriminate|].
  cbn [lookup] in H. destruct (String.eqb_spec k l) as [E|E].
  - injection H as ->. subst. left. reflexivity.
  - right. apply IH. exact H.
Qed.

(** Validation unifies the schema with the data in this order. It accepts exactly
    the data that evaluates to concrete data. *)
Lemma data_right : forall s, simple s = true -> wf s -> forall d, dwf d ->
  (con (eval (unify s (embed d)) None) <-> con (eval s (Some d))).
Proof.
  intros s. induction s as [| |a|t|lo hi|ds IH|es r IHe IHr|fs rest IHf IHr] using val_ind';
    intros Ss W d D; try (rewrite scalar_data_right by reflexivity; reflexivity).
  - rewrite unify_VTop_l, eval_embed. cbn. reflexivity.
  - destruct (atom_not_or d) as [A [B C]]. rewrite unify_or_l by assumption.
    rewrite eval_mk_or, map_map. cbn [eval fst snd].
    rewrite (map_ext_in _ (fun x : bool * val => (fst x, eval (snd x) (Some d)))); [reflexivity|].
    intros x Hx. f_equal. apply scalar_data_right. exact (simple_or ds x Ss Hx).
  - destruct d as [b|l|df].
    1,3: cbn; split; intros [x H]; discriminate.
    rewrite con_list_unify, eval_VList.
    assert (E : cons_of (match unify_list r None es (map embed l) with
                 | Some u => Some (map (fun e => eval e None) u) | None => None end)
               <-> cons_of (eval_list r es l)).
    { apply simple_list in Ss as [Se Sr]. apply wf_list in W as [We Wr]. apply dwf_list in D.
      revert l D. induction es as [|e es IHes]; intros l D.
      - destruct l as [|x l]; [destruct r; reflexivity|].
        destruct r as [u|]; [|reflexivity].
        change (cons_of (Some (map (fun e => eval e None) (map (unify u) (map embed (x :: l)))))
                <-> cons_of (Some (map (fun y => eval u (Some y)) (x :: l)))).
        cbn [cons_of].
        assert (K : forall y, In y (x :: l) -> (con (eval (unify u (embed y)) None) <-> con (eval u (Some y)))).
        { intros y Hy. rewrite Forall_forall in D. apply (IHr (Sr u eq_refl) Wr y (D y Hy)). }
        split; intros H z Hz; apply in_map_iff in Hz as [y [<- Hy]].
        + apply (K y Hy). apply H. rewrite !map_map. apply in_map_iff. exists y. auto.
        + apply in_map_iff in Hy as [y' [<- Hy]]. apply in_map_iff in Hy as [y2 [<- Hy]].
          apply (K y2 Hy). apply H. apply in_map_iff. exists y2. auto.
      - destruct l as [|x l]; [cbn; reflexivity|]. cbn [map unify_list eval_list].
        inversion IHe as [|? ? He IHe']; subst. inversion D as [|? ? D1 D2]; subst.
        assert (IH2 := IHes IHe' (fun y Hy => Se y (or_intror Hy)) (fun y Hy => We y (or_intror Hy)) l D2).
        assert (K := He (Se e (or_introl eq_refl)) (We e (or_introl eq_refl)) x D1).
        destruct (unify_list r None es (map embed l)) as [u|], (eval_list r es l) as [rs|];
          cbn [cons_of map] in *.
        + split; intros H y [<-|Hy].
          * apply K. apply H. left. reflexivity.
          * apply (proj1 IH2); [|exact Hy]. intros z Hz. apply H. right. exact Hz.
          * apply K. apply H. left. reflexivity.
          * apply (proj2 IH2); [|exact Hy]. intros z Hz. apply H. right. exact Hz.
        + split; [|contradiction]. intros H. apply IH2. intros z Hz. apply H. right. exact Hz.
        + split; [contradiction|]. intros H. apply IH2. intros z Hz. apply H. right. exact Hz.
        + reflexivity. }
    rewrite E. destruct (eval_list r es l) as [rs|]; cbn [cons_of].
    + symmetry. apply con_of_list.
    + split; [contradiction|intros [x H]; discriminate].
  - destruct d as [b|l|df].
    1,2: cbn; split; intros [x H]; discriminate.
    cbn [embed]. fold (emb_fields df). rewrite unify_VStruct, eval_mk_struct.
    rewrite con_struct_parts, con_struct_data.
    apply simple_struct in Ss as [Sf Sr]. apply wf_struct in W as [N [Wf Wr]].
    apply dwf_struct in D as [ND D]. rewrite Forall_forall in D, IHf.
    split.
    + intros H. split.
      * intros k x Hx. unfold eval_at. destruct (field_of k fs) as [f|] eqn:F.
        -- apply field_of_some in F as [Hf <-].
           apply (IHf f Hf (Sf f Hf) (Wf f Hf) x (D _ Hx)).
           assert (Hin : In (unify_left (emb_fields df) (Some VTop) f)
                     (map (unify_left (emb_fields df) (Some VTop)) fs
                      ++ flat_map (unify_right fs rest) (emb_fields df)))
             by (apply in_app_iff; left; apply in_map; exact Hf).
           apply H in Hin.
           ++ unfold unify_left in Hin. rewrite field_of_emb, (lookup_in df (flabel f) x ND Hx) in Hin.
              exact Hin.
           ++ unfold unify_left. rewrite field_of_emb, (lookup_in df (flabel f) x ND Hx). cbn.
              apply andb_false_r.
        -- assert (Hin : In (k, false, match rest with Some u => unify u (embed x) | None => VBot end)
                     (map (unify_left (emb_fields df) (Some VTop)) fs
                      ++ flat_map (unify_right fs rest) (emb_fields df))).
           { apply in_app_iff. right. apply in_flat_map. exists (k, false, embed x). split.
             - apply in_map_iff. exists (k, x). auto.
             - unfold unify_right. cbn [flabel fst]. rewrite F. left. reflexivity. }
           apply H in Hin; [|reflexivity]. cbn [fval snd] in Hin.
           destruct rest as [u|]; [|destruct Hin; discriminate].
           apply (IHr (Sr u eq_refl) Wr x (D _ Hx)). exact Hin.
      * intros f Hf Ho Hl. rewrite has_label_lookup in Hl.
        assert (Hin : In (unify_left (emb_fields df) (Some VTop) f)
                     (map (unify_left (emb_fields df) (Some VTop)) fs
                      ++ flat_map (unify_right fs rest) (emb_fields df)))
             by (apply in_app_iff; left; apply in_map; exact Hf).
        apply H in Hin; unfold unify_left in *; rewrite field_of_emb in *;
          destruct (lookup (flabel f) df); try discriminate.
        -- cbn [fval snd] in Hin. rewrite unify_VTop_r in Hin. exact Hin.
        -- exact Ho.
    + intros [H1 H2] g Hg Ho. apply in_app_iff in Hg as [Hg|Hg].
      * apply in_map_iff in Hg as [f [<- Hf]]. unfold unify_left in *. rewrite field_of_emb in *.
        destruct (lookup (flabel f) df) as [x|] eqn:L.
        -- apply lookup_some_in in L. cbn [fval snd].
           apply (IHf f Hf (Sf f Hf) (Wf f Hf) x (D _ L)). specialize (H1 _ _ L). unfold eval_at in H1.
           rewrite (field_of_in fs f N Hf) in H1. exact H1.
        -- cbn [fval snd]. rewrite unify_VTop_r. apply (H2 f Hf Ho). rewrite has_label_lookup, L. reflexivity.
      * apply in_flat_map in Hg as [g' [Hg' Hg]]. apply in_map_iff in Hg' as [[k x] [<- Hx]].
        unfold unify_right in Hg. cbn [flabel fst snd fval] in Hg.
        destruct (field_of k fs) eqn:F; [contradiction|]. destruct Hg as [<-|[]]. cbn [fval snd].
        specialize (H1 _ _ Hx). unfold eval_at in H1. rewrite F in H1.
        destruct rest as [u|]; [|destruct H1; discriminate].
        apply (IHr (Sr u eq_refl) Wr x (D _ Hx)). exact H1.
Qed.
