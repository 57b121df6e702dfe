(** Proofs about the CUE fragment: induction, subsumption, evaluation. *)
From Verif Require Import Prelude CueFrag CueSem.
Local Open Scope string_scope.
Local Open Scope list_scope.

Definition opt_all {A} (P : A -> Prop) (o : option A) : Prop :=
  match o with Some a => P a | None => True end.

Section Ind.
Variable P : val -> Prop.
Hypothesis HBot : P VBot.
Hypothesis HTop : P VTop.
Hypothesis HAtom : forall a, P (VAtom a).
Hypothesis HType : forall t, P (VType t).
Hypothesis HRange : forall lo hi, P (VRange lo hi).
Hypothesis HOr : forall ds, Forall (fun d => P (snd d)) ds -> P (VOr ds).
Hypothesis HList : forall es r, Forall P es -> opt_all P r -> P (VList es r).
Hypothesis HStruct : forall fs r, Forall (fun f => P (snd f)) fs -> opt_all P r -> P (VStruct fs r).

Fixpoint val_ind' (v : val) : P v :=
  match v with
  | VBot => HBot
  | VTop => HTop
  | VAtom a => HAtom a
  | VType t => HType t
  | VRange lo hi => HRange lo hi
  | VOr ds =>
      HOr ds ((fix go (l : list (bool * val)) : Forall (fun d => P (snd d)) l :=
                 match l with
                 | [] => Forall_nil _
                 | d :: t => Forall_cons _ (val_ind' (snd d)) (go t)
                 end) ds)
  | VList es r =>
      HList es r
        ((fix go (l : list val) : Forall P l :=
            match l with [] => Forall_nil _ | d :: t => Forall_cons _ (val_ind' d) (go t) end) es)
        (match r return opt_all P r with Some u => val_ind' u | None => I end)
  | VStruct fs r =>
      HStruct fs r
        ((fix go (l : list (string * bool * val)) : Forall (fun f => P (snd f)) l :=
            match l with
            | [] => Forall_nil _
            | d :: t => Forall_cons _ (val_ind' (snd d)) (go t)
            end) fs)
        (match r return opt_all P r with Some u => val_ind' u | None => I end)
  end.
End Ind.

Section DInd.
Variable P : data -> Prop.
Hypothesis HA : forall a, P (DAtom a).
Hypothesis HL : forall l, Forall P l -> P (DList l).
Hypothesis HS : forall l, Forall (fun kx => P (snd kx)) l -> P (DStruct l).
Fixpoint data_ind' (d : data) : P d :=
  match d with
  | DAtom a => HA a
  | DList l =>
      HL l ((fix go (l : list data) : Forall P l :=
               match l with [] => Forall_nil _ | d :: t => Forall_cons _ (data_ind' d) (go t) end) l)
  | DStruct l =>
      HS l ((fix go (l : list (string * data)) : Forall (fun kx => P (snd kx)) l :=
               match l with
               | [] => Forall_nil _
               | d :: t => Forall_cons _ (data_ind' (snd d)) (go t)
               end) l)
  end.
End DInd.

Lemma atom_eqb_eq : forall a b, atom_eqb a b = true <-> a = b.
Proof.
  intros [|x|x|x|x|x] [|y|y|y|y|y]; cbn; split; intro H; try discriminate; try reflexivity;
    try (apply Bool.eqb_prop in H; subst; reflexivity);
    try (apply Z.eqb_eq in H; subst; reflexivity);
    try (apply String.eqb_eq in H; subst; reflexivity);
    inversion H; subst; try apply Bool.eqb_reflx; try apply Z.eqb_refl; apply String.eqb_refl.
Qed.

(** *** [inst] without its local fixpoints *)

Fixpoint inst_list (r : option val) (es : list val) (l : list data) : bool :=
  match es, l with
  | [], _ => match r with Some u => forallb (inst u) l
                     | None => match l with [] => true | _ => false end end
  | _ :: _, [] => false
  | e :: t, x :: l' => inst e x && inst_list r t l'
  end.

Definition inst_at (fs : list (string * bool * val)) (rest : option val) (k : string) (x : data) : bool :=
  match field_of k fs with
  | Some f => inst (snd f) x
  | None => match rest with Some u => inst u x | None => false end
  end.

Lemma inst_VList : forall es r l, inst (VList es r) (DList l) = inst_list r es l.
Proof.
  intros es r. induction es as [|e es IH]; intros l; [reflexivity|].
  destruct l as [|x l]; [reflexivity|]. cbn [inst_list]. rewrite <- IH. reflexivity.
Qed.

Lemma inst_VStruct : forall fs rest df,
  inst (VStruct fs rest) (DStruct df) =
  forallb (fun kx => inst_at fs rest (fst kx) (snd kx)) df
  && forallb (fun f => fopt f || has_label (flabel f) df) fs.
Proof.
  intros fs rest df. cbn [inst]. f_equal.
  induction df as [|kx df IH]; [reflexivity|]. cbn [forallb]. rewrite IH. f_equal.
  clear. unfold inst_at, field_of, flabel. induction fs as [|f fs IH]; [reflexivity|].
  cbn [find]. destruct (String.eqb (fst kx) (fst (fst f))); [reflexivity|exact IH].
Qed.

(** *** Subsumption is sound for membership *)

Fixpoint subs_list (r r' : option val) (es es' : list val) : bool :=
  match es, es' with
  | [], _ =>
      match r with
      | Some u => forallb (subs u) es' && match r' with None => true | Some w => subs u w end
      | None => match es', r' with [], None => true | _, _ => false end
      end
  | _ :: _, [] => false
  | e :: t, e' :: t' => subs e e' && subs_list r r' t t'
  end.

Lemma subs_VList : forall es r es' r',
  subs (VList es r) (VList es' r') = subs_list r r' es es'.
Proof.
  intros es r. induction es as [|e es IH]; intros es' r'; [reflexivity|].
  destruct es' as [|e' es']; [reflexivity|]. cbn [subs_list]. rewrite <- IH. reflexivity.
Qed.

Lemma field_of_some : forall l fs f, field_of l fs = Some f -> In f fs /\ flabel f = l.
Proof.
  intros l fs f H. unfold field_of in H. apply find_some in H. destruct H as [Hi He].
  apply String.eqb_eq in He. auto.
Qed.

Lemma field_of_none : forall l fs, field_of l fs = None -> forall f, In f fs -> flabel f <> l.
Proof.
  intros l fs H f Hf He. unfold field_of in H. apply find_none with (x := f) in H; [|exact Hf].
  rewrite He in H. rewrite String.eqb_refl in H. discriminate.
Qed.

Lemma has_label_in : forall l df, has_label l df = true <-> exists x, In (l, x) df.
Proof.
  intros l df. unfold has_label. rewrite existsb_exists. split.
  - intros [[k x] [Hi He]]. cbn in He. apply String.eqb_eq in He. subst. eauto.
  - intros [x Hi]. exists (l, x). cbn. rewrite String.eqb_refl. auto.
Qed.

Lemma subs_bot : forall a, subs a VBot = true.
Proof. destruct a; reflexivity. Qed.

Lemma subs_or_l : forall xs b, (forall ys, b <> VOr ys) -> b <> VBot ->
  subs (VOr xs) b = existsb (fun x => subs (snd x) b) xs.
Proof. intros xs b H H0. destruct b; try reflexivity; [contradiction|exfalso; apply (H ds); reflexivity]. Qed.

Lemma subs_or_r : forall a ys, (forall xs, a <> VOr xs) ->
  subs a (VOr ys) = match a with VTop => true | _ => forallb (fun y => subs a (snd y)) ys end.
Proof.
  intros a ys H. destruct a; try reflexivity. exfalso. apply (H ds). reflexivity.
Qed.

Lemma type_sub_has : forall t t' a, type_sub t t' = true -> type_has t' a = true -> type_has t a = true.
Proof. intros [] [] [] H H'; cbn in *; try discriminate; reflexivity. Qed.

Lemma subs_sound : forall a b d, subs a b = true -> inst b d = true -> inst a d = true.
Proof.
  intro a. induction a as [| |x|t|lo hi|xs IHx|es r IHe IHr|fs rest IHf IHr] using val_ind'.
  - (* VBot *)
    intros b. induction b as [| |y|t|lo hi|ys IHy|es r IHe IHr|fs rest IHf IHr] using val_ind';
      intros d Hs Hi; try discriminate.
    rewrite subs_or_r in Hs by discriminate. cbn [inst] in Hi.
    apply existsb_exists in Hi. destruct Hi as [y [Hy Hi]].
    rewrite forallb_forall in Hs. rewrite Forall_forall in IHy.
    apply (IHy y Hy d); auto.
  - reflexivity.
  - intros b. induction b as [| |y|t|lo hi|ys IHy|es r IHe IHr|fs rest IHf IHr] using val_ind';
      intros d Hs Hi; try discriminate.
    + cbn in Hs, Hi |- *. apply atom_eqb_eq in Hs. subst. exact Hi.
    + rewrite subs_or_r in Hs by discriminate. cbn [inst] in Hi.
      apply existsb_exists in Hi. destruct Hi as [y [Hy Hi]].
      rewrite forallb_forall in Hs. rewrite Forall_forall in IHy. apply (IHy y Hy d); auto.
  - intros b. induction b as [| |y|t'|lo hi|ys IHy|es r IHe IHr|fs rest IHf IHr] using val_ind';
      intros d Hs Hi; try discriminate.
    + cbn in Hs, Hi |- *. destruct d as [b| |]; try discriminate.
      apply atom_eqb_eq in Hi. subst. exact Hs.
    + cbn in Hs, Hi |- *. destruct d as [b| |]; try discriminate. eapply type_sub_has; eassumption.
    + cbn in Hs, Hi |- *. destruct d as [b| |]; try discriminate. destruct b; try discriminate.
      eapply type_sub_has; [exact Hs|reflexivity].
    + rewrite subs_or_r in Hs by discriminate. cbn [inst] in Hi.
      apply existsb_exists in Hi. destruct Hi as [y [Hy Hi]].
      rewrite forallb_forall in Hs. rewrite Forall_forall in IHy. apply (IHy y Hy d); auto.
  - intros b. induction b as [| |y|t'|lo' hi'|ys IHy|es r IHe IHr|fs rest IHf IHr] using val_ind';
      intros d Hs Hi; try discriminate.
    + cbn in Hs, Hi |- *. destruct d as [b| |]; try discriminate.
      apply atom_eqb_eq in Hi. subst. destruct b; try discriminate. exact Hs.
    + cbn in Hs, Hi |- *. destruct d as [b| |]; try discriminate. destruct b; try discriminate.
      apply andb_true_iff in Hs, Hi. destruct Hs as [H1 H2], Hi as [H3 H4]. apply andb_true_iff.
      destruct lo, hi, lo', hi'; cbn in *; try discriminate; rewrite ?Z.leb_le in *; split; auto; lia.
    + rewrite subs_or_r in Hs by discriminate. cbn [inst] in Hi.
      apply existsb_exists in Hi. destruct Hi as [y [Hy Hi]].
      rewrite forallb_forall in Hs. rewrite Forall_forall in IHy. apply (IHy y Hy d); auto.
  - (* VOr *)
    rewrite Forall_forall in IHx.
    intros b d Hs Hi.
    destruct b as [| |y|t'|lo' hi'|ys|es r|fs rest]; try discriminate;
      try (rewrite subs_or_l in Hs by discriminate; apply existsb_exists in Hs;
           destruct Hs as [x [Hx Hs]]; cbn [inst]; apply existsb_exists; exists x; split; auto;
           apply (IHx x Hx _ d Hs Hi)).
    cbn [subs] in Hs. cbn [inst] in Hi |- *.
    apply existsb_exists in Hi. destruct Hi as [y [Hy Hi]].
    rewrite forallb_forall in Hs. specialize (Hs y Hy). apply existsb_exists in Hs.
    destruct Hs as [x [Hx Hs]]. apply andb_true_iff in Hs. destruct Hs as [Hs _].
    apply existsb_exists. exists x. split; auto. apply (IHx x Hx _ d Hs Hi).
  - (* VList *)
    intros b. induction b as [| |y|t'|lo' hi'|ys IHy|es' r' IHe' IHr'|fs rest IHf IHr'] using val_ind';
      intros d Hs Hi; try discriminate.
    { rewrite subs_or_r in Hs by discriminate. cbn [inst] in Hi.
      apply existsb_exists in Hi. destruct Hi as [y [Hy Hi]].
      rewrite forallb_forall in Hs. rewrite Forall_forall in IHy. apply (IHy y Hy d); auto. }
    clear IHe' IHr'. destruct d as [|l|]; try discriminate.
    rewrite subs_VList in Hs. rewrite inst_VList in Hi |- *.
    revert es' l Hs Hi. induction IHe as [|e es He _ IH]; intros es' l Hs Hi.
    + cbn [inst_list]. destruct r as [u|].
      * cbn [subs_list] in Hs. apply andb_true_iff in Hs. destruct Hs as [H1 H2].
        cbn in IHr. revert l Hi. induction es' as [|e' es' IH']; intros l Hi.
        -- cbn [inst_list] in Hi. destruct r' as [w|].
           ++ rewrite forallb_forall in Hi |- *. intros z Hz. apply (IHr w); auto.
           ++ destruct l; [reflexivity|discriminate].
        -- destruct l as [|z l]; [discriminate|]. cbn [inst_list] in Hi.
           cbn [forallb] in H1. apply andb_true_iff in H1, Hi. destruct H1 as [H1 H3], Hi as [Hz Hi].
           cbn [forallb]. rewrite (IHr e' z H1 Hz). cbn. apply IH'; auto.
      * cbn [subs_list] in Hs. destruct es'; [|discriminate]. destruct r'; [discriminate|].
        cbn [inst_list] in Hi. exact Hi.
    + destruct es' as [|e' es']; [discriminate|]. cbn [subs_list] in Hs.
      apply andb_true_iff in Hs. destruct Hs as [H1 H2].
      destruct l as [|z l]; [discriminate|]. cbn [inst_list] in Hi |- *.
      apply andb_true_iff in Hi. destruct Hi as [Hz Hi].
      rewrite (He e' z H1 Hz). cbn. apply (IH es'); auto.
  - (* VStruct *)
    intros b. induction b as [| |y|t'|lo' hi'|ys IHy|es' r' IHe' IHr'|fs' rest' IHf' IHr'] using val_ind';
      intros d Hs Hi; try discriminate.
    { rewrite subs_or_r in Hs by discriminate. cbn [inst] in Hi.
      apply existsb_exists in Hi. destruct Hi as [y [Hy Hi]].
      rewrite forallb_forall in Hs. rewrite Forall_forall in IHy. apply (IHy y Hy d); auto. }
    clear IHf' IHr'. destruct d as [| |df]; try discriminate.
    rewrite inst_VStruct in Hi |- *. cbn [subs] in Hs.
    apply andb_true_iff in Hs. destruct Hs as [Hs H3]. apply andb_true_iff in Hs. destruct Hs as [H1 H2].
    apply andb_true_iff in Hi. destruct Hi as [Hd Hf].
    rewrite forallb_forall in H1, H2, Hd, Hf. rewrite Forall_forall in IHf.
    apply andb_true_iff. split; apply forallb_forall.
    + intros [k x] Hkx. cbn [fst snd]. specialize (Hd (k, x) Hkx). cbn [fst snd] in Hd.
      unfold inst_at in Hd |- *. destruct (field_of k fs) as [f|] eqn:Ef.
      * apply field_of_some in Ef. destruct Ef as [Hin Hl]. specialize (H1 f Hin).
        unfold flabel in Hl. rewrite Hl in H1.
        destruct (field_of k fs') as [f'|] eqn:Ef'.
        -- apply andb_true_iff in H1. destruct H1 as [_ H1]. apply (IHf f Hin _ x H1 Hd).
        -- apply andb_true_iff in H1. destruct H1 as [_ H1].
           destruct rest' as [w|]; [|discriminate]. apply (IHf f Hin _ x H1 Hd).
      * destruct (field_of k fs') as [f'|] eqn:Ef'.
        -- apply field_of_some in Ef'. destruct Ef' as [Hin Hl]. specialize (H2 f' Hin).
           rewrite Hl, Ef in H2. destruct rest as [u|]; [|discriminate]. apply (IHr _ x H2 Hd).
        -- destruct rest' as [w|]; [|discriminate]. destruct rest as [u|]; [|discriminate].
           apply (IHr _ x H3 Hd).
    + intros f Hin. specialize (H1 f Hin). fold (flabel f) in H1. fold (fopt f) in H1.
      destruct (fopt f) eqn:Eo; [reflexivity|]. cbn [orb] in H1 |- *.
      destruct (field_of (flabel f) fs') as [f'|] eqn:Ef'.
      * apply field_of_some in Ef'. destruct Ef' as [Hin' Hl]. specialize (Hf f' Hin').
        apply andb_true_iff in H1. destruct H1 as [H1 _]. destruct (fopt f'); [discriminate|].
        cbn in Hf. rewrite Hl in Hf. exact Hf.
      * discriminate.
Qed.

(** *** [eval] without its local fixpoints *)

Fixpoint eval_list (r : option val) (es : list val) (l : list data) : option (list res) :=
  match es, l with
  | [], _ => match r with
             | Some u => Some (map (fun x => eval u (Some x)) l)
             | None => match l with [] => Some [] | _ => None end
             end
  | _ :: _, [] => None
  | e :: t, x :: l' =>
      match eval_list r t l' with Some rs => Some (eval e (Some x) :: rs) | None => None end
  end.

Lemma eval_VList : forall es r l,
  eval (VList es r) (Some (DList l)) =
  match eval_list r es l with Some rs => of_list rs | None => Bot end.
Proof.
  intros es r l. cbn [eval].
  assert (E : (fix go (es : list val) (l : list data) : option (list res) :=
                   match es, l with
                   | [], _ => match r with
                              | Some u => Some (map (fun x => eval u (Some x)) l)
                              | None => match l with [] => Some [] | _ => None end
                              end
                   | _ :: _, [] => None
                   | e :: t, x :: l' =>
                       match go t l' with
                       | Some rs => Some (eval e (Some x) :: rs)
                       | None => None
                       end
                   end) es l = eval_list r es l).
  { revert l. induction es as [|e es IH]; intros l; [reflexivity|].
    destruct l as [|x l]; [reflexivity|]. cbn [eval_list]. rewrite <- IH. reflexivity. }
  rewrite E. reflexivity.
Qed.

Definition eval_at (fs : list (string * bool * val)) (rest : option val) (k : string) (x : data) : res :=
  match field_of k fs with
  | Some f => eval (snd f) (Some x)
  | None => match rest with Some u => eval u (Some x) | None => Bot end
  end.

Lemma eval_VStruct : forall fs rest df,
  eval (VStruct fs rest) (Some (DStruct df)) =
  of_struct (map (fun kx => (fst kx, eval_at fs rest (fst kx) (snd kx))) df
             ++ flat_map (fun f => if fopt f || has_label (flabel f) df then []
                                   else [(flabel f, eval (snd f) None)]) fs).
Proof.
  intros fs rest df. cbn [eval]. f_equal. f_equal.
  apply map_ext. intros kx. f_equal. unfold eval_at, field_of, flabel.
  induction fs as [|f fs IH]; [reflexivity|].
  cbn [find]. destruct (String.eqb (fst kx) (fst (fst f))); [reflexivity|exact IH].
Qed.

Lemma all_con_some : forall {A} (l : list (A * res)) ds,
  all_con l = Some (Some ds) <-> l = map (fun x => (fst x, Con (snd x))) ds.
Proof.
  intros A l. induction l as [|[a r] l IH]; intros ds; split; intro H.
  - cbn in H. inversion H. reflexivity.
  - destruct ds; [reflexivity|discriminate].
  - cbn in H. destruct r as [| |d]; try discriminate; destruct (all_con l) as [[ds'|]|] eqn:E;
      try discriminate.
    inversion H; subst. cbn. f_equal. apply IH. reflexivity.
  - destruct ds as [|[a' d'] ds]; [discriminate|]. cbn in H. injection H as E1 E2 E3. subst a' r.
    cbn. apply IH in E3. rewrite E3. reflexivity.
Qed.

Lemma of_struct_con : forall l r,
  of_struct l = Con r <-> exists ds, r = DStruct ds /\ l = map (fun x => (fst x, Con (snd x))) ds.
Proof.
  intros l r. unfold of_struct. split.
  - destruct (all_con l) as [[ds|]|] eqn:E; intro H; try discriminate. injection H as <-.
    exists ds. split; [reflexivity|]. apply all_con_some. exact E.
  - intros [ds [-> E]]. apply all_con_some in E. rewrite E. reflexivity.
Qed.

Lemma of_list_con : forall l r,
  of_list l = Con r <-> exists ds, r = DList ds /\ l = map Con ds.
Proof.
  intros l r. unfold of_list. split.
  - destruct (all_con (map (fun r0 => (tt, r0)) l)) as [[ds|]|] eqn:E; intro H; try discriminate.
    injection H as <-. exists (map snd ds). split; [reflexivity|].
    apply all_con_some in E. apply (f_equal (map snd)) in E. rewrite !map_map in E. cbn in E.
    rewrite map_id in E. rewrite map_map. exact E.
  - intros [ds [-> ->]].
    assert (E : all_con (map (fun r0 => (tt, r0)) (map Con ds)) = Some (Some (map (fun d => (tt, d)) ds))).
    { apply all_con_some. rewrite !map_map. reflexivity. }
    rewrite E. rewrite map_map. cbn. rewrite map_id. reflexivity.
Qed.

Lemma pick_con : forall l r, pick l = Con r -> exists m, In (m, Con r) l.
Proof.
  intros l r H. unfold pick in H.
  set (l1 := filter (fun x => not_bot (snd x)) l) in *.
  set (l2 := if existsb fst l1 then filter fst l1 else l1) in *.
  assert (Hin : forall x, In x l2 -> In x l).
  { intros x Hx. assert (In x l1) by (subst l2; destruct (existsb fst l1); auto; apply filter_In in Hx; tauto).
    subst l1. apply filter_In in H0. tauto. }
  destruct l2 as [|x t]; [discriminate|].
  assert (E : snd x = Con r) by (destruct t; [exact H|]; destruct (forallb _ _); [exact H|discriminate]).
  destruct x as [m z]. cbn in E. subst z. exists m. apply Hin. left. reflexivity.
Qed.

Lemma wf_or : forall ds, wf (VOr ds) -> forall d, In d ds -> wf (snd d).
Proof. intros ds H. cbn in H. induction ds; intros d Hd; destruct Hd; subst; destruct H; auto. Qed.
Lemma wf_list : forall es r, wf (VList es r) -> (forall e, In e es -> wf e) /\ opt_all wf r.
Proof.
  intros es r [H Hr]. split; [|exact Hr].
  induction es; intros d Hd; destruct Hd; subst; destruct H; auto.
Qed.
Lemma wf_struct : forall fs r, wf (VStruct fs r) ->
  NoDup (map flabel fs) /\ (forall f, In f fs -> wf (snd f)) /\ opt_all wf r.
Proof.
  intros fs r [Hn [H Hr]]. split; [exact Hn|]. split; [|exact Hr]. clear Hn.
  induction fs; intros d Hd; destruct Hd; subst; destruct H; auto.
Qed.

Lemma field_of_in : forall fs f, NoDup (map flabel fs) -> In f fs -> field_of (flabel f) fs = Some f.
Proof.
  unfold field_of. induction fs as [|g fs IH]; intros f Hn Hf; [destruct Hf|].
  cbn in Hn. inversion Hn as [|? ? Hg Hn']; subst. cbn [find]. destruct Hf as [->|Hf].
  - rewrite String.eqb_refl. reflexivity.
  - destruct (String.eqb_spec (flabel f) (flabel g)) as [E|E].
    + exfalso. apply Hg. rewrite <- E. apply in_map. exact Hf.
    + apply IH; auto.
Qed.

Lemma map_Con_in : forall (l : list (string * res)) ds,
  l = map (fun x => (fst x, Con (snd x))) ds ->
  (forall k d, In (k, d) ds -> In (k, Con d) l)
  /\ (forall k r, In (k, r) l -> exists d, r = Con d /\ In (k, d) ds).
Proof.
  intros l ds ->. split.
  - intros k d H. apply in_map_iff. exists (k, d). auto.
  - intros k r H. apply in_map_iff in H. destruct H as [[k' d'] [E H]]. injection E as <- <-. eauto.
Qed.

(** Whatever evaluation yields is a member: all that was filled in fits. *)
Lemma eval_inst : forall v, wf v -> forall o r, eval v o = Con r -> inst v r = true.
Proof.
  intro v. induction v as [| |a|t|lo hi|ds IH|es r IHe IHr|fs rest IHf IHr] using val_ind';
    intros W o d H; try discriminate.
  - reflexivity.
  - cbn in H. destruct o as [[b| |]|]; try discriminate.
    + destruct (atom_eqb a b) eqn:E; [|discriminate]. injection H as <-. exact E.
    + injection H as <-. cbn. apply atom_eqb_eq. reflexivity.
  - cbn in H. destruct o as [[b| |]|]; try discriminate.
    destruct (type_has t b) eqn:E; [|discriminate]. injection H as <-. exact E.
  - cbn in H. destruct o as [[[]| |]|]; try discriminate.
    destruct (in_lo lo z && in_hi hi z) eqn:E; [|discriminate]. injection H as <-. exact E.
  - cbn [eval] in H. apply pick_con in H. destruct H as [m H]. apply in_map_iff in H.
    destruct H as [x [E Hx]]. injection E as _ E. cbn [inst]. apply existsb_exists.
    exists x. split; [exact Hx|]. rewrite Forall_forall in IH. apply (IH x Hx (wf_or _ W x Hx) o d E).
  - apply wf_list in W. destruct W as [We Wr]. rewrite Forall_forall in IHe.
    destruct o as [[|l|]|]; try discriminate.
    + rewrite eval_VList in H. destruct (eval_list r es l) as [rs|] eqn:E; [|discriminate].
      apply of_list_con in H. destruct H as [ds [-> ->]]. rewrite inst_VList.
      revert l ds E. induction es as [|e es IH]; intros l ds E.
      * cbn in E |- *. destruct r as [u|].
        -- injection E as E. revert ds E. induction l as [|x l IHl]; intros [|z ds] E; try discriminate; [reflexivity|].
           cbn in E. injection E as E1 E2. cbn. rewrite (IHr Wr _ _ E1). cbn. apply IHl. exact E2.
        -- destruct l; [|discriminate]. destruct ds; [reflexivity|discriminate].
      * destruct l as [|x l]; [discriminate|]. cbn [eval_list] in E.
        destruct (eval_list r es l) as [rs|] eqn:E'; [|discriminate].
        destruct ds as [|z ds]; [discriminate|]. cbn in E. injection E as E1 E2. cbn [inst_list].
        rewrite (IHe e (or_introl eq_refl) (We e (or_introl eq_refl)) _ _ E1). cbn.
        apply (IH (fun e' h => IHe e' (or_intror h)) (fun e' h => We e' (or_intror h)) l ds).
        rewrite E'. f_equal. exact E2.
    + cbn [eval] in H. apply of_list_con in H. destruct H as [ds [-> E]]. rewrite inst_VList.
      revert ds E. induction es as [|e es IH]; intros [|z ds] E; try discriminate.
      * cbn. destruct r; reflexivity.
      * cbn in E. injection E as E1 E2. cbn [inst_list].
        rewrite (IHe e (or_introl eq_refl) (We e (or_introl eq_refl)) _ _ E1). cbn.
        apply (IH (fun e' h => IHe e' (or_intror h)) (fun e' h => We e' (or_intror h)) ds E2).
  - apply wf_struct in W. destruct W as [Wn [Wf Wr]]. rewrite Forall_forall in IHf.
    destruct o as [[| |df]|]; try discriminate.
    + rewrite eval_VStruct in H. apply of_struct_con in H. destruct H as [ds [-> E]].
      destruct (map_Con_in _ _ E) as [Hin Hout]. clear E. rewrite inst_VStruct. apply andb_true_iff. split; apply forallb_forall.
      * intros [k x] Hx. cbn [fst snd]. apply Hin in Hx. apply in_app_or in Hx. destruct Hx as [Hx|Hx].
        -- apply in_map_iff in Hx. destruct Hx as [[k' x'] [E Hx]]. cbn in E. injection E as -> E.
           unfold eval_at in E. unfold inst_at. destruct (field_of k fs) as [f|] eqn:Ef.
           ++ apply field_of_some in Ef. destruct Ef as [Hf _]. apply (IHf f Hf (Wf f Hf) _ _ E).
           ++ destruct rest as [u|]; [|discriminate]. apply (IHr Wr _ _ E).
        -- apply in_flat_map in Hx. destruct Hx as [f [Hf Hx]].
           destruct (fopt f || has_label (flabel f) df); [destruct Hx|].
           destruct Hx as [Hx|[]]. injection Hx as Ek E. subst k. unfold inst_at.
           rewrite (field_of_in _ _ Wn Hf). apply (IHf f Hf (Wf f Hf) _ _ E).
      * intros f Hf. destruct (fopt f) eqn:Eo; [reflexivity|]. cbn [orb]. apply has_label_in.
        destruct (has_label (flabel f) df) eqn:El.
        -- apply has_label_in in El. destruct El as [x Hx].
           destruct (Hout (flabel f) (eval_at fs rest (flabel f) x)) as [z [_ Hz]].
           { apply in_or_app. left. apply in_map_iff. exists (flabel f, x). auto. }
           eauto.
        -- destruct (Hout (flabel f) (eval (snd f) None)) as [z [_ Hz]].
           { apply in_or_app. right. apply in_flat_map. exists f. split; [exact Hf|].
             rewrite Eo, El. left. reflexivity. }
           eauto.
    + cbn [eval] in H. apply of_struct_con in H. destruct H as [ds [-> E]].
      destruct (map_Con_in _ _ E) as [Hin Hout]. clear E. rewrite inst_VStruct. apply andb_true_iff. split; apply forallb_forall.
      * intros [k x] Hx. cbn [fst snd]. apply Hin in Hx.
        apply in_flat_map in Hx. destruct Hx as [f [Hf Hx]].
        destruct (snd (fst f)); [destruct Hx|]. destruct Hx as [Hx|[]].
        injection Hx as Ek E. subst k. unfold inst_at. fold (flabel f).
        rewrite (field_of_in _ _ Wn Hf). apply (IHf f Hf (Wf f Hf) _ _ E).
      * intros f Hf. destruct (fopt f) eqn:Eo; [reflexivity|]. cbn [orb]. apply has_label_in.
        destruct (Hout (flabel f) (eval (snd f) None)) as [z [_ Hz]].
        { apply in_flat_map. exists f. split; [exact Hf|]. fold (fopt f). rewrite Eo. left. reflexivity. }
        eauto.
Qed.

Lemma deq_atom : forall a, deq (DAtom a) (DAtom a) = true.
Proof. intro a. cbn. apply atom_eqb_eq. reflexivity. Qed.

(** A disjunction of scalars: every disjunct the data is a member of yields it. *)
Lemma pick_same : forall l d, deq d d = true ->
  (forall x, In x l -> snd x = Bot \/ snd x = Con d) ->
  (exists x, In x l /\ snd x = Con d) -> pick l = Con d.
Proof.
  intros l d Hd Hall Hex. unfold pick.
  set (l1 := filter (fun x => not_bot (snd x)) l).
  set (l2 := if existsb fst l1 then filter fst l1 else l1).
  assert (H1 : forall x, In x l1 -> snd x = Con d).
  { intros x Hx. apply filter_In in Hx. destruct Hx as [Hx Hb].
    destruct (Hall x Hx) as [E|E]; [rewrite E in Hb; discriminate|exact E]. }
  assert (H2 : forall x, In x l2 -> snd x = Con d).
  { intros x Hx. apply H1. subst l2. destruct (existsb fst l1); auto. apply filter_In in Hx. tauto. }
  assert (Hne : l2 <> []).
  { destruct Hex as [x [Hx Ex]]. assert (Hx1 : In x l1) by (apply filter_In; rewrite Ex; auto).
    subst l2. destruct (existsb fst l1) eqn:E.
    - apply existsb_exists in E. destruct E as [y [Hy Ey]]. intro Hn.
      assert (In y (filter fst l1)) by (apply filter_In; auto). rewrite Hn in H. destruct H.
    - intro Hn. rewrite Hn in Hx1. destruct Hx1. }
  destruct l2 as [|x [|y t]]; [contradiction|apply H2; left; reflexivity|].
  assert (Ha : forallb (fun z => same_as (snd x) (snd z)) (y :: t) = true).
  { apply forallb_forall. intros z Hz. rewrite (H2 x (or_introl eq_refl)), (H2 z (or_intror Hz)). exact Hd. }
  rewrite Ha. apply H2. left. reflexivity.
Qed.

Lemma scalar_eval : forall v d, scalar_val v = true ->
  eval v (Some d) = Bot \/ (eval v (Some d) = Con d /\ inst v d = true /\ exists a, d = DAtom a).
Proof.
  intros [] d H; try discriminate; cbn; auto.
  - destruct d as [b| |]; auto. destruct (atom_eqb a b); eauto 6.
  - destruct d as [b| |]; auto. destruct (type_has t b); eauto 6.
  - destruct d as [[]| |]; auto. destruct (in_lo lo z && in_hi hi z); eauto 6.
Qed.

Lemma scalar_inst_eval : forall v d, scalar_val v = true -> inst v d = true -> eval v (Some d) = Con d.
Proof.
  intros [] d H Hi; try discriminate; cbn in *.
  - destruct d as [b| |]; try discriminate. rewrite Hi. reflexivity.
  - destruct d as [b| |]; try discriminate. rewrite Hi. reflexivity.
  - destruct d as [[]| |]; try discriminate. rewrite Hi. reflexivity.
Qed.

Lemma map_Con_fix : forall (ds : list (string * data)) (g : string -> data -> res),
  (forall k x, In (k, x) ds -> g k x = Con x) ->
  map (fun kx => (fst kx, g (fst kx) (snd kx))) ds = map (fun x => (fst x, Con (snd x))) ds.
Proof.
  intros ds g H. apply map_ext_in. intros [k x] Hx. cbn. rewrite (H k x Hx). reflexivity.
Qed.

(** Complete data that is a member validates, and nothing is filled in. *)
Lemma inst_eval : forall v, simple v = true -> forall d, inst v d = true -> eval v (Some d) = Con d.
Proof.
  intro v. induction v as [| |a|t|lo hi|ds IH|es r IHe IHr|fs rest IHf IHr] using val_ind';
    intros S d H; try discriminate; try (apply scalar_inst_eval; [reflexivity|exact H]).
  - reflexivity.
  - cbn [simple] in S. rewrite forallb_forall in S. cbn [inst] in H.
    apply existsb_exists in H. destruct H as [x [Hx Hi]].
    assert (Hd : deq d d = true).
    { destruct (scalar_eval (snd x) d (S x Hx)) as [E|[_ [_ [a ->]]]]; [|apply deq_atom].
      rewrite (scalar_inst_eval _ _ (S x Hx) Hi) in E. discriminate. }
    cbn [eval]. apply pick_same; [exact Hd| |].
    + intros y Hy. apply in_map_iff in Hy. destruct Hy as [z [<- Hz]]. cbn [snd].
      destruct (scalar_eval (snd z) d (S z Hz)) as [E|[E _]]; auto.
    + exists (fst x, eval (snd x) (Some d)). split.
      * apply in_map_iff. exists x. auto.
      * cbn. apply scalar_inst_eval; auto.
  - destruct d as [|l|]; try discriminate. rewrite inst_VList in H. rewrite eval_VList.
    cbn [simple] in S. apply andb_true_iff in S. destruct S as [Se Sr].
    assert (E : eval_list r es l = Some (map Con l)).
    { revert l H. induction IHe as [|e es He _ IH]; intros l H.
      - cbn in H |- *. destruct r as [u|].
        + f_equal. apply map_ext_in. intros x Hx. rewrite forallb_forall in H. apply IHr; auto.
        + destruct l; [reflexivity|discriminate].
      - destruct l as [|x l]; [discriminate|]. cbn [inst_list] in H. apply andb_true_iff in H.
        destruct H as [Hx H]. cbn [forallb] in Se. apply andb_true_iff in Se. destruct Se as [S1 S2].
        cbn [eval_list]. rewrite (IH S2 l H), (He S1 x Hx). reflexivity. }
    rewrite E. apply of_list_con. eauto.
  - destruct d as [| |df]; try discriminate. rewrite inst_VStruct in H. rewrite eval_VStruct.
    cbn [simple] in S. apply andb_true_iff in S. destruct S as [Sf Sr].
    apply andb_true_iff in H. destruct H as [H1 H2]. rewrite forallb_forall in H1, H2, Sf.
    rewrite Forall_forall in IHf.
    rewrite (map_Con_fix df (eval_at fs rest)).
    + assert (E : flat_map (fun f => if fopt f || has_label (flabel f) df then []
                                   else [(flabel f, eval (snd f) None)]) fs = []).
      { clear - H2. induction fs as [|f fs IH]; [reflexivity|]. cbn [flat_map].
        rewrite (H2 f (or_introl eq_refl)). cbn. apply IH. intros g Hg. apply H2. right. exact Hg. }
      rewrite E, app_nil_r. apply of_struct_con. exists df. auto.
    + intros k x Hx. specialize (H1 (k, x) Hx). cbn [fst snd] in H1. unfold inst_at in H1. unfold eval_at.
      destruct (field_of k fs) as [f|] eqn:Ef.
      * apply field_of_some in Ef. destruct Ef as [Hf _]. apply (IHf f Hf (Sf f Hf) x H1).
      * destruct rest as [u|]; [|discriminate]. apply (IHr Sr x H1).
Qed.

(** An upgrade the check lets through accepts whatever the old schema made of
    data. *)
Lemma upgrade_completed : forall p s d r,
  wf p -> simple s = true -> subs s p = true -> eval p (Some d) = Con r -> eval s (Some r) = Con r.
Proof.
  intros p s d r Wp Ss H E. apply inst_eval; [exact Ss|].
  apply (subs_sound s p r H). apply (eval_inst p Wp (Some d) r E).
Qed.

Fixpoint keeps_list (r r' : option val) (es es' : list val) : bool :=
  match es, es' with
  | [], _ =>
      match r with
      | Some u => forallb (keeps u) es' && match r' with Some w => keeps u w | None => true end
      | None => true
      end
  | _ :: _, [] => true
  | e :: t, e' :: t' => keeps e e' && keeps_list r r' t t'
  end.

Lemma keeps_VList : forall es r es' r',
  keeps (VList es r) (VList es' r') = keeps_list r r' es es'.
Proof.
  intros es r. induction es as [|e es IH]; intros es' r'; [reflexivity|].
  destruct es' as [|e' es']; [reflexivity|]. cbn [keeps_list]. rewrite <- IH. reflexivity.
Qed.

Lemma simple_or : forall ds d, simple (VOr ds) = true -> In d ds -> scalar_val (snd d) = true.
Proof. intros ds d H. cbn in H. rewrite forallb_forall in H. apply H. Qed.

(** Data of scalars is its own evaluation. *)
Lemma scalars_eval : forall v d r,
  (scalar_val v = true \/ exists ds, v = VOr ds /\ simple v = true) ->
  eval v (Some d) = Con r -> r = d /\ inst v d = true.
Proof.
  intros v d r [H|[ds [-> H]]] E.
  - destruct (scalar_eval v d H) as [E'|[E' [Hi _]]]; rewrite E' in E; [discriminate|].
    injection E as <-. auto.
  - cbn [eval] in E. apply pick_con in E. destruct E as [m E]. apply in_map_iff in E.
    destruct E as [x [E Hx]]. injection E as _ E.
    destruct (scalar_eval (snd x) d (simple_or ds x H Hx)) as [E'|[E' [Hi _]]]; rewrite E' in E; [discriminate|].
    injection E as <-. split; [reflexivity|]. cbn [inst]. apply existsb_exists. eauto.
Qed.

Lemma con_choice : forall (l : list data) (g : data -> res),
  (forall x, In x l -> exists y, g x = Con y) -> exists ds, map g l = map Con ds.
Proof.
  intros l g H. induction l as [|x l IH].
  - exists []. reflexivity.
  - destruct (H x (or_introl eq_refl)) as [y Ey]. destruct IH as [ds E].
    { intros z Hz. apply H. right. exact Hz. }
    exists (y :: ds). cbn. rewrite Ey, E. reflexivity.
Qed.

Lemma con_choice2 : forall (l : list (string * res)),
  (forall k r, In (k, r) l -> exists y, r = Con y) ->
  exists ds, l = map (fun x => (fst x, Con (snd x))) ds.
Proof.
  intros l H. induction l as [|[k r] l IH].
  - exists []. reflexivity.
  - destruct (H k r (or_introl eq_refl)) as [y ->]. destruct IH as [ds E].
    { intros k' r' Hz. apply (H k'). right. exact Hz. }
    exists ((k, y) :: ds). cbn. rewrite <- E. reflexivity.
Qed.

Lemma in_map_Con : forall (l : list data) (ds : list data) (g : data -> res) x,
  map g l = map Con ds -> In x l -> exists y, g x = Con y.
Proof.
  intros l ds g x E Hx. assert (H : In (g x) (map g l)) by (apply in_map; exact Hx).
  rewrite E in H. apply in_map_iff in H. destruct H as [y [Ey _]]. eauto.
Qed.

Lemma upgrade_scalar : forall s, (scalar_val s = true \/ exists ds, s = VOr ds) ->
  forall p, simple s = true -> simple p = true -> subs s p = true ->
  forall d r, eval p (Some d) = Con r -> exists r', eval s (Some d) = Con r'.
Proof.
  intro s. intros Hs p Ss Sp H d r E.
    assert (Hp : (scalar_val p = true \/ exists ds, p = VOr ds /\ simple p = true) \/
                 (p = VTop \/ (exists es q, p = VList es q) \/ (exists fs q, p = VStruct fs q))).
    { destruct p; cbn; eauto 8. }
    destruct Hp as [Hp|Hp].
    - destruct (scalars_eval p d r Hp E) as [-> Hi].
      exists d. apply inst_eval; [exact Ss|]. apply (subs_sound s p d H Hi).
    - exfalso. destruct Hs as [Hs|[ds ->]].
      + destruct s; try discriminate Hs;
          destruct Hp as [->|[[es [q ->]]|[fs [q ->]]]]; try discriminate H.
      + assert (Hx : exists x, In x ds /\ subs (snd x) p = true).
        { destruct Hp as [->|[[es [q ->]]|[fs [q ->]]]]; rewrite subs_or_l in H by discriminate;
            apply existsb_exists in H; exact H. }
        destruct Hx as [x [Hx Hs]]. pose proof (simple_or ds x Ss Hx) as Hv.
        destruct (snd x); try discriminate Hv;
          destruct Hp as [->|[[es [q ->]]|[fs [q ->]]]]; discriminate Hs.
Qed.

(** Data valid for the old schema stays valid for the new one. *)
Lemma upgrade_valid : forall s p,
  simple s = true -> simple p = true -> subs s p = true -> keeps s p = true ->
  forall d r, eval p (Some d) = Con r -> exists r', eval s (Some d) = Con r'.
Proof.
  intro s.
  induction s as [| |a|t|lo hi|ds IH|es q IHe IHq|fs rest IHf IHq] using val_ind';
    intros p Ss Sp H K d r E;
    try (match goal with |- exists r', eval ?v (Some _) = _ =>
      apply (upgrade_scalar v) with (p := p) (r := r); try assumption; [left; reflexivity] end);
    try (match goal with |- exists r', eval ?v (Some _) = _ =>
      apply (upgrade_scalar v) with (p := p) (r := r); try assumption;
        [right; eexists; reflexivity] end).
  - exists d. reflexivity.
  - (* list *)
    destruct p as [| |a|t|lo hi|ys|es' q'|fs' rest']; try discriminate.
    { exfalso. rewrite subs_or_r in H by discriminate. rewrite forallb_forall in H.
      cbn [eval] in E. apply pick_con in E. destruct E as [m E]. apply in_map_iff in E.
      destruct E as [x [E Hx]]. specialize (H x Hx). pose proof (simple_or _ _ Sp Hx) as Hv.
      injection E as _ E. destruct (snd x); try discriminate. }
    destruct d as [|l|]; try discriminate. rewrite eval_VList in E |- *.
    rewrite subs_VList in H. rewrite keeps_VList in K.
    cbn [simple] in Ss, Sp. apply andb_true_iff in Ss, Sp. destruct Ss as [Se Sq], Sp as [Se' Sq'].
    destruct (eval_list q' es' l) as [rs|] eqn:El; [|discriminate].
    apply of_list_con in E. destruct E as [ds [-> ->]].
    assert (G : exists ds', eval_list q es l = Some (map Con ds')).
    { revert es' l ds Se' H K El. induction IHe as [|e es He _ IH]; intros es' l ds Se' H K El.
      - cbn [eval_list]. cbn [subs_list keeps_list] in H, K. destruct q as [u|].
        + apply andb_true_iff in H, K. destruct H as [H1 H2], K as [K1 K2].
          assert (C : forall x, In x l -> exists y, eval u (Some x) = Con y).
          { revert l ds El. induction es' as [|e' es' IH']; intros l ds El x Hx.
            - cbn in El. destruct q' as [w|].
              + injection El as El. destruct (in_map_Con _ _ _ x El Hx) as [y Ey].
                apply (IHq w Sq Sq' H2 K2 x y Ey).
              + destruct l; [destruct Hx|discriminate].
            - destruct l as [|z l]; [destruct Hx|]. cbn [eval_list] in El.
              destruct (eval_list q' es' l) as [rs|] eqn:El'; [|discriminate].
              cbn [forallb] in Se', H1, K1. apply andb_true_iff in Se', H1, K1.
              destruct Se' as [Sa Sb], H1 as [Ha Hb], K1 as [Ka Kb].
              destruct ds as [|y ds]; [discriminate|]. cbn in El. injection El as Ey El.
              destruct Hx as [->|Hx].
              + apply (IHq e' Sq Sa Ha Ka x y Ey).
              + apply (IH' Sb Hb Kb l ds); auto. rewrite El'. f_equal. exact El. }
          destruct (con_choice l (fun x => eval u (Some x)) C) as [ds' E']. exists ds'. f_equal. exact E'.
        + destruct es' as [|]; [|discriminate]. destruct q' as [|]; [discriminate|].
          cbn in El. exists ds. exact El.
      - destruct es' as [|e' es']; [discriminate|]. cbn [subs_list keeps_list] in H, K.
        apply andb_true_iff in H, K. destruct H as [H1 H2], K as [K1 K2].
        cbn [forallb] in Se, Se'. apply andb_true_iff in Se, Se'. destruct Se as [Sa Sb], Se' as [Sa' Sb'].
        destruct l as [|x l]; [discriminate|]. cbn [eval_list] in El |- *.
        destruct (eval_list q' es' l) as [rs|] eqn:El'; [|discriminate].
        destruct ds as [|y ds]; [discriminate|]. cbn in El. injection El as Ey El. subst rs.
        destruct (IH Sb es' l ds Sb' H2 K2 El') as [ds' E']. rewrite E'.
        destruct (He e' Sa Sa' H1 K1 x y Ey) as [y' Ey']. rewrite Ey'. exists (y' :: ds'). reflexivity. }
    destruct G as [ds' G]. rewrite G. exists (DList ds'). apply of_list_con. eauto.
  - (* struct *)
    destruct p as [| |a|t|lo hi|ys|es' q'|fs' rest']; try discriminate.
    { exfalso. rewrite subs_or_r in H by discriminate. rewrite forallb_forall in H.
      cbn [eval] in E. apply pick_con in E. destruct E as [m E]. apply in_map_iff in E.
      destruct E as [x [E Hx]]. specialize (H x Hx). pose proof (simple_or _ _ Sp Hx) as Hv.
      injection E as _ E. destruct (snd x); try discriminate. }
    destruct d as [| |df]; try discriminate. rewrite eval_VStruct in E |- *.
    apply of_struct_con in E. destruct E as [ds [-> E]]. destruct (map_Con_in _ _ E) as [_ Hout]. clear E.
    cbn [simple] in Ss, Sp. apply andb_true_iff in Ss, Sp. destruct Ss as [Sf Sq], Sp as [Sf' Sq'].
    cbn [subs] in H. apply andb_true_iff in H. destruct H as [H H3]. apply andb_true_iff in H. destruct H as [H1 H2].
    cbn [keeps] in K. apply andb_true_iff in K. destruct K as [K K3]. apply andb_true_iff in K. destruct K as [K1 K2].
    rewrite forallb_forall in H1, H2, K1, K2, Sf, Sf'. rewrite Forall_forall in IHf.
    match goal with |- exists r', of_struct ?l = _ => destruct (con_choice2 l) as [ds' E'] end.
    + intros k r Hr. apply in_app_or in Hr. destruct Hr as [Hr|Hr].
      * apply in_map_iff in Hr. destruct Hr as [[k' x] [E Hx]]. cbn in E. injection E as -> <-.
        destruct (Hout k (eval_at fs' rest' k x)) as [z [Ez _]].
        { apply in_or_app. left. apply in_map_iff. exists (k, x). auto. }
        unfold eval_at in Ez |- *. destruct (field_of k fs) as [f|] eqn:Ef.
        -- apply field_of_some in Ef. destruct Ef as [Hf Hl]. specialize (H1 f Hf). specialize (K1 f Hf).
           fold (flabel f) in H1, K1. rewrite Hl in H1, K1.
           destruct (field_of k fs') as [f'|] eqn:Ef'.
           ++ apply field_of_some in Ef'. destruct Ef' as [Hf' _].
              apply andb_true_iff in H1, K1. destruct H1 as [_ H1], K1 as [_ K1].
              apply (IHf f Hf (fval f') (Sf f Hf) (Sf' f' Hf') H1 K1 x z Ez).
           ++ destruct rest' as [w|]; [|discriminate]. apply andb_true_iff in H1. destruct H1 as [_ H1].
              apply (IHf f Hf w (Sf f Hf) Sq' H1 K1 x z Ez).
        -- destruct (field_of k fs') as [f'|] eqn:Ef'.
           ++ apply field_of_some in Ef'. destruct Ef' as [Hf' Hl]. specialize (H2 f' Hf'). specialize (K2 f' Hf').
              rewrite Hl, Ef in H2, K2. destruct rest as [u|]; [|discriminate].
              apply (IHq (fval f') Sq (Sf' f' Hf') H2 K2 x z Ez).
           ++ destruct rest' as [w|]; [|discriminate]. destruct rest as [u|]; [|discriminate].
              apply (IHq w Sq Sq' H3 K3 x z Ez).
      * apply in_flat_map in Hr. destruct Hr as [f [Hf Hr]].
        destruct (fopt f) eqn:Eo; [destruct Hr|]. destruct (has_label (flabel f) df) eqn:El; [destruct Hr|].
        cbn [orb] in Hr. destruct Hr as [Hr|[]]. injection Hr as <- <-.
        specialize (H1 f Hf). specialize (K1 f Hf). fold (flabel f) in H1, K1. fold (fopt f) in H1, K1.
        rewrite Eo in H1, K1. destruct (field_of (flabel f) fs') as [f'|] eqn:Ef'; [|discriminate].
        apply andb_true_iff in H1, K1. destruct H1 as [H1 _], K1 as [K1 _]. cbn in H1, K1.
        apply field_of_some in Ef'. destruct Ef' as [Hf' Hl].
        destruct (Hout (flabel f) (eval (snd f') None)) as [z [Ez _]].
        { apply in_or_app. right. apply in_flat_map. exists f'. split; [exact Hf'|].
          rewrite Hl, El. destruct (fopt f'); [discriminate|]. left. reflexivity. }
        unfold fillable in K1. unfold fval in K1. rewrite Ez in K1. cbn in K1.
        destruct (eval (snd f) None) as [| |y]; try discriminate. eauto.
    + rewrite E'. exists (DStruct ds'). apply of_struct_con. eauto.
Qed.
