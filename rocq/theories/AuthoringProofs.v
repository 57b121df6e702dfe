(** Which changes the compatibility check accepts. *)
From Verif Require Import Prelude Version VersionProofs ValidateErr Native Split Lineage LineageProofs BindFacts.
From Verif Require Import CueFrag CueSem CueProofs HydrateSem CueEval CueEvalSem Authoring.
Local Open Scope string_scope.
Local Open Scope list_scope.

Lemma field_of_nodup : forall fs l o v, NoDup (map flabel fs) -> In (l, o, v) fs ->
  field_of l fs = Some (l, o, v).
Proof.
  induction fs as [|f fs IH]; intros l o v N H; [destruct H|]. cbn [map] in N. inversion N; subst.
  unfold field_of. cbn [find]. destruct H as [->|H].
  - unfold flabel at 1. cbn [fst]. rewrite String.eqb_refl. reflexivity.
  - destruct (String.eqb_spec l (flabel f)) as [E|_].
    + exfalso. apply H2. rewrite <- E. apply (in_map flabel) in H. exact H.
    + apply IH; auto.
Qed.

Lemma field_of_absent : forall fs l, ~ has_field l fs -> field_of l fs = None.
Proof.
  intros fs l H. destruct (field_of l fs) as [[[k o] v]|] eqn:E; [|reflexivity].
  apply field_of_some in E as [E1 E2]. cbn in E2. subst k. exfalso. apply H. exists o, v. exact E1.
Qed.

Lemma wf_fields : forall fs rest, CueSem.wf (VStruct fs rest) -> forall f, In f fs -> CueSem.wf (snd f).
Proof.
  intros fs rest [_ [H _]]. induction fs as [|g fs IH]; intros f Hf; [destruct Hf|].
  destruct H as [H1 H2]. destruct Hf as [<-|Hf]; auto.
Qed.

Lemma wf_alts : forall ds, CueSem.wf (VOr ds) -> forall d, In d ds -> CueSem.wf (snd d).
Proof.
  intros ds. induction ds as [|g ds IH]; intros H f Hf; [destruct Hf|].
  destruct H as [H1 H2]. destruct Hf as [<-|Hf]; auto.
Qed.

Lemma wf_elems : forall es r, CueSem.wf (VList es r) -> forall d, In d es -> CueSem.wf d.
Proof.
  intros es r [H _]. induction es as [|g es IH]; intros f Hf; [destruct Hf|].
  destruct H as [H1 H2]. destruct Hf as [<-|Hf]; auto.
Qed.

Lemma subs_refl : forall v, CueSem.wf v -> subs v v = true.
Proof.
  induction v as [| |a|t|lo hi|ds IH|es r IHe IHr|fs rest IHf IHr] using val_ind'; intros W; try reflexivity.
  - cbn. apply atom_eqb_eq. reflexivity.
  - destruct t; reflexivity.
  - cbn. destruct lo, hi; cbn; rewrite ?Z.leb_refl; reflexivity.
  - cbn [subs]. apply forallb_forall. intros y Hy. apply existsb_exists. exists y. split; [exact Hy|].
    rewrite Forall_forall in IH. rewrite (IH y Hy) by (apply (wf_alts ds W y Hy)).
    destruct (fst y); reflexivity.
  - rewrite subs_VList. assert (We := wf_elems es r W).
    assert (Wr : opt_all CueSem.wf r) by (destruct r; [exact (proj2 W)|exact I]). clear W.
    induction IHe as [|e es He _ IH]; cbn [subs_list].
    + destruct r as [u|]; [|reflexivity]. cbn. apply IHr. exact Wr.
    + rewrite He by (apply We; left; reflexivity). apply IH. intros d Hd. apply We. right. exact Hd.
  - cbn [subs]. assert (N : NoDup (map flabel fs)) by exact (proj1 W).
    assert (Wf := wf_fields fs rest W).
    assert (Wr : opt_all CueSem.wf rest) by (destruct rest; [exact (proj2 (proj2 W))|exact I]).
    rewrite Forall_forall in IHf. rewrite !andb_true_iff. repeat split.
    + apply forallb_forall. intros [[l o] v] Hf. cbn [fst snd].
      rewrite (field_of_nodup fs l o v N Hf). cbn [fopt fval fst snd].
      pose proof (IHf _ Hf (Wf _ Hf)) as K. cbn [snd] in K. rewrite K. destruct o; reflexivity.
    + apply forallb_forall. intros [[l o] v] Hf. cbn [flabel fst]. unfold flabel; cbn [fst].
      rewrite (field_of_nodup fs l o v N Hf). reflexivity.
    + destruct rest as [u|]; [|reflexivity]. apply IHr. exact Wr.
Qed.

Scheme widens_min := Minimality for widens Sort Prop
  with fields_widen_min := Minimality for fields_widen Sort Prop.
Combined Scheme widens_mutual from widens_min, fields_widen_min.

(** What [fields_widen] says of single fields. *)
Definition pairs_ok (fs fs' : list (string * bool * val)) : Prop :=
  (forall l o v, In (l, o, v) fs -> exists o' v', In (l, o', v') fs') /\
  (NoDup (map flabel fs') -> NoDup (map flabel fs) /\
     forall l o' v', In (l, o', v') fs' ->
       (has_field l fs -> exists o v, In (l, o, v) fs /\ (o = true -> o' = true) /\ subs v' v = true) /\
       (~ has_field l fs -> o' = true)).

Lemma type_le : forall t t', (forall a, type_has t a = true -> type_has t' a = true) -> type_sub t' t = true.
Proof.
  intros [] [] H; try reflexivity; exfalso;
  (first [ assert (K := H (ABool true) eq_refl); discriminate | assert (K := H (AInt 0) eq_refl); discriminate
         | assert (K := H (AFloat "") eq_refl); discriminate | assert (K := H (AString "") eq_refl); discriminate
         | assert (K := H (ABytes "") eq_refl); discriminate ]).
Qed.

Lemma in_labels : forall fs l, In l (map flabel fs) -> has_field l fs.
Proof.
  intros fs l H. apply in_map_iff in H as [[[k o] v] [<- H]]. exists o, v. exact H.
Qed.

Lemma widens_both :
  (forall v v', widens v v' -> subs v' v = true) /\
  (forall fs fs', fields_widen fs fs' -> pairs_ok fs fs').
Proof.
  apply widens_mutual.
  - apply subs_refl.
  - intros v. destruct v; reflexivity.
  - intros t a H. exact H.
  - apply type_le.
  - intros lo hi lo' hi' [->|[x [y [-> [-> H]]]]] [->|[x' [y' [-> [-> H']]]]]; cbn; auto;
      rewrite ?andb_true_iff; rewrite ?Z.leb_le; auto.
  - reflexivity.
  - intros v m ds W N H. assert (K : v = VBot \/ v <> VBot) by (destruct v; auto; right; discriminate).
    destruct K as [->|K]; [apply subs_bot|]. rewrite subs_or_l by auto. apply existsb_exists.
    exists (m, v). split; [exact H|]. apply subs_refl. exact W.
  - intros ds more W. cbn [subs]. apply forallb_forall. intros y Hy. apply existsb_exists. exists y.
    split; [apply in_or_app; left; exact Hy|].
    rewrite subs_refl by (apply (wf_alts ds W y Hy)). destruct (fst y); reflexivity.
  - intros u u' _ IH. rewrite subs_VList. cbn. exact IH.
  - intros fs fs' N _ [P1 P2]. destruct (P2 N) as [N0 P]. clear P2. cbn [subs].
    rewrite !andb_true_iff. repeat split.
    + apply forallb_forall. intros [[l o'] v'] Hf. cbn [fst snd]. destruct (P l o' v' Hf) as [Q1 Q2].
      destruct (field_of l fs) as [f|] eqn:E.
      * assert (E' := E). apply field_of_some in E' as [E1 E2]. destruct f as [[k o0] v0]. cbn in E2. subst k.
        destruct Q1 as [o [v [Hv [Ho Hs]]]]; [exists o0, v0; exact E1|].
        rewrite (field_of_nodup fs l o v N0 Hv) in E. injection E as <- <-. cbn [fopt fval fst snd].
        rewrite Hs. destruct o, o'; auto; cbn; discriminate (Ho eq_refl).
      * rewrite Q2; [reflexivity|]. intros [o [v K]]. exact (field_of_none l fs E _ K eq_refl).
    + apply forallb_forall. intros [[l o] v] Hf. unfold flabel. cbn [fst].
      destruct (P1 l o v Hf) as [o' [v' K]]. rewrite (field_of_nodup fs' l o' v' N K). reflexivity.
  - split; [intros l o v []|]. intros _. split; [constructor|intros l o v []].
  - intros l o o' v v' fs fs' Ho _ Hs _ [P1 P2]. split.
    + intros k p w [E|H]; [injection E as <- <- <-; exists o', v'; left; reflexivity|].
      destruct (P1 k p w H) as [p' [w' K]]. exists p', w'. right. exact K.
    + intros N. cbn [map] in N. inversion N as [|x xs Nx N']; subst. destruct (P2 N') as [N0 P].
      assert (Nl : ~ has_field l fs).
      { intros [p [w K]]. destruct (P1 l p w K) as [p' [w' K']]. apply Nx. apply (in_map flabel) in K'. exact K'. }
      split; [cbn [map]; constructor; [intros K; apply Nl, in_labels; exact K|exact N0]|].
      intros k p' w' [E|H].
      * injection E as <- <- <-. split; [intros _; exists o, v; split; [left; reflexivity|auto]|].
        intros K. exfalso. apply K. exists o, v. left. reflexivity.
      * destruct (P k p' w' H) as [Q1 Q2]. split.
        -- intros [p [w [E|K]]].
           ++ injection E as <- <- <-. exfalso. apply Nx. apply (in_map flabel) in H. exact H.
           ++ destruct Q1 as [q [u [K1 K2]]]; [exists p, w; exact K|]. exists q, u. split; [right; exact K1|exact K2].
        -- intros K. apply Q2. intros [p [w K']]. apply K. exists p, w. right. exact K'.
  - intros l v fs fs' _ [P1 P2]. split.
    + intros k p w H. destruct (P1 k p w H) as [p' [w' K]]. exists p', w'. right. exact K.
    + intros N. cbn [map] in N. inversion N as [|x xs Nx N']; subst. destruct (P2 N') as [N0 P].
      split; [exact N0|]. intros k p' w' [E|H].
      * injection E as <- <- <-. split; [|auto]. intros [p [w K]]. exfalso.
        destruct (P1 l p w K) as [p' [w' K']]. apply Nx. apply (in_map flabel) in K'. exact K'.
      * exact (P k p' w' H).
Qed.

Lemma widens_subs : forall v v', widens v v' -> subs v' v = true.
Proof. exact (proj1 widens_both). Qed.

(** A struct that passes: what each of its fields says. *)
Lemma subs_struct_field : forall fs rest fs' rest' l o v, subs (VStruct fs' rest') (VStruct fs rest) = true ->
  In (l, o, v) fs' ->
  match field_of l fs with
  | Some f => (o = true \/ fopt f = false) /\ subs v (fval f) = true
  | None => o = true
  end.
Proof.
  intros fs rest fs' rest' l o v H Hf. cbn [subs] in H. rewrite !andb_true_iff in H. destruct H as [[H _] _].
  rewrite forallb_forall in H. specialize (H _ Hf). cbn [fst snd] in H.
  destruct (field_of l fs) as [f|].
  - apply andb_true_iff in H as [H1 H2]. split; [|exact H2]. destruct o; [auto|]. right.
    destruct (fopt f); [discriminate|reflexivity].
  - apply andb_true_iff in H as [H1 _]. exact H1.
Qed.

Lemma subs_atom_inst : forall x d, subs x (VAtom d) = true -> inst x (DAtom d) = true.
Proof. intros x d H. apply (subs_sound x (VAtom d)); [exact H|]. cbn. apply atom_eqb_eq. reflexivity. Qed.

Lemma breaks_subs : forall v v', breaks v v' -> subs v' v = false.
Proof.
  intros v v' H. induction H as [v v' d H1 H2|l v fs rest fs' rest' H1 H2|l v v' fs rest fs' rest' N H1 H2
    |l o v fs rest fs' H1 H2|d ds ds' H1 H2 H3|l o v o' v' fs rest fs' rest' N H1 H2 H IH|u u' H IH].
  - destruct (subs v' v) eqn:E; [|reflexivity]. rewrite (subs_sound v' v d E H1) in H2. discriminate.
  - destruct (subs (VStruct fs' rest') (VStruct fs rest)) eqn:E; [|reflexivity]. exfalso.
    pose proof (subs_struct_field _ _ _ _ _ _ _ E H2) as K. rewrite (field_of_absent fs l H1) in K. discriminate.
  - destruct (subs (VStruct fs' rest') (VStruct fs rest)) eqn:E; [|reflexivity]. exfalso.
    pose proof (subs_struct_field _ _ _ _ _ _ _ E H2) as K. rewrite (field_of_nodup fs l true v N H1) in K.
    destruct K as [[K|K] _]; discriminate.
  - destruct (subs (VStruct fs' None) (VStruct fs rest)) eqn:E; [|reflexivity]. exfalso.
    cbn [subs] in E. rewrite !andb_true_iff in E. destruct E as [[_ E] _]. rewrite forallb_forall in E.
    specialize (E _ H1). unfold flabel in E. cbn [fst] in E. rewrite (field_of_absent fs' l H2) in E. discriminate.
  - cbn [subs]. apply not_true_is_false. intros E. rewrite forallb_forall in E. specialize (E _ H1).
    cbn [fst snd] in E. apply existsb_exists in E as [[m x] [Hx E]]. cbn [fst snd] in E.
    apply andb_true_iff in E as [E1 E2]. cbn in E2. destruct m.
    + apply subs_atom_inst in E1. rewrite (H3 x Hx) in E1. discriminate.
    + cbn in E2. apply negb_true_iff in E2. destruct H2 as [v H2].
      assert (K : existsb fst ds' = true) by (apply existsb_exists; exists (true, v); auto). congruence.
  - destruct (subs (VStruct fs' rest') (VStruct fs rest)) eqn:E; [|reflexivity]. exfalso.
    pose proof (subs_struct_field _ _ _ _ _ _ _ E H2) as K. rewrite (field_of_nodup fs l o v N H1) in K.
    destruct K as [_ K]. cbn in K. congruence.
  - rewrite subs_VList. cbn. exact IH.
Qed.

(** *** Publishing one more version *)

Section P.
Variable errs : cval -> verr.
Notation ev := (cue_fragment errs).

Definition centry (s : (option N * option N) * (val * val)) : schema_entry cval :=
  mkEntry (fst (fst s)) (snd (fst s)) (CEntry (fst (snd s)) (snd (snd s))).

Lemma check_schemas_app : forall cfg es e prev,
  check_schemas ev cfg prev (es ++ [e]) =
  (l <- check_schemas ev cfg prev es ;;
   s <- check_one ev cfg (match rev l with s :: _ => Some s | [] => prev end) e ;;
   Ok (l ++ [s])).
Proof.
  intros cfg es e. induction es as [|x es IH]; intros prev; cbn [app check_schemas bind].
  - cbn. destruct (check_one ev cfg prev e); reflexivity.
  - destruct (check_one ev cfg prev x) as [s|y| |]; cbn [bind]; auto.
    rewrite IH. destruct (check_schemas ev cfg (Some s) es) as [l|y| |]; cbn [bind]; auto.
    cbn [rev]. replace (match rev l ++ [s] with s0 :: _ => Some s0 | [] => prev end)
      with (match rev l with s0 :: _ => Some s0 | [] => Some s end) by (destruct (rev l); reflexivity).
    destruct (check_one ev cfg _ e); reflexivity.
Qed.

Lemma entry_versions_app : forall es vs e a b, entry_versions es = Some vs ->
  se_major e = Some a -> se_minor e = Some b -> @entry_versions cval (es ++ [e]) = Some (vs ++ [(a, b)]).
Proof.
  induction es as [|x es IH]; intros vs e a b H A B; cbn in H |- *.
  - injection H as <-. rewrite A, B. reflexivity.
  - destruct (se_major x), (se_minor x); try discriminate.
    destruct (entry_versions es) as [ws|]; [|discriminate]. injection H as <-.
    rewrite (IH ws e a b eq_refl A B). reflexivity.
Qed.

Lemma checked_versions : forall cfg es prev l, check_schemas ev cfg prev es = Ok l ->
  entry_versions es = Some (map sd_v l).
Proof.
  intros cfg. induction es as [|e es IH]; intros prev l H; cbn [check_schemas] in H.
  - injection H as <-. reflexivity.
  - destruct (check_one ev cfg prev e) as [s|y| |] eqn:E; cbn [bind] in H; try discriminate.
    destruct (check_schemas ev cfg (Some s) es) as [r|y| |] eqn:F; cbn [bind] in H; try discriminate.
    injection H as <-. cbn [map entry_versions]. rewrite (IH _ _ F).
    apply check_one_ok in E as [[E _] _]. unfold entry_v in E.
    destruct (se_major e), (se_minor e); try discriminate. injection E as <-. reflexivity.
Qed.

Lemma publish_one : forall id fv name ss ls opts l a b def body a' b' def' body',
  BindLineage ev id fv CLinDef (Atom (CLin name (ss ++ [((Some a, Some b), (def, body))]) ls)) opts = Ok l ->
  negb fv && existsb is_skip opts = false -> flat_map lenses_of opts = [] ->
  vle (a, b) (a', b') -> counts_ok (l_allv l ++ [(a', b')]) = true ->
  let again := BindLineage ev id fv CLinDef
    (Atom (CLin name (ss ++ [((Some a, Some b), (def, body)); ((Some a', Some b'), (def', body'))]) ls)) opts in
  (subs def' def = negb (b' =? 0)%N -> exists l', again = Ok l') /\
  (b' = 0%N -> subs def' def = true -> again = Err (mkErr [ErrInvalidLineage] (major_text (a', b') (a, b)))) /\
  (b' <> 0%N -> subs def' def = false -> again = Err (mkErr [ErrInvalidLineage] (minor_text (a', b') (a, b)))).
Proof.
  intros id fv name ss ls opts l a b def body a' b' def' body' B Sk Hl Hv Hc again.
  set (last := ((Some a, Some b), (def, body))) in *. set (nxt := ((Some a', Some b'), (def', body'))) in *.
  assert (Sh : forall ss', ss' <> [] ->
    (forall vs, entry_versions (map centry ss') = Some vs -> counts_ok vs = true) ->
    shape_accepted ev CLinDef (Atom (CLin name ss' ls)) (CLin name ss' ls) (CLin name ss' ls)).
  { intros ss' Hn Hvs. unfold shape_accepted. repeat split; try reflexivity.
    assert (NO : native_ok ev (CLin name ss' ls) = true).
    { unfold native_ok. change (ev_schemas ev (CLin name ss' ls)) with (Some (map centry ss')).
      destruct (map centry ss') as [|e es] eqn:M; [destruct ss'; [congruence|discriminate]|].
      destruct (entry_versions (e :: es)) as [vs|] eqn:E; [|reflexivity]. apply Hvs. reflexivity. }
    unfold checkLineageShape. rewrite NO. reflexivity. }
  pose proof (bind_shape_inv ev _ _ _ _ _ _ B) as A.
  assert (U : l_raw l = CLin name (ss ++ [last]) ls /\ l_uni l = CLin name (ss ++ [last]) ls).
  { destruct A as [A _]. cbn in A. injection A as A1 A2. auto. }
  destruct U as [U1 U2]. rewrite U1, U2 in A.
  pose proof (bind_shape ev id fv CLinDef _ opts _ _ A) as BS. rewrite B in BS. symmetry in BS.
  rewrite make_cfg_spec in BS. rewrite Sk, Hl in BS. cbv zeta in BS.
  set (cfg := mkCfg false []) in *.
  change (checkGoValidity ev cfg (CLin name (ss ++ [last]) ls))
    with (check_schemas ev cfg None (map centry (ss ++ [last]))) in BS.
  rewrite map_app in BS. cbn [map] in BS.
  destruct (check_schemas ev cfg None (map centry ss ++ [centry last])) as [sl|y| |] eqn:CS; cbn [bind] in BS;
    try discriminate.
  assert (HL : exists sd, sl = removelast sl ++ [sd] /\ sd_v sd = (a, b) /\ sd_def sd = CV def).
  { rewrite check_schemas_app in CS.
    destruct (check_schemas ev cfg None (map centry ss)) as [r|y| |]; cbn [bind] in CS; try discriminate.
    destruct (check_one ev cfg _ (centry last)) as [sd|y| |] eqn:CO; cbn [bind] in CS; try discriminate.
    injection CS as <-. exists sd. rewrite removelast_last. split; [reflexivity|].
    apply check_one_ok in CO as [[C1 [C2 C3]] _]. cbn in C1, C3. injection C1 as <-. auto. }
  destruct HL as [sd [Esl [Sv Sd]]].
  assert (HA : l_allv l = map sd_v sl).
  { destruct (checkLensesOrder ev cfg _ _) as [lm|y| |]; cbn [bind] in BS; try discriminate.
    injection BS as <-. reflexivity. }
  assert (HLen : exists lm, forall vs, checkLensesOrder ev cfg
      (CLin name (ss ++ [last; nxt]) ls) vs = Ok lm).
  { destruct (checkLensesOrder ev cfg (CLin name (ss ++ [last]) ls) (map sd_v sl)) as [lm|y| |] eqn:CL;
      cbn [bind] in BS; try discriminate. exists lm. intros vs. exact CL. }
  destruct HLen as [lm HLen].
  assert (Sh' : shape_accepted ev CLinDef (Atom (CLin name (ss ++ [last; nxt]) ls))
      (CLin name (ss ++ [last; nxt]) ls) (CLin name (ss ++ [last; nxt]) ls)).
  { apply Sh; [destruct ss; discriminate|]. intros vs E.
    replace (ss ++ [last; nxt]) with ((ss ++ [last]) ++ [nxt]) in E by (rewrite <- app_assoc; reflexivity).
    rewrite map_app in E. cbn [map] in E.
    rewrite (entry_versions_app (map centry (ss ++ [last])) (map sd_v sl) (centry nxt) a' b') in E;
      [|rewrite map_app; cbn [map]; eapply checked_versions; exact CS|reflexivity|reflexivity].
    injection E as <-. rewrite <- HA. exact Hc. }
  assert (EA : again = (s <- check_one ev cfg (Some sd) (centry nxt) ;;
    Ok (mkLin id name (CLin name (ss ++ [last; nxt]) ls) (CLin name (ss ++ [last; nxt]) ls) (sl ++ [s])
          (map sd_v (sl ++ [s])) (map (fun s => mkLens (fst (fst s)) (snd (fst s)) (CLens (fst (snd s)) (snd (snd s)))) ls) lm))).
  { unfold again. rewrite (bind_shape ev id fv CLinDef _ opts _ _ Sh'). cbv zeta.
    rewrite make_cfg_spec. rewrite Sk, Hl. fold cfg.
    change (checkGoValidity ev cfg (CLin name (ss ++ [last; nxt]) ls))
      with (check_schemas ev cfg None (map centry (ss ++ [last; nxt]))).
    replace (ss ++ [last; nxt]) with ((ss ++ [last]) ++ [nxt]) at 1 by (rewrite <- app_assoc; reflexivity).
    rewrite map_app. cbn [map]. rewrite map_app. cbn [map].
    rewrite check_schemas_app, CS. cbn [bind]. rewrite Esl at 1. rewrite rev_app_distr. cbn [rev app].
    destruct (check_one ev cfg (Some sd) (centry nxt)) as [s|y| |]; cbn [bind]; auto.
    rewrite HLen. reflexivity. }
  rewrite EA. clear EA. unfold check_one. cbn [centry se_major se_minor nxt fst snd].
  unfold checkSchemasOrder. rewrite Sv.
  assert (VL : vless (a', b') (a, b) = false) by (apply vless_false; exact Hv).
  rewrite VL. cbn [bind cfg skipbuggychecks negb sd_def]. unfold themaCompatible. rewrite Sd.
  cbn [centry se_val ev_subsumes cue_fragment ev_schdef c_subsumes nxt fst snd].
  split; [|split].
  - intros H. rewrite H. destruct (b' =? 0)%N; cbn; eauto.
  - intros -> H. rewrite H. reflexivity.
  - intros Hb H. rewrite H. apply N.eqb_neq in Hb. rewrite Hb. reflexivity.
Qed.

End P.
