(** [doHydrate] on struct schemas of any depth. *)
From Verif Require Import Prelude CueFrag CueSem CueProofs Hydrate HydrateSem HydrateProofs HydrateFacts
  DehydrateFacts UnifyProofs.
Local Open Scope string_scope.
Local Open Scope list_scope.

(** What a call yields: a value within the fragment that completes the data. *)
Definition completes (o : outcome val) (d r : data) : Prop :=
  exists w, o = Ok w /\ simple w = true /\ wf w /\ eval w (Some d) = Con r.

Definition good (v : val) : Prop := simple v = true /\ wf v.

Lemma good_unify : forall u w, good u -> good w -> good (unify u w).
Proof. intros u w [S1 W1] [S2 W2]. split; [apply simple_unify|apply wf_unify]; assumption. Qed.

Lemma good_embed : forall d, dwf d -> good (embed d).
Proof. intros d H. split; [apply simple_embed|apply wf_embed; exact H]. Qed.

Lemma good_fields : forall fs rest, good (VStruct fs rest) <->
  NoDup (map flabel fs) /\ (forall f, In f fs -> good (fval f)) /\ (forall u, rest = Some u -> good u).
Proof.
  intros fs rest. split.
  - intros [S W]. apply simple_struct in S as [S1 S2]. apply wf_struct in W as [N [W1 W2]].
    pose proof (opt_all_some _ _ W2) as W3. split; [exact N|]. split; split; auto.
  - intros [N [H1 H2]]. split.
    + apply simple_struct. split; [intros f Hf; apply (H1 f Hf)|intros u Hu; apply (H2 u Hu)].
    + apply wf_struct'; [exact N|intros f Hf; apply (H1 f Hf)|intros u Hu; apply (H2 u Hu)].
Qed.

Lemma nodup_put : forall k v fs rest, NoDup (map flabel fs) -> NoDup (map flabel (put k v fs rest)).
Proof.
  intros k v fs rest N. unfold put. destruct (field_of k fs) as [g|] eqn:F.
  - assert (E : map flabel (map (fun f => if String.eqb k (flabel f) then (k, false, unify (fval f) v) else f) fs)
                = map flabel fs).
    { rewrite map_map. apply map_ext. intros f. destruct (String.eqb_spec k (flabel f)); [subst; reflexivity|reflexivity]. }
    rewrite E. exact N.
  - rewrite map_app. cbn [map flabel fst]. apply NoDup_rev in N. rewrite <- (rev_involutive (map flabel fs)).
    apply field_of_notin in F. rewrite <- (rev_involutive [k]). rewrite <- rev_app_distr. apply NoDup_rev. cbn.
    constructor; [|exact N]. rewrite <- in_rev. exact F.
Qed.

Lemma put_good : forall k v fs rest, good (VStruct fs rest) -> good v -> good (VStruct (put k v fs rest) rest).
Proof.
  intros k v fs rest G V. apply good_fields in G as [N [G1 G2]]. apply good_fields.
  split; [apply nodup_put; exact N|]. split; [|exact G2]. intros f Hf. unfold put in Hf.
  destruct (field_of k fs) as [g|] eqn:F.
  - apply in_map_iff in Hf as [h [<- Hh]]. destruct (String.eqb k (flabel h)); [|apply G1; exact Hh].
    cbn [fval snd]. apply good_unify; [apply G1; exact Hh|exact V].
  - apply in_app_iff in Hf as [Hf|[<-|[]]]; [apply G1; exact Hf|]. cbn [fval snd].
    destruct rest as [u|]; [|split; [reflexivity|exact I]]. apply good_unify; [apply G2; reflexivity|exact V].
Qed.

(** *** The swapped call on a struct *)

Lemma swapped_loop : forall n rest fs df0, good (VStruct fs rest) ->
  Forall (fun kx => dwf (snd kx)) df0 -> NoDup (map fst df0) ->
  (forall k x, In (k, x) df0 -> exists y, eval_at fs rest k x = Con y) ->
  (forall f x y, In f fs -> fopt f = false -> In (flabel f, x) df0 -> eval (fval f) (Some x) = Con y ->
     completes (doHydrate n (fval f) (embed x)) x y) ->
  forall df gs, incl df df0 -> NoDup (map fst df) -> regular_ok gs -> good (VStruct gs rest) ->
  (forall k x, In (k, x) df0 -> eval_at gs rest k x = eval_at fs rest k x) ->
  missing df0 gs = missing df0 fs ->
  (forall k, In k (map fst df) -> field_of k gs = field_of k fs) ->
  exists ws, hyd_fields n (emb_fields df) (VStruct gs rest) = Ok (VStruct ws rest) /\ good (VStruct ws rest)
    /\ (forall k x, In (k, x) df0 -> eval_at ws rest k x = eval_at fs rest k x)
    /\ missing df0 ws = missing df0 fs.
Proof.
  intros n rest fs df0 GF WD ND0 V REC df. induction df as [|[k x] df IH];
    intros gs Hin ND R GG HE HM HF.
  - exists gs. split; [reflexivity|]. auto.
  - assert (Hx : In (k, x) df0) by (apply Hin; left; reflexivity).
    destruct (V k x Hx) as [y Hy].
    assert (Hl : has_label k df0 = true) by (apply has_label_in; exists x; exact Hx).
    assert (Wx : dwf x) by (rewrite Forall_forall in WD; apply (WD (k, x) Hx)).
    inversion ND as [|? ? ND1 ND2]; subst. cbn [map fst] in *.
    pose proof (HF k (or_introl eq_refl)) as Fk.
    pose proof GG as GG'. apply good_fields in GG' as [NG _].
    pose proof GF as GF'. apply good_fields in GF' as [NF [GF1 GF2]].
    assert (Step : forall res, good res -> eval match field_of k fs with
                           | Some f => unify (fval f) res
                           | None => match rest with Some u => unify u res | None => VBot end
                           end (Some x) = Con y ->
              exists ws, hyd_fields n (emb_fields df) (fill (VStruct gs rest) k res) = Ok (VStruct ws rest)
              /\ good (VStruct ws rest)
              /\ (forall k x, In (k, x) df0 -> eval_at ws rest k x = eval_at fs rest k x)
              /\ missing df0 ws = missing df0 fs).
    { intros res Gres Hres. rewrite fill_put, rest_id.
      assert (R' : regular_ok (put k res gs rest)).
      { apply regular_put; [exact R| |].
        - intros f Hf Ef. pose proof (field_of_in gs f NG Hf) as F. rewrite Ef in F.
          rewrite <- Fk, F in Hres. exact (con_not_bot _ _ _ Hres).
        - intros F. rewrite <- Fk, F in Hres. exact (con_not_bot _ _ _ Hres). }
      rewrite mk_struct_ok by exact R'.
      apply IH.
      - intros z Hz. apply Hin. right. exact Hz.
      - exact ND2.
      - exact R'.
      - apply put_good; assumption.
      - intros k' x' Hx'. unfold eval_at. rewrite field_of_put.
        destruct (String.eqb_spec k' k) as [E|E].
        + subst k'. cbn [snd]. rewrite Fk.
          assert (x' = x) as ->.
          { pose proof (lookup_in df0 k x ND0 Hx). pose proof (lookup_in df0 k x' ND0 Hx'). congruence. }
          rewrite Hres. symmetry. exact Hy.
        + apply (HE k' x' Hx').
      - rewrite missing_put by exact Hl. exact HM.
      - intros k' Hk'. rewrite field_of_put. destruct (String.eqb_spec k' k) as [E|E].
        + subst k'. contradiction.
        + apply HF. right. exact Hk'. }
    cbn [emb_fields map hyd_fields flabel fopt fval fst snd].
    change (map (fun kx : string * data => (fst kx, false, embed (snd kx))) df) with (emb_fields df).
    cbn [lookup_field]. rewrite Fk. unfold eval_at in Hy.
    destruct (field_of k fs) as [f|] eqn:F.
    + apply field_of_some in F as [Hf Ef]. fold (fval f) in Hy. destruct (GF1 f Hf) as [Sf Wf].
      destruct (fopt f) eqn:O.
      * apply Step; [apply good_embed; exact Wx|]. rewrite <- Hy. apply self_unify; assumption.
      * rewrite <- Ef in Hx. destruct (REC f x y Hf O Hx Hy) as [res [E1 [E2 [E3 E4]]]]. rewrite E1.
        apply Step; [split; assumption|]. apply agree_unify; auto. intros d [= <-]. exact Wx.
    + destruct rest as [u|]; [|discriminate]. destruct (GF2 u eq_refl) as [Sf Wf].
      apply Step; [apply good_embed; exact Wx|]. rewrite <- Hy. apply self_unify; assumption.
Qed.

Lemma swapped_top : forall n df, dwf (DStruct df) ->
  completes (doHydrate (S n) (embed (DStruct df)) VTop) (DStruct df) (DStruct df).
Proof.
  intros n df D. cbn [embed]. rewrite doHydrate_struct. fold (emb_fields df).
  destruct df as [|[k x] df]; [exists VTop; repeat split; reflexivity|].
  exists (embed (DStruct ((k, x) :: df))). split; [|split; [apply simple_embed|split; [apply wf_embed|apply eval_self]; exact D]].
  cbn [emb_fields map hyd_fields fopt fval flabel fst snd lookup_field]. unfold fill. rewrite unify_VTop_l.
  apply dwf_struct in D as [N _]. cbn [map fst] in N. inversion N as [|? ? N1 N2]; subst.
  change (map (fun kx : string * data => (fst kx, false, embed (snd kx))) df) with (emb_fields df).
  assert (G : forall todo done, NoDup (map fst (done ++ todo)) ->
            hyd_fields n (emb_fields todo) (VStruct (emb_fields done) (Some VTop))
            = Ok (VStruct (emb_fields (done ++ todo)) (Some VTop))).
  { clear. induction todo as [|[k x] todo IH]; intros done N.
    - rewrite app_nil_r. reflexivity.
    - cbn [emb_fields map hyd_fields fopt fval flabel fst snd lookup_field].
      change (map (fun kx : string * data => (fst kx, false, embed (snd kx))) todo) with (emb_fields todo).
      assert (L : field_of k (emb_fields done) = None).
      { apply no_label_field. unfold no_label. rewrite map_app in N. cbn in N.
        apply NoDup_remove_2 in N. intros H. apply N. apply in_app_iff. left. exact H. }
      rewrite L, fill_put. unfold put. rewrite L, unify_VTop_l.
      change (emb_fields done ++ [(k, false, embed x)])
        with (emb_fields done ++ emb_fields [(k, x)]).
      unfold emb_fields at 2 3. rewrite <- map_app. fold (emb_fields (done ++ [(k, x)])).
      rewrite mk_struct_ok.
      + rewrite IH; [rewrite <- app_assoc; reflexivity|]. rewrite <- app_assoc. exact N.
      + intros f Hf _. apply in_map_iff in Hf as [kx [<- _]]. apply embed_not_bot. }
  apply (G df [(k, x)]). cbn. exact N.
Qed.

Lemma swapped_any : forall n v x r, good v -> dwf x -> eval v (Some x) = Con r ->
  (forall fs rest df, v = VStruct fs rest -> x = DStruct df ->
     forall f z y, In f fs -> fopt f = false -> In (flabel f, z) df -> eval (fval f) (Some z) = Con y ->
     completes (doHydrate n (fval f) (embed z)) z y) ->
  completes (doHydrate (S n) (embed x) v) x r.
Proof.
  intros n v x r G D E REC.
  assert (NS : (forall df, x <> DStruct df) -> completes (doHydrate (S n) (embed x) v) x r).
  { intros H. exists (unify v (embed x)). split.
    - destruct x as [a|l|df]; [destruct a; reflexivity|reflexivity|]. exfalso. apply (H df eq_refl).
    - destruct (good_unify v (embed x) G (good_embed x D)) as [G1 G2]. split; [exact G1|]. split; [exact G2|].
      rewrite <- E. apply self_unify; [apply G|exact D]. }
  destruct x as [a|l|df]; [apply NS; discriminate|apply NS; discriminate|].
  destruct (simple_cases v (proj1 G)) as [H|[[es [q ->]]|[fs [rest ->]]]]; [|discriminate|].
  - destruct (shallow_eval _ _ _ H E) as [-> [_ [->|[a ?]]]]; [|discriminate]. apply swapped_top. exact D.
  - clear NS. specialize (REC fs rest df eq_refl eq_refl). pose proof G as G'.
    apply good_fields in G' as [N _]. apply dwf_struct in D as [ND WD].
    destruct (swapped_loop n rest fs df G WD ND (proj1 (valid_parts _ _ _ _ E)) REC df fs) as [ws [H1 [H2 [H3 H4]]]]; auto.
    + apply incl_refl.
    + apply (valid_regular _ _ _ _ N E).
    + exists (VStruct ws rest). split; [cbn [embed]; rewrite doHydrate_struct; exact H1|].
      split; [apply H2|]. split; [apply H2|].
      rewrite eval_VStruct', H4. rewrite eval_VStruct' in E. rewrite <- E. f_equal. f_equal.
      apply map_ext_in. intros [k x] Hx. cbn [fst snd]. rewrite (H3 k x Hx). reflexivity.
Qed.

(** *** The call on a struct *)

Definition filled (fs0 : list (string * bool * val)) (rest : option val) (todo : list string)
    (kx : string * data) (f : string * bool * val) : Prop :=
  flabel f = fst kx /\ fopt f = false /\ good (fval f)
  /\ (In (fst kx) todo -> fval f = embed (snd kx))
  /\ (~ In (fst kx) todo -> eval (fval f) None = eval_at fs0 rest (fst kx) (snd kx)
                          /\ eval (fval f) (Some (snd kx)) = eval_at fs0 rest (fst kx) (snd kx)).

Lemma filled_labels : forall fs0 rest todo df A,
  Forall2 (filled fs0 rest todo) df A -> map flabel A = map fst df.
Proof.
  intros fs0 rest todo df A H. induction H as [|kx f df A H _ IH]; [reflexivity|]. cbn. rewrite IH.
  destruct H as [-> _]. reflexivity.
Qed.

Lemma filled_field : forall fs0 rest todo df A k x, Forall2 (filled fs0 rest todo) df A ->
  NoDup (map fst df) -> In (k, x) df -> exists f, field_of k A = Some f /\ filled fs0 rest todo (k, x) f.
Proof.
  intros fs0 rest todo df A k x H. induction H as [|[l y] f df A H _ IH]; intros N Hx; [contradiction|].
  inversion N as [|? ? N1 N2]; subst. rewrite field_of_cons. destruct H as [E H]. cbn [fst] in E. rewrite E.
  destruct Hx as [Hx|Hx].
  - injection Hx as -> ->. rewrite String.eqb_refl. exists f. split; [reflexivity|]. split; [exact E|exact H].
  - destruct (String.eqb_spec k l) as [El|El]; [|apply IH; assumption].
    subst l. exfalso. apply N1. apply in_map_iff. exists (k, x). auto.
Qed.

Lemma filled_not_bot : forall fs0 rest todo df A,
  (forall k x, In (k, x) df -> exists y, eval_at fs0 rest k x = Con y) ->
  Forall2 (filled fs0 rest todo) df A -> forall h, In h A -> fval h <> VBot.
Proof.
  intros fs0 rest todo df A V1 HA. revert V1. induction HA as [|kx g df A H _ IH]; intros V1 h Hh; [contradiction|].
  destruct Hh as [<-|Hh].
  - destruct H as [_ [_ [_ [S3 S4]]]]. destruct (in_dec string_dec (fst kx) todo) as [I|I].
    + rewrite (S3 I). apply embed_not_bot.
    + destruct (S4 I) as [S5 _]. destruct (V1 (fst kx) (snd kx)) as [z Hz]; [left; destruct kx; reflexivity|].
      rewrite Hz in S5. exact (con_not_bot _ _ _ S5).
  - apply IH; [|exact Hh]. intros k z Hz. apply V1. right. exact Hz.
Qed.

Lemma outer_loop : forall n rest fs0 df,
  NoDup (map fst df) -> Forall (fun kx => dwf (snd kx)) df ->
  (forall k x, In (k, x) df -> exists y, eval_at fs0 rest k x = Con y) ->
  (forall f, In f fs0 -> fopt f = false -> has_label (flabel f) df = false -> exists y, eval (fval f) None = Con y) ->
  (forall f x y, In f fs0 -> In (flabel f, x) df -> eval (fval f) (Some x) = Con y ->
     completes (doHydrate n (embed x) (fval f)) x y) ->
  (forall f, In f fs0 -> good (fval f)) ->
  forall todo A B,
  incl todo fs0 -> NoDup (map flabel todo) ->
  (forall f, In f todo -> field_of (flabel f) fs0 = Some f) ->
  Forall2 (filled fs0 rest (map flabel todo)) df A ->
  (forall f, In f B -> fopt f = false /\ has_label (flabel f) df = false /\ ~ In (flabel f) (map flabel todo)
                       /\ good (fval f) /\ exists y, eval (fval f) None = Con y) ->
  NoDup (map flabel B) ->
  exists A' B', hyd_fields n todo (VStruct (A ++ B) (Some VTop)) = Ok (VStruct (A' ++ B') (Some VTop))
    /\ Forall2 (filled fs0 rest []) df A'
    /\ (forall f, In f B' -> fopt f = false /\ has_label (flabel f) df = false /\ good (fval f))
    /\ NoDup (map flabel B')
    /\ map entry B' = map entry B ++ missing df todo.
Proof.
  intros n rest fs0 df ND WD V1 V2 REC GF todo. induction todo as [|f todo IH];
    intros A B Hin NT HF HA HB NB.
  - exists A, B. split; [reflexivity|]. split; [exact HA|]. split; [|split; [exact NB|]].
    + intros g Hg. destruct (HB g Hg) as [B1 [B2 [_ [B4 _]]]]. auto.
    + cbn. rewrite app_nil_r. reflexivity.
  - cbn [map] in NT. inversion NT as [|? ? NT1 NT2]; subst.
    assert (Hf0 : In f fs0) by (apply Hin; left; reflexivity).
    assert (HT : forall A' B',
        Forall2 (filled fs0 rest (map flabel todo)) df A' ->
        (forall g, In g B' -> fopt g = false /\ has_label (flabel g) df = false
            /\ ~ In (flabel g) (map flabel todo) /\ good (fval g) /\ exists y, eval (fval g) None = Con y) ->
        NoDup (map flabel B') ->
        exists A'' B'', hyd_fields n todo (VStruct (A' ++ B') (Some VTop)) = Ok (VStruct (A'' ++ B'') (Some VTop))
          /\ Forall2 (filled fs0 rest []) df A''
          /\ (forall f, In f B'' -> fopt f = false /\ has_label (flabel f) df = false /\ good (fval f))
          /\ NoDup (map flabel B'')
          /\ map entry B'' = map entry B' ++ missing df todo).
    { intros A' B' HA' HB' NB'. apply IH; auto.
      - intros g Hg. apply Hin. right. exact Hg.
      - intros g Hg. apply HF. right. exact Hg. }
    assert (HB0 : forall g, In g B -> fopt g = false /\ has_label (flabel g) df = false
            /\ ~ In (flabel g) (map flabel todo) /\ good (fval g) /\ exists y, eval (fval g) None = Con y).
    { intros g Hg. destruct (HB g Hg) as [B1 [B2 [B3 B4]]]. split; [exact B1|]. split; [exact B2|]. split; [|exact B4].
      intros H. apply B3. right. exact H. }
    cbn [hyd_fields lookup_field].
    destruct (has_label (flabel f) df) eqn:HL.
    + (* the data has the field *)
      pose proof HL as HL'. apply has_label_in in HL' as [x Hx].
      destruct (filled_field _ _ _ _ _ _ _ HA ND Hx) as [g [Fg [G1 [G2 [_ [G3 _]]]]]]. cbn [fst snd] in *.
      specialize (G3 (or_introl eq_refl)).
      rewrite field_of_app, Fg, G2, G3.
      destruct (V1 _ _ Hx) as [y Hy].
      assert (Hy' : eval (fval f) (Some x) = Con y).
      { unfold eval_at in Hy. rewrite (HF f (or_introl eq_refl)) in Hy. exact Hy. }
      assert (Wx : dwf x) by (rewrite Forall_forall in WD; apply (WD _ Hx)).
      destruct (REC f x y Hf0 Hx Hy') as [w [E1 [Ew1 [Ew2 E2]]]].
      rewrite E1, fill_put. unfold put. rewrite field_of_app, Fg, map_app.
      assert (EB : map (fun g => if String.eqb (flabel f) (flabel g) then (flabel f, false, unify (fval g) w) else g) B = B).
      { rewrite <- (map_id B) at 2. apply map_ext_in. intros h Hh.
        destruct (String.eqb_spec (flabel f) (flabel h)) as [E|E]; [|reflexivity].
        destruct (HB h Hh) as [_ [B2 _]]. rewrite <- E in B2. congruence. }
      rewrite EB.
      set (A' := map (fun g => if String.eqb (flabel f) (flabel g) then (flabel f, false, unify (fval g) w) else g) A).
      assert (HA' : Forall2 (filled fs0 rest (map flabel todo)) df A').
      { subst A'. clear - HA Hx Hy E2 NT1 ND Ew1 Ew2 Wx.
        assert (HU : forall z, In (flabel f, z) df -> z = x).
        { intros z Hz. pose proof (lookup_in df _ _ ND Hx). pose proof (lookup_in df _ _ ND Hz). congruence. }
        assert (HS : forall kx h, In kx df -> filled fs0 rest (flabel f :: map flabel todo) kx h ->
                  filled fs0 rest (map flabel todo) kx
                    (if String.eqb (flabel f) (flabel h) then (flabel f, false, unify (fval h) w) else h)).
        { intros [k z] h Hk [S1 [S2 [Sg [S3 S4]]]]. cbn [fst snd] in *.
          destruct (String.eqb_spec (flabel f) (flabel h)) as [E|E].
          - assert (k = flabel f) as -> by congruence. assert (z = x) as -> by (apply HU; exact Hk).
            split; [reflexivity|]. split; [reflexivity|]. cbn [fst snd fval].
            split; [apply good_unify; [exact Sg|split; assumption]|]. split.
            + intros H. contradiction.
            + intros _. rewrite (S3 (or_introl eq_refl)), eval_unify, E2, Hy.
              split; [reflexivity|]. rewrite (proj1 (self_unify w Ew2 x Wx)). exact E2.
          - split; [exact S1|]. split; [exact S2|]. split; [exact Sg|]. cbn [fst snd]. split.
            + intros H. apply S3. right. exact H.
            + intros H. apply S4. intros [H'|H']; [congruence|contradiction]. }
        clear - HA HS. induction HA as [|kx h df A H _ IH]; [constructor|]. cbn [map]. constructor.
        - apply HS; [left; reflexivity|exact H].
        - apply IH. intros kx' h' Hk. apply HS. right. exact Hk. }
      rewrite mk_struct_ok.
      * destruct (HT A' B HA' HB0 NB) as [A'' [B'' [T1 [T2 [T3 [T5 T4]]]]]].
        exists A'', B''. split; [exact T1|]. split; [exact T2|]. split; [exact T3|]. split; [exact T5|]. rewrite T4.
        unfold missing. cbn [flat_map]. rewrite HL, orb_true_r. reflexivity.
      * intros h Hh _. apply in_app_iff in Hh as [Hh|Hh].
        -- apply (filled_not_bot _ _ _ _ _ V1 HA' h Hh).
        -- destruct (HB h Hh) as [_ [_ [_ [_ [z Hz]]]]]. exact (con_not_bot _ _ _ Hz).
    + (* the data lacks the field *)
      assert (FN : field_of (flabel f) (A ++ B) = None).
      { apply field_of_notin. rewrite map_app, in_app_iff, (filled_labels _ _ _ _ _ HA). intros [H|H].
        - apply in_map_iff in H as [[k x] [E Hx]]. cbn in E. subst k.
          assert (has_label (flabel f) df = true) by (apply has_label_in; exists x; exact Hx). congruence.
        - apply in_map_iff in H as [g [E Hg]]. destruct (HB g Hg) as [_ [_ [B3 _]]].
          apply B3. left. symmetry. exact E. }
      rewrite FN.
      assert (HA' : Forall2 (filled fs0 rest (map flabel todo)) df A).
      { assert (HS : forall kx h, In kx df -> filled fs0 rest (flabel f :: map flabel todo) kx h ->
                  filled fs0 rest (map flabel todo) kx h).
        { intros [k z] h Hk [S1 [S2 [Sg [S3 S4]]]]. split; [exact S1|]. split; [exact S2|]. split; [exact Sg|].
          cbn [fst snd] in *. split.
          - intros H. apply S3. right. exact H.
          - intros H. apply S4. intros [H'|H']; [|contradiction]. rewrite <- H' in Hk.
            assert (has_label (flabel f) df = true) by (apply has_label_in; exists z; exact Hk). congruence. }
        clear - HA HS. induction HA as [|kx h df A H _ IH]; constructor.
        - apply HS; [left; reflexivity|exact H].
        - apply IH. intros kx' h' Hk. apply HS. right. exact Hk. }
      destruct (fopt f) eqn:OF.
      * destruct (HT A B HA' HB0 NB) as [A'' [B'' [T1 [T2 [T3 [T5 T4]]]]]].
        exists A'', B''. split; [exact T1|]. split; [exact T2|]. split; [exact T3|]. split; [exact T5|]. rewrite T4.
        unfold missing. cbn [flat_map]. rewrite OF. reflexivity.
      * destruct (V2 f Hf0 OF HL) as [y Hy].
        rewrite fill_put. unfold put. rewrite FN, unify_VTop_l, <- app_assoc.
        assert (HB' : forall g, In g (B ++ [(flabel f, false, fval f)]) ->
            fopt g = false /\ has_label (flabel g) df = false
            /\ ~ In (flabel g) (map flabel todo) /\ good (fval g) /\ exists y, eval (fval g) None = Con y).
        { intros g Hg. apply in_app_iff in Hg as [Hg|[<-|[]]]; [apply HB0; exact Hg|].
          split; [reflexivity|]. split; [exact HL|]. split; [exact NT1|]. split; [apply (GF f Hf0)|]. exists y. exact Hy. }
        assert (NB' : NoDup (map flabel (B ++ [(flabel f, false, fval f)]))).
        { rewrite map_app. cbn [map flabel fst]. apply field_of_notin in FN. rewrite map_app, in_app_iff in FN.
          clear - NB FN. assert (H : ~ In (flabel f) (map flabel B)) by tauto. revert NB H.
          fold (flabel f). generalize (map flabel B) (flabel f). clear. intros l k N H.
          apply NoDup_rev in N. rewrite <- (rev_involutive (l ++ [k])). apply NoDup_rev. rewrite rev_app_distr. cbn.
          constructor; [rewrite <- in_rev; exact H|exact N]. }
        rewrite mk_struct_ok.
        -- destruct (HT A _ HA' HB' NB') as [A'' [B'' [T1 [T2 [T3 [T5 T4]]]]]].
           exists A'', B''. split; [exact T1|]. split; [exact T2|]. split; [exact T3|]. split; [exact T5|]. rewrite T4.
           rewrite map_app, <- app_assoc. unfold missing. cbn [flat_map]. rewrite OF, HL. reflexivity.
        -- intros h Hh _. apply in_app_iff in Hh as [Hh|Hh].
           ++ apply (filled_not_bot _ _ _ _ _ V1 HA' h Hh).
           ++ destruct (HB' h Hh) as [_ [_ [_ [_ [z Hz]]]]]. exact (con_not_bot _ _ _ Hz).
Qed.

Lemma outer_struct : forall n fs rest df r, good (VStruct fs rest) -> dwf (DStruct df) -> opt_shallow rest = true ->
  eval (VStruct fs rest) (Some (DStruct df)) = Con r ->
  (forall f x y, In f fs -> In (flabel f, x) df -> eval (fval f) (Some x) = Con y ->
     completes (doHydrate n (embed x) (fval f)) x y) ->
  exists w, doHydrate (S n) (VStruct fs rest) (embed (DStruct df)) = Ok w /\ good w
    /\ eval w None = Con r /\ eval w (Some (DStruct df)) = Con r.
Proof.
  intros n fs rest df r G D SR E REC.
  apply good_fields in G as [N [GF _]]. apply dwf_struct in D as [ND WD].
  destruct (valid_parts _ _ _ _ E) as [V1 V2].
  destruct (outer_loop n rest fs df ND WD V1 V2 REC GF fs (emb_fields df) []) as [A [B [T1 [T2 [T3 [T5 T4]]]]]]; auto.
  - apply incl_refl.
  - intros f Hf. apply field_of_in; assumption.
  - assert (HS : forall kx, In kx df -> filled fs rest (map flabel fs) kx (fst kx, false, embed (snd kx))).
    { intros [k x] Hx. rewrite Forall_forall in WD. pose proof (WD _ Hx) as Wx. cbn [snd] in Wx.
      split; [reflexivity|]. split; [reflexivity|]. cbn [fst snd fval]. split; [apply good_embed; exact Wx|].
      split; [reflexivity|].
      intros H. rewrite eval_embed, eval_self by exact Wx. destruct (V1 k x Hx) as [y Hy]. unfold eval_at in *.
      rewrite (proj2 (field_of_notin k fs) H) in *. destruct rest as [u|]; [|discriminate].
      cbn in SR. destruct (shallow_eval _ _ _ SR Hy) as [-> _]. split; symmetry; exact Hy. }
    clear - HS. unfold emb_fields. induction df as [|kx df IH]; cbn [map]; constructor.
    + apply HS. left. reflexivity.
    + apply IH. intros kx' H. apply HS. right. exact H.
  - intros f [].
  - constructor.
  - rewrite app_nil_r in T1.
    assert (NAB : NoDup (map flabel (A ++ B))).
    { rewrite map_app, (filled_labels _ _ _ _ _ T2).
      assert (X : forall k, In k (map fst df) -> ~ In k (map flabel B)).
      { intros k Hk HB. apply in_map_iff in HB as [f [<- Hf]]. destruct (T3 f Hf) as [_ [H _]].
        apply has_label_no in H. contradiction. }
      clear - ND T5 X. induction (map fst df) as [|k l IH]; [exact T5|]. inversion ND; subst. cbn. constructor.
      - rewrite in_app_iff. intros [H|H]; [contradiction|]. exact (X k (or_introl eq_refl) H).
      - apply IH; [assumption|]. intros k' H. apply X. right. exact H. }
    exists (VStruct (A ++ B) (Some VTop)). split; [|split; [|split]].
    + rewrite doHydrate_struct. cbn [embed]. fold (emb_fields df). exact T1.
    + apply good_fields. split; [exact NAB|]. split; [|intros u [= <-]; split; [reflexivity|exact I]].
      intros f Hf. apply in_app_iff in Hf as [Hf|Hf]; [|apply (T3 f Hf)].
      clear - T2 Hf. induction T2 as [|kx g df A H _ IH]; [contradiction|].
      destruct Hf as [<-|Hf]; [apply H|apply IH; exact Hf].
    + rewrite eval_VStruct' in E. rewrite <- E. cbn [eval]. f_equal. rewrite flat_map_app. f_equal.
      * clear - T2. induction T2 as [|kx f df A H _ IH]; [reflexivity|]. cbn [flat_map map].
        rewrite IH. destruct H as [S1 [S2 [_ [_ S4]]]]. destruct (S4 (fun H => H)) as [S5 _]. fold (fopt f) (flabel f) (fval f).
        rewrite S2, S1, S5. reflexivity.
      * cbn [map app] in T4. rewrite <- T4. clear - T3.
        induction B as [|f B IH]; [reflexivity|]. cbn [flat_map map].
        rewrite IH by (intros g Hg; apply T3; right; exact Hg).
        fold (fopt f). rewrite (proj1 (T3 f (or_introl eq_refl))). reflexivity.
    + rewrite eval_VStruct' in *. rewrite <- E. f_equal. f_equal.
      * apply map_ext_in. intros [k x] Hx. cbn [fst snd]. f_equal. unfold eval_at at 1.
        destruct (filled_field _ _ _ _ _ _ _ T2 ND Hx) as [g [Fg [_ [_ [_ [_ S4]]]]]].
        rewrite field_of_app, Fg. destruct (S4 (fun H => H)) as [_ S5]. exact S5.
      * unfold missing at 1. rewrite flat_map_app. fold (missing df A) (missing df B).
        rewrite (missing_known df A).
        2: { intros f Hf. destruct (has_label (flabel f) df) eqn:H; [reflexivity|]. exfalso. apply has_label_no in H.
             apply H. rewrite <- (filled_labels _ _ _ _ _ T2). apply in_map. exact Hf. }
        cbn [app map] in *. rewrite <- T4. clear - T3. unfold missing.
        induction B as [|f B IH]; [reflexivity|]. cbn [flat_map map].
        rewrite IH by (intros g Hg; apply T3; right; exact Hg).
        destruct (T3 f (or_introl eq_refl)) as [O [H _]]. rewrite O, H. reflexivity.
Qed.

(** *** Lists *)

Fixpoint hyd_elems (n : nat) (ele : val) (es : list val) : outcome (list val) :=
  match es with
  | [] => Ok []
  | e :: t =>
      ref <- getBranch ele e ;;
      match doHydrate n e ref with
      | Ok r => l <- hyd_elems n ele t ;; Ok (r :: l)
      | Err _ => hyd_elems n ele t
      | Panic => Panic
      | OutOfFuel => OutOfFuel
      end
  end.

Lemma doHydrate_list : forall n es u data,
  doHydrate (S n) (VList es (Some u)) data =
  if k_eqb (kind u) k_bottom then Panic
  else match list_elems data with
       | None => Panic
       | Some l =>
           rs <- hyd_elems n u l ;;
           if is_bot (mk_list rs None) then Err cue_err else Ok (mk_list rs None)
       end.
Proof.
  intros n es u data. cbn [doHydrate]. change (list_kind (VList es (Some u))) with true. cbn [any_index].
  destruct (k_eqb (kind u) k_bottom); [reflexivity|]. destruct (list_elems data) as [l|]; [|reflexivity].
  match goal with |- bind (?g l) _ = _ => assert (E : g l = hyd_elems n u l) end.
  { induction l as [|e l IH]; [reflexivity|]. cbn [hyd_elems].
    destruct (getBranch u e); cbn [bind]; try reflexivity.
    destruct (doHydrate n e a); try reflexivity; rewrite IH; reflexivity. }
  rewrite E. reflexivity.
Qed.

Lemma expr_kept_inst : forall ds d, forallb (fun x : bool * val => scalar_val (snd x)) ds = true ->
  existsb (fun x : bool * val => inst (snd x) d) ds = true ->
  exists b, In b (expr_kept ds) /\ inst b d = true.
Proof.
  intros ds d S H. apply existsb_exists in H as [[m v] [Hx Hi]]. cbn [snd] in Hi. unfold expr_kept.
  destruct (m && existsb (fun e : bool * val => negb (fst e) && subs (snd e) v) ds) eqn:K.
  - apply andb_true_iff in K as [_ K]. apply existsb_exists in K as [[m' v'] [Hv K]].
    apply andb_true_iff in K as [K1 K2]. cbn [fst snd] in K1, K2. exists v'. split.
    + apply in_flat_map. exists (m', v'). split; [exact Hv|]. cbn [fst snd].
      destruct m'; [discriminate|]. left. reflexivity.
    + apply (subs_sound v' v d K2 Hi).
  - exists v. split; [|exact Hi]. apply in_flat_map. exists (m, v). split; [exact Hx|]. cbn [fst snd]. rewrite K.
    left. reflexivity.
Qed.

Lemma concrete_iff : forall v, concrete v = true <-> exists r, eval v None = Con r.
Proof.
  intros v. unfold concrete. destruct (eval v None) as [| |r]; split; intros H; try discriminate; eauto;
    destruct H; discriminate.
Qed.

(** The branch taken for an element completes it as the element type does. *)
Lemma branch_completes : forall u x r, good u -> dwf x -> eval u (Some x) = Con r ->
  exists b, getBranch u (embed x) = Ok b /\ good b /\ eval b (Some x) = Con r
    /\ (b = u \/ scalar_val b = true).
Proof.
  intros u x r G D E. unfold getBranch.
  destruct (is_or u) eqn:O.
  2: { assert (EX : expr u = (false, [u])) by (destruct u; try discriminate; reflexivity). rewrite EX.
       exists u. auto. }
  destruct u as [| | | | |ds| |]; try discriminate.
  assert (S : shallow (VOr ds) = true) by exact (proj1 G).
  destruct (shallow_eval _ _ _ S E) as [-> [Hi [?|[a ->]]]]; [discriminate|].
  cbn [expr]. destruct (Nat.ltb 1 (List.length (expr_kept ds))); [|exists (VOr ds); auto].
  destruct (expr_kept_inst ds (DAtom a) S Hi) as [b [Hb Ib]].
  assert (SK : forall b, In b (expr_kept ds) -> scalar_val b = true).
  { intros b' H. unfold expr_kept in H. apply in_flat_map in H as [z [Hz H]].
    destruct (fst z && _); [contradiction|]. destruct H as [<-|[]]. cbn [shallow] in S.
    rewrite forallb_forall in S. apply S. exact Hz. }
  assert (INV : forall b, scalar_val b = true -> concrete (unify b (embed (DAtom a))) = true <-> inst b (DAtom a) = true).
  { intros b' Sb. cbn [embed]. rewrite concrete_iff. destruct (unify_atom_scalar a b' Sb) as [_ U]. split.
    - intros [r Hr]. destruct U as [U|U]; rewrite U in Hr; [discriminate|].
      assert (X : inst (unify b' (VAtom a)) (DAtom a) = true) by (rewrite U; cbn; apply atom_eqb_eq; reflexivity).
      rewrite inst_unify in X by (try exact I; destruct b'; try discriminate; exact I).
      apply andb_true_iff in X. apply X.
    - intros H. assert (X : inst (unify b' (VAtom a)) (DAtom a) = true).
      { rewrite inst_unify by (try exact I; destruct b'; try discriminate; exact I). rewrite H. cbn. apply atom_eqb_eq. reflexivity. }
      destruct U as [U|U]; rewrite U in *; [discriminate|]. exists (DAtom a). reflexivity. }
  destruct (find (fun d => concrete (unify d (embed (DAtom a)))) (expr_kept ds)) as [c|] eqn:F.
  - apply find_some in F as [F1 F2]. exists c. pose proof (SK c F1) as Sc. split; [reflexivity|]. split.
    + split; [destruct c; try discriminate; reflexivity|destruct c; try discriminate; exact I].
    + split; [|right; exact Sc]. apply scalar_inst_eval; [exact Sc|]. apply INV; assumption.
  - exfalso. pose proof (find_none _ _ F b Hb) as X. cbn beta in X. rewrite (proj2 (INV b (SK b Hb)) Ib) in X. discriminate.
Qed.

Lemma list_outer : forall n u l r, good (VList [] (Some u)) -> dwf (DList l) -> k_eqb (kind u) k_bottom = false ->
  eval (VList [] (Some u)) (Some (DList l)) = Con r ->
  (forall b x y, good b -> (b = u \/ scalar_val b = true) -> In x l -> eval b (Some x) = Con y ->
     completes (doHydrate n (embed x) b) x y) ->
  completes (doHydrate (S n) (VList [] (Some u)) (embed (DList l))) (DList l) r.
Proof.
  intros n u l r G D K E REC. rewrite doHydrate_list, K. cbn [embed list_elems default fst].
  assert (Gu : good u).
  { destruct G as [S W]. apply simple_list in S as [_ S]. apply wf_list in W as [_ W]. split; [apply S; reflexivity|exact W]. }
  apply dwf_list in D. rewrite eval_VList in E. cbn [eval_list] in E. apply of_list_con in E as [ds [-> E]].
  assert (H : exists ws, hyd_elems n u (map embed l) = Ok ws /\ (forall w, In w ws -> good w /\ w <> VBot)
            /\ eval_list None ws l = Some (map Con ds)).
  { clear G K. revert ds E REC. induction l as [|x l IH]; intros [|y ds] E REC; try discriminate.
    - exists []. split; [reflexivity|]. split; [intros w []|reflexivity].
    - cbn [map] in E. injection E as E1 E2. inversion D; subst.
      destruct (branch_completes u x y Gu H1 E1) as [b [B1 [B2 [B3 B4]]]].
      destruct (REC b x y B2 B4 (or_introl eq_refl) B3) as [w [W1 [W2 [W3 W4]]]].
      destruct (IH H2 ds E2) as [ws [I1 [I2 I3]]].
      { intros b' x' y' Hb1 Hb2 Hx. apply REC; auto. right. exact Hx. }
      exists (w :: ws). cbn [map hyd_elems]. rewrite B1. cbn [bind]. rewrite W1, I1. split; [reflexivity|]. split.
      + intros w' [<-|Hw]; [|apply I2; exact Hw]. split; [split; assumption|exact (con_not_bot _ _ _ W4)].
      + cbn [eval_list map]. rewrite I3, W4. reflexivity. }
  destruct H as [ws [H1 [H2 H3]]]. rewrite H1. cbn [bind].
  assert (M : mk_list ws None = VList ws None).
  { unfold mk_list. destruct (existsb is_bot ws) eqn:X; [|reflexivity]. apply existsb_exists in X as [w [Hw X]].
    destruct (H2 w Hw) as [_ N]. destruct w; try discriminate. contradiction. }
  rewrite M. cbn [is_bot]. exists (VList ws None). split; [reflexivity|]. split; [|split].
  - apply simple_list. split; [intros e He; apply (H2 e He)|discriminate].
  - apply wf_list'; [intros e He; apply (H2 e He)|discriminate].
  - rewrite eval_VList, H3. apply of_list_Con.
Qed.

(** *** Any depth *)

Lemma vdepth_elem : forall es u, vdepth u < vdepth (VList es (Some u)).
Proof. intros es u. cbn. lia. Qed.

Lemma hydrated : forall n,
  (forall v d r, vdepth v < n -> good v -> hydrates true v = true -> dwf d -> eval v (Some d) = Con r ->
     completes (doHydrate n v (embed d)) d r)
  /\ (forall v d r, vdepth v < n -> good v -> hydrates false v = true -> dwf d -> eval v (Some d) = Con r ->
     completes (doHydrate n (embed d) v) d r).
Proof.
  induction n as [|n [IH1 IH2]]; [split; intros; lia|]. split.
  - intros v d r L G H D E.
    assert (PLAIN : doHydrate (S n) v (embed d) = Ok (unify (embed d) v) -> completes (doHydrate (S n) v (embed d)) d r).
    { intros X. exists (unify (embed d) v). split; [exact X|].
      destruct (good_unify (embed d) v (good_embed d D) G) as [G1 G2]. split; [exact G1|]. split; [exact G2|].
      rewrite <- E. apply self_unify; [apply G|exact D]. }
    destruct (simple_cases v (proj1 G)) as [S|[[es [q ->]]|[fs [rest ->]]]].
    + apply PLAIN. apply hyd_shallow. exact S.
    + destruct q as [u|]; [|apply PLAIN; reflexivity]. cbn [hydrates] in H. destruct es as [|e es]; [|discriminate].
      apply andb_true_iff in H as [K H]. apply negb_true_iff in K. destruct d as [a|l|df]; try discriminate.
      apply list_outer; auto. intros b x y Gb Hb Hx Eb. apply dwf_list in D. rewrite Forall_forall in D.
      pose proof (vdepth_elem [] u) as VD. apply IH2; auto.
      * destruct Hb as [->|Hb]; [lia|]. destruct b; try discriminate; cbn; lia.
      * destruct Hb as [->|Hb]; [exact H|]. destruct b; try discriminate; reflexivity.
    + destruct d as [a|l|df]; try discriminate. cbn [hydrates] in H. apply andb_true_iff in H as [H1 H2].
      rewrite forallb_forall in H1.
      destruct (outer_struct n fs rest df r G D H2 E) as [w [W1 [W2 [_ W4]]]].
      * intros f x y Hf Hx Ef. pose proof (vdepth_field fs rest f Hf). apply good_fields in G as [_ [G1 _]].
        apply dwf_struct in D as [_ D]. rewrite Forall_forall in D. apply IH2; auto.
        -- lia.
        -- apply (D _ Hx).
      * exists w. split; [exact W1|]. split; [apply W2|]. split; [apply W2|exact W4].
  - intros v d r L G H D E. apply swapped_any; auto. intros fs rest df -> -> f z y Hf O Hz Ef.
    pose proof (vdepth_field fs rest f Hf). apply good_fields in G as [_ [G1 _]].
    apply dwf_struct in D as [_ D]. rewrite Forall_forall in D. cbn [hydrates] in H. rewrite forallb_forall in H.
    specialize (H f Hf). fold (fopt f) in H. rewrite O in H. apply IH1; auto.
    + lia.
    + apply (D _ Hz).
Qed.

Lemma body_hydrated_deep : forall fs rest d r n, vdepth (VStruct fs rest) < n ->
  simple (VStruct fs rest) = true -> hydrates true (VStruct fs rest) = true -> wf (VStruct fs rest) -> dwf d ->
  eval (VStruct fs rest) (Some d) = Con r ->
  exists w, doHydrate n (VStruct fs rest) (embed d) = Ok w /\ eval w None = Con r.
Proof.
  intros fs rest d r n L S H W D E. destruct n as [|n]; [lia|].
  destruct d as [a|l|df]; try discriminate. cbn [hydrates] in H. apply andb_true_iff in H as [H1 H2].
  rewrite forallb_forall in H1. assert (G : good (VStruct fs rest)) by (split; assumption).
  destruct (outer_struct n fs rest df r G D H2 E) as [w [W1 [_ [W3 _]]]]; [|eauto].
  intros f x y Hf Hx Ef. pose proof (vdepth_field fs rest f Hf). apply good_fields in G as [_ [G1 _]].
  apply dwf_struct in D as [_ D]. rewrite Forall_forall in D. apply (proj2 (hydrated n)); auto.
  - lia.
  - apply (D _ Hx).
Qed.

(** The same for the value that Hydrate is really given. *)
Definition open_def (a b : Z) (body : val) : val :=
  VStruct [("version", false, VList [VAtom (AInt a); VAtom (AInt b)] None);
           ("schema", false, body);
           ("examples", true, VStruct [] (Some body))] (Some VTop).

Lemma hydrate_open : forall a b body d r n, S (S (vdepth body)) < n ->
  simple body = true -> hydrates false body = true -> wf body -> dwf d ->
  eval (open_def a b body) (Some d) = Con r ->
  exists w, Hydrate n (schema_def a b body) (embed d) = Ok w /\ eval w None = Con r.
Proof.
  intros a b body d r n L S H W D E.
  destruct (body_hydrated_deep [("version", false, VList [VAtom (AInt a); VAtom (AInt b)] None);
      ("schema", false, body); ("examples", true, VStruct [] (Some body))] (Some VTop) d r n) as [w [E1 E2]]; auto.
  - cbn. lia.
  - cbn. rewrite S. reflexivity.
  - cbn. rewrite H. reflexivity.
  - cbn. split; [repeat constructor; cbn; intuition discriminate|]. repeat split; auto. constructor.
  - exists w. split; [|exact E2]. unfold Hydrate, schema_def. destruct n as [|n]; [lia|].
    rewrite doHydrate_struct in E1 |- *. rewrite E1. reflexivity.
Qed.

(** [{[string]: {on: *true | bool}}] *)
Definition body7 : val := VStruct [] (Some (VStruct [("on", false, def_or (VAtom (ABool true)) (VType TBool))] None)).

Lemma hydrate_pattern : forall n,
  doHydrate (S n) body7 (embed (DStruct [("a", DStruct [])])) = Ok (embed (DStruct [("a", DStruct [])])).
Proof. reflexivity. Qed.
