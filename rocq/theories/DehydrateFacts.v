(** Facts about [doDehydrate] and [Instance.Dehydrate]. *)
From Verif Require Import Prelude CueFrag CueSem CueProofs Hydrate HydrateSem HydrateProofs HydrateFacts.
Local Open Scope string_scope.
Local Open Scope list_scope.

Fixpoint deh_fields (n : nat) (data : val) (fs : list (string * bool * val)) (rv : val) : outcome val :=
  match fs with
  | [] => Ok rv
  | f :: t =>
      match lookup_field data (flabel f) with
      | Some lv =>
          match doDehydrate n (fval f) lv with
          | Ok (re, isEqual) =>
              if isEqual then deh_fields n data t rv else deh_fields n data t (fill rv (flabel f) re)
          | Err _ => deh_fields n data t rv
          | Panic => Panic
          | OutOfFuel => OutOfFuel
          end
      | None => deh_fields n data t rv
      end
  end.

Definition copy_others (known : list string) (fs : list (string * bool * val)) (rv : val) : val :=
  fold_left (fun rv f => if mem_str (flabel f) known then rv else fill rv (flabel f) (fval f)) fs rv.

Lemma doDehydrate_struct : forall n fs rest data,
  doDehydrate (S n) (VStruct fs rest) data =
  (rv <- deh_fields n data fs empty_struct ;;
   Ok (copy_others (map flabel fs) (reg_fields data) rv, false)).
Proof.
  intros n fs rest data.
  change (doDehydrate (S n) (VStruct fs rest) data) with
    (rv <- (fix each (fs : list (string * bool * val)) (rv : val) : outcome val :=
                 match fs with
                 | [] => Ok rv
                 | f :: t =>
                     match lookup_field data (flabel f) with
                     | Some lv =>
                         match doDehydrate n (fval f) lv with
                         | Ok (re, isEqual) =>
                             if isEqual then each t rv else each t (fill rv (flabel f) re)
                         | Err _ => each t rv
                         | Panic => Panic
                         | OutOfFuel => OutOfFuel
                         end
                     | None => each t rv
                     end
                 end) fs empty_struct ;;
     Ok (copy_others (map flabel fs) (reg_fields data) rv, false)).
  match goal with |- (rv <- ?g fs empty_struct ;; _) = _ =>
    assert (E : forall rv, g fs rv = deh_fields n data fs rv) end.
  { induction fs as [|f fs IH]; intros rv; [reflexivity|]. cbn [deh_fields].
    destruct (lookup_field data (flabel f)); [|apply IH].
    destruct (doDehydrate n (fval f) v) as [[re []]| | |]; try reflexivity; apply IH. }
  rewrite E. reflexivity.
Qed.

Fixpoint deh_elems (n : nat) (ele : val) (es : list val) : outcome (list val) :=
  match es with
  | [] => Ok []
  | e :: t =>
      match getBranch ele e with
      | Ok ref =>
          match doDehydrate n ref e with
          | Ok (re, isEqual) => l <- deh_elems n ele t ;; Ok ((if isEqual then e else re) :: l)
          | Err _ => l <- deh_elems n ele t ;; Ok (e :: l)
          | Panic => Panic
          | OutOfFuel => OutOfFuel
          end
      | _ => l <- deh_elems n ele t ;; Ok (e :: l)
      end
  end.

Lemma doDehydrate_list : forall n es u data,
  doDehydrate (S n) (VList es (Some u)) data =
  if isCueValueEqual (VList es (Some u)) data then Ok (empty_struct, true)
  else if k_eqb (kind u) k_bottom then Ok (empty_struct, true)
  else match list_elems data with
       | None => Ok (empty_struct, true)
       | Some l =>
           l' <- deh_elems n u l ;;
           if is_bot (mk_list l' None) then Err cue_err else Ok (mk_list l' None, false)
       end.
Proof.
  intros n es u data.
  change (doDehydrate (S n) (VList es (Some u)) data) with
   (if isCueValueEqual (VList es (Some u)) data then Ok (empty_struct, true)
    else if k_eqb (kind u) k_bottom then Ok (empty_struct, true)
    else match list_elems data with
       | None => Ok (empty_struct, true)
       | Some l =>
           l' <- (fix each (es : list val) : outcome (list val) :=
                            match es with
                            | [] => Ok []
                            | e :: t =>
                                match getBranch u e with
                                | Ok ref =>
                                    match doDehydrate n ref e with
                                    | Ok (re, isEqual) =>
                                        l <- each t ;; Ok ((if isEqual then e else re) :: l)
                                    | Err _ => l <- each t ;; Ok (e :: l)
                                    | Panic => Panic
                                    | OutOfFuel => OutOfFuel
                                    end
                                | _ => l <- each t ;; Ok (e :: l)
                                end
                            end) l ;;
           if is_bot (mk_list l' None) then Err cue_err else Ok (mk_list l' None, false)
       end).
  match goal with |- context [l' <- ?g _ ;; _] =>
    assert (E : forall l, g l = deh_elems n u l) end.
  { induction l as [|e l IH]; [reflexivity|]. cbn [deh_elems]. rewrite <- IH.
    destruct (getBranch u e) as [ref| | |]; try reflexivity. }
  destruct (isCueValueEqual _ _); [reflexivity|]. destruct (k_eqb _ _); [reflexivity|].
  destruct (list_elems data) as [l|]; [|reflexivity]. rewrite E. reflexivity.
Qed.

Lemma doDehydrate_closed : forall n es data,
  doDehydrate (S n) (VList es None) data =
  if isCueValueEqual (VList es None) data then Ok (empty_struct, true) else Ok (data, false).
Proof. reflexivity. Qed.

Lemma doDehydrate_other : forall n sch data, list_kind sch = false -> struct_kind sch = false ->
  doDehydrate (S n) sch data = Ok (data, isCueValueEqual sch data).
Proof. intros n sch data H1 H2. cbn [doDehydrate]. rewrite H1, H2. reflexivity. Qed.

(** *** Equality with the default *)

Lemma strip_embed : forall d, strip (embed d) = embed d.
Proof.
  intros d. induction d as [a|l IH|l IH] using data_ind'; [reflexivity| |].
  - cbn [embed strip]. f_equal. rewrite map_map. rewrite Forall_forall in IH. apply map_ext_in. exact IH.
  - cbn [embed strip]. f_equal. rewrite map_map. rewrite Forall_forall in IH. apply map_ext_in.
    intros kx Hx. cbn [fst snd]. rewrite (IH kx Hx). reflexivity.
Qed.

Lemma equal_default : forall v d, isCueValueEqual v (embed d) = true -> is_default v d.
Proof.
  intros v d H. unfold isCueValueEqual, getDefault in H. destruct (default v) as [m ex] eqn:D.
  assert (X : ex = true /\ subs_default (embed d) m = true /\ subs_default m (embed d) = true).
  { destruct (ex && empty_list m) eqn:E.
    - destruct (expr v) as [op vals]. apply andb_true_iff in E as [-> _].
      apply andb_true_iff in H as [H H3]. apply andb_true_iff in H as [_ H2]. auto.
    - apply andb_true_iff in H as [H H3]. apply andb_true_iff in H as [H1 H2]. auto. }
  destruct X as [-> [X1 X2]]. exists m. split; [exact D|]. unfold subs_default in *. rewrite strip_embed in X2.
  split; intros x Hx; [exact (subs_sound _ _ _ X2 Hx)|exact (subs_sound _ _ _ X1 Hx)].
Qed.

(** *** Data stays data *)

Lemma fill_emb : forall df k d, no_label k df ->
  fill (VStruct (emb_fields df) (Some VTop)) k (embed d) = VStruct (emb_fields (df ++ [(k, d)])) (Some VTop).
Proof.
  intros df k d H. rewrite fill_put. unfold put. rewrite (no_label_field _ _ H), unify_VTop_l.
  change [(k, false, embed d)] with (emb_fields [(k, d)]). unfold emb_fields at 1 2. rewrite <- map_app.
  apply mk_struct_ok. intros f Hf _. apply in_map_iff in Hf as [kx [<- _]]. apply embed_not_bot.
Qed.

Lemma lookup_app : forall k a b, lookup k (a ++ b) = match lookup k a with Some x => Some x | None => lookup k b end.
Proof.
  intros k a b. induction a as [|[l x] a IH]; [reflexivity|]. cbn. destruct (String.eqb k l); [reflexivity|exact IH].
Qed.

Lemma lookup_none : forall k df, lookup k df = None <-> no_label k df.
Proof.
  intros k df. unfold no_label. induction df as [|[l x] df IH]; cbn; [tauto|].
  destruct (String.eqb_spec k l) as [E|E].
  - split; [discriminate|]. intros H. exfalso. apply H. left. congruence.
  - rewrite IH. split.
    + intros H [H'|H']; [congruence|contradiction].
    + intros H H'. apply H. right. exact H'.
Qed.

Lemma lookup_In : forall k df x, lookup k df = Some x -> In (k, x) df.
Proof.
  intros k df x. induction df as [|[l y] df IH]; cbn; [discriminate|].
  destruct (String.eqb_spec k l) as [E|E]; intros H.
  - injection H as ->. subst. left. reflexivity.
  - right. apply IH. exact H.
Qed.

Lemma lookup_field_emb : forall df k,
  lookup_field (embed (DStruct df)) k = match lookup k df with Some x => Some (embed x) | None => None end.
Proof.
  intros df k. cbn [embed lookup_field]. fold (emb_fields df). rewrite field_of_emb.
  destruct (lookup k df); reflexivity.
Qed.

Lemma reg_fields_emb : forall df, reg_fields (embed (DStruct df)) = emb_fields df.
Proof.
  intros df. unfold reg_fields. cbn [embed fields default fst]. fold (emb_fields df).
  induction df as [|kx df IH]; [reflexivity|]. cbn. f_equal. exact IH.
Qed.

Lemma mem_str_in : forall k l, mem_str k l = true <-> In k l.
Proof.
  intros k l. unfold mem_str. rewrite existsb_exists. split.
  - intros [x [H E]]. apply String.eqb_eq in E as ->. exact H.
  - intros H. exists k. split; [exact H|apply String.eqb_refl].
Qed.

Definition others (known : list string) (df : list (string * data)) : list (string * data) :=
  filter (fun kx => negb (mem_str (fst kx) known)) df.

Lemma copy_emb : forall known df done,
  NoDup (map fst df) -> (forall k, In k (map fst done) -> In k known \/ ~ In k (map fst df)) ->
  copy_others known (emb_fields df) (VStruct (emb_fields done) (Some VTop))
  = VStruct (emb_fields (done ++ others known df)) (Some VTop).
Proof.
  intros known df. induction df as [|[k x] df IH]; intros done N H.
  - unfold copy_others, others. cbn. rewrite app_nil_r. reflexivity.
  - inversion N as [|? ? N1 N2]; subst. unfold copy_others in *.
    cbn [emb_fields map fold_left flabel fval fst snd others filter].
    change (map (fun kx : string * data => (fst kx, false, embed (snd kx))) df) with (emb_fields df).
    destruct (mem_str k known) eqn:M; cbn [negb].
    + apply IH; [exact N2|]. intros l Hl. destruct (H l Hl) as [A|A]; [auto|]. right. cbn in A. tauto.
    + assert (NL : no_label k done).
      { intros Hd. destruct (H k Hd) as [A|A]; [|apply A; left; reflexivity].
        apply mem_str_in in A. congruence. }
      rewrite fill_emb by exact NL. rewrite IH; [rewrite <- app_assoc; reflexivity|exact N2|].
      intros l Hl. rewrite map_app, in_app_iff in Hl. destruct Hl as [Hl|[<-|[]]].
      * destruct (H l Hl) as [A|A]; [auto|]. right. cbn in A. tauto.
      * right. exact N1.
Qed.

(** *** [Instance.Dehydrate] *)

Lemma dehydrate_same : forall n a b body df, NoDup (map fst df) ->
  no_label "version" df -> no_label "schema" df -> no_label "examples" df ->
  Dehydrate (S n) (schema_def a b body) (embed (DStruct df)) = Ok (embed (DStruct df)).
Proof.
  intros n a b body df N H1 H2 H3. unfold Dehydrate, schema_def. rewrite doDehydrate_struct.
  cbn [deh_fields flabel fst]. rewrite !lookup_field_emb.
  rewrite (proj2 (lookup_none _ _) H1), (proj2 (lookup_none _ _) H2), (proj2 (lookup_none _ _) H3).
  cbn [bind]. rewrite reg_fields_emb. unfold empty_struct.
  change (VStruct [] (Some VTop)) with (VStruct (emb_fields []) (Some VTop)).
  rewrite copy_emb; [|exact N|intros k []].
  cbn [app]. f_equal. cbn [embed]. fold (emb_fields df). f_equal. f_equal.
  cbn [map flabel fst]. clear n. unfold others.
  induction df as [|[k x] df IH]; [reflexivity|]. cbn [filter map flabel fst].
  inversion N as [|? ? N1 N2]; subst. unfold no_label in *. cbn [map fst] in *.
  rewrite IH by (try exact N2; intros HH; (apply H1 + apply H2 + apply H3); right; exact HH).
  assert (M : mem_str k ["version"; "schema"; "examples"] = false).
  { destruct (mem_str k ["version"; "schema"; "examples"]) eqn:M; [|reflexivity].
    apply mem_str_in in M. destruct M as [<-|[<-|[<-|[]]]]; exfalso; [apply H1|apply H2|apply H3]; left; reflexivity. }
  rewrite M. reflexivity.
Qed.

(** *** [doDehydrate] on a schema body *)

Fixpoint vdepth (v : val) : nat :=
  match v with
  | VList _ (Some u) => S (vdepth u)
  | VStruct fs _ => S (fold_right (fun f k => Nat.max (vdepth (snd f)) k) 0 fs)
  | _ => 0
  end.

Lemma vdepth_field : forall fs rest f, In f fs -> vdepth (fval f) < vdepth (VStruct fs rest).
Proof.
  intros fs rest f H. cbn. induction fs as [|g fs IH]; [contradiction|]. cbn [fold_right].
  destruct H as [->|H]; [fold (fval f); lia|]. specialize (IH H). lia.
Qed.

Definition trimmed (s : val) (d : data) (o : outcome (val * bool)) : Prop :=
  exists v eq, o = Ok (v, eq) /\ if eq then is_default s d else exists d', v = embed d' /\ trims s d d'.

Lemma deh_loop : forall n fs0 df,
  (forall f x, In f fs0 -> lookup (flabel f) df = Some x -> trimmed (fval f) x (doDehydrate n (fval f) (embed x))) ->
  (forall f, In f fs0 -> field_of (flabel f) fs0 = Some f) ->
  forall todo done, incl todo fs0 -> NoDup (map flabel todo) ->
  (forall k, In k (map fst done) -> ~ In k (map flabel todo) /\ In k (map flabel fs0)) ->
  (forall k d', lookup k done = Some d' -> exists d, lookup k df = Some d
      /\ exists f, field_of k fs0 = Some f /\ trims (fval f) d d') ->
  (forall k d, lookup k df = Some d -> lookup k done = None -> In k (map flabel fs0) -> ~ In k (map flabel todo) ->
      exists f, field_of k fs0 = Some f /\ is_default (fval f) d) ->
  exists done', deh_fields n (embed (DStruct df)) todo (VStruct (emb_fields done) (Some VTop))
      = Ok (VStruct (emb_fields done') (Some VTop))
    /\ (forall k, In k (map fst done') -> In k (map flabel fs0))
    /\ (forall k d', lookup k done' = Some d' -> exists d, lookup k df = Some d
          /\ exists f, field_of k fs0 = Some f /\ trims (fval f) d d')
    /\ (forall k d, lookup k df = Some d -> lookup k done' = None -> In k (map flabel fs0) ->
          exists f, field_of k fs0 = Some f /\ is_default (fval f) d).
Proof.
  intros n fs0 df HT HF todo. induction todo as [|f todo IH]; intros done Hin N HL HK HD.
  - exists done. split; [reflexivity|]. split; [intros k Hk; apply (HL k Hk)|]. split; [exact HK|].
    intros k d H1 H2 H3. apply (HD k d); auto.
  - assert (Hf : In f fs0) by (apply Hin; left; reflexivity).
    cbn [map] in N. inversion N as [|? ? N1 N2]; subst.
    assert (Hin' : incl todo fs0) by (intros g Hg; apply Hin; right; exact Hg).
    cbn [deh_fields]. rewrite lookup_field_emb. destruct (lookup (flabel f) df) as [x|] eqn:L.
    + destruct (HT f x Hf L) as [v [eq [E T]]]. rewrite E. destruct eq.
      * apply IH; auto.
        -- intros k Hk. destruct (HL k Hk) as [A B]. split; [|exact B]. intros C. apply A. right. exact C.
        -- intros k d H1 H2 H3 H4. destruct (string_dec k (flabel f)) as [->|Ek].
           ++ exists f. split; [apply HF; exact Hf|]. rewrite L in H1. injection H1 as <-. exact T.
           ++ apply (HD k d H1 H2 H3). intros [A|A]; [congruence|contradiction].
      * destruct T as [d' [-> T]].
        assert (NL : no_label (flabel f) done).
        { intros H. destruct (HL _ H) as [A _]. apply A. left. reflexivity. }
        rewrite fill_emb by exact NL. apply IH; auto.
        -- intros k Hk. rewrite map_app, in_app_iff in Hk. destruct Hk as [Hk|[<-|[]]].
           ++ destruct (HL k Hk) as [A B]. split; [|exact B]. intros C. apply A. right. exact C.
           ++ split; [exact N1|]. exact (in_map flabel _ _ Hf).
        -- intros k d0 H. rewrite lookup_app in H. destruct (lookup k done) as [z|] eqn:Z.
           ++ injection H as <-. apply HK. exact Z.
           ++ cbn in H. destruct (String.eqb_spec k (flabel f)) as [->|_]; [|discriminate].
              injection H as <-. exists x. split; [exact L|]. exists f. split; [apply HF; exact Hf|exact T].
        -- intros k d H1 H2 H3 H4. rewrite lookup_app in H2. destruct (lookup k done) eqn:Z; [discriminate|].
           cbn in H2. destruct (String.eqb_spec k (flabel f)) as [->|Ek]; [discriminate|].
           apply (HD k d H1 Z H3). intros [A|A]; [congruence|contradiction].
    + apply IH; auto.
      * intros k Hk. destruct (HL k Hk) as [A B]. split; [|exact B]. intros C. apply A. right. exact C.
      * intros k d H1 H2 H3 H4. apply (HD k d H1 H2 H3). intros [A|A]; [congruence|contradiction].
Qed.

Lemma trims_equal : forall s d, isCueValueEqual s (embed d) = true -> trimmed s d (Ok (empty_struct, true)).
Proof. intros s d H. exists empty_struct, true. split; [reflexivity|]. apply equal_default. exact H. Qed.

Lemma lookup_others : forall known df k, lookup k (others known df)
  = if mem_str k known then None else lookup k df.
Proof.
  intros known df k. unfold others.
  induction df as [|[l x] df IH]; cbn [filter lookup fst snd]; [destruct (mem_str k known); reflexivity|].
  destruct (mem_str l known) eqn:M; cbn [negb lookup].
  - rewrite IH. destruct (String.eqb_spec k l) as [->|]; [rewrite M; reflexivity|reflexivity].
  - destruct (String.eqb_spec k l) as [->|]; [rewrite M; reflexivity|exact IH].
Qed.

Lemma scalar_trimmed : forall n s d, list_kind s = false -> struct_kind s = false ->
  trimmed s d (doDehydrate (S n) s (embed d)).
Proof.
  intros n s d H1 H2. rewrite doDehydrate_other by assumption.
  exists (embed d), (isCueValueEqual s (embed d)). split; [reflexivity|].
  destruct (isCueValueEqual s (embed d)) eqn:E; [apply equal_default; exact E|].
  exists d. split; [reflexivity|]. constructor.
Qed.

Lemma expr_in : forall v b, In b (snd (expr v)) -> b = v \/ exists ds m, v = VOr ds /\ In (m, b) ds.
Proof.
  intros v b H. destruct v; cbn in H; try (destruct H as [<-|[]]; left; reflexivity).
  right. exists ds. unfold expr_kept in H. apply in_flat_map in H as [[m x] [Hx H]]. cbn [fst snd] in H.
  destruct (_ && _); [contradiction|]. destruct H as [<-|[]]. eauto.
Qed.

Lemma getBranch_ok : forall u e b, getBranch u e = Ok b -> b = u \/ In b (snd (expr u)).
Proof.
  intros u e b H. unfold getBranch in H. destruct (expr u) as [op vals]. destruct op.
  - destruct (find _ vals) eqn:F; [|discriminate]. injection H as <-. apply find_some in F. right. apply F.
  - injection H as <-. left. reflexivity.
Qed.

Lemma deh_elems_ok : forall n u l,
  (forall b x, (b = u \/ In b (snd (expr u))) -> In x l -> trimmed b x (doDehydrate n b (embed x))) ->
  exists l', deh_elems n u (map embed l) = Ok (map embed l')
    /\ Forall2 (fun d d' => d' = d \/ exists b, (b = u \/ In b (snd (expr u))) /\ trims b d d') l l'.
Proof.
  intros n u l. induction l as [|x l IH]; intros H.
  - exists []. split; [reflexivity|constructor].
  - destruct IH as [l' [E F]]; [intros b y Hb Hy; apply H; [exact Hb|right; exact Hy]|].
    cbn [map deh_elems]. rewrite E. destruct (getBranch u (embed x)) as [ref|er| |] eqn:G.
    + apply getBranch_ok in G. destruct (H ref x G (or_introl eq_refl)) as [v [eq [E' T]]].
      rewrite E'. cbn [bind]. destruct eq.
      * exists (x :: l'). split; [reflexivity|]. constructor; [left; reflexivity|exact F].
      * destruct T as [d' [-> T]]. exists (d' :: l'). split; [reflexivity|].
        constructor; [right; exists ref; auto|exact F].
    + exists (x :: l'). split; [reflexivity|]. constructor; [left; reflexivity|exact F].
    + exists (x :: l'). split; [reflexivity|]. constructor; [left; reflexivity|exact F].
    + exists (x :: l'). split; [reflexivity|]. constructor; [left; reflexivity|exact F].
Qed.

Lemma is_bot_emb : forall l, is_bot (mk_list (map embed l) None) = false /\ mk_list (map embed l) None = embed (DList l).
Proof.
  intros l. assert (E : existsb is_bot (map embed l) = false).
  { induction l as [|x l IH]; [reflexivity|]. cbn. rewrite IH. destruct x; reflexivity. }
  unfold mk_list. rewrite E. split; reflexivity.
Qed.

(** The data has a struct where the schema has one, and a list where it has an
    open list. Elements of the prefix of a list are trimmed by the type of the
    further elements, so it is that type they are compared with. *)
Fixpoint shapes (v : val) (d : data) {struct v} : bool :=
  match v with
  | VStruct fs _ =>
      match d with
      | DStruct df =>
          forallb (fun f : string * bool * val =>
            match lookup (fst (fst f)) df with Some x => shapes (snd f) x | None => true end) fs
      | _ => false
      end
  | VList _ (Some u) => match d with DList l => forallb (shapes u) l | _ => false end
  | VList _ None => match d with DList _ => true | _ => false end
  | _ => true
  end.

Lemma dehydrate_trims : forall s, simple s = true -> wf s -> live s = true ->
  forall n d, dwf d -> shapes s d = true -> vdepth s < n -> trimmed s d (doDehydrate n s (embed d)).
Proof.
  intros s. induction s as [| |a|t|lo hi|ds IH|es r IHe IHr|fs rest IHf IHr] using val_ind';
    intros SS W L n d D Sh Hn; (destruct n as [|n]; [lia|]);
    try (apply scalar_trimmed; (reflexivity || (destruct a; reflexivity) || (destruct t; reflexivity))).
  - apply scalar_trimmed; [apply shallow_not_list|apply shallow_not_struct]; exact SS.
  - destruct r as [u|].
    + destruct d as [a|l|df]; try discriminate.
      rewrite doDehydrate_list. destruct (isCueValueEqual _ _) eqn:E; [apply trims_equal; exact E|].
      cbn [live] in L. apply andb_true_iff in L as [_ L]. apply andb_true_iff in L as [L1 L2].
      apply negb_true_iff in L1. rewrite L1.
      cbn [simple] in SS. apply andb_true_iff in SS as [_ SU]. apply wf_list in W as [_ WU]. cbn in WU.
      cbn [list_elems default embed fst]. cbn [vdepth] in Hn.
      apply dwf_list in D. cbn [shapes] in Sh. rewrite forallb_forall in Sh. rewrite Forall_forall in D.
      destruct (deh_elems_ok n u l) as [l' [E1 E2]].
      { intros b x Hb Hx. destruct Hb as [->|Hb].
        - apply (IHr SU WU L2); auto. lia.
        - apply expr_in in Hb as [->|[ds [m [-> Hb]]]].
          + apply (IHr SU WU L2); auto. lia.
          + destruct n as [|n]; [lia|]. cbn [simple] in SU. rewrite forallb_forall in SU.
            specialize (SU _ Hb). cbn [snd] in SU. apply scalar_trimmed.
            * apply shallow_not_list. destruct b; try discriminate; reflexivity.
            * apply shallow_not_struct. destruct b; try discriminate; reflexivity. }
      rewrite E1. cbn [bind]. destruct (is_bot_emb l') as [B1 B2]. rewrite B1, B2.
      exists (embed (DList l')), false. split; [reflexivity|]. exists (DList l'). split; [reflexivity|].
      constructor. exact E2.
    + rewrite doDehydrate_closed. destruct (isCueValueEqual _ _) eqn:E; [apply trims_equal; exact E|].
      exists (embed d), false. split; [reflexivity|]. exists d. split; [reflexivity|]. constructor.
  - destruct d as [a|l|df]; try discriminate.
    rewrite doDehydrate_struct. apply wf_struct in W as [N [W _]].
    cbn [simple] in SS. apply andb_true_iff in SS as [SF _]. cbn [live] in L. apply andb_true_iff in L as [LF _].
    rewrite forallb_forall in SF, LF. rewrite Forall_forall in IHf.
    apply dwf_struct in D as [ND D]. rewrite Forall_forall in D.
    cbn [shapes] in Sh. rewrite forallb_forall in Sh.
    destruct (deh_loop n fs df) with (todo := fs) (done := @nil (string * data)) as [done [E1 [E2 [E3 E4]]]].
    + intros f x Hf Hl. apply (IHf f Hf (SF f Hf) (W f Hf) (LF f Hf)).
      * apply (D (flabel f, x)). apply lookup_In. exact Hl.
      * specialize (Sh f Hf). fold (flabel f) in Sh. rewrite Hl in Sh. exact Sh.
      * pose proof (vdepth_field fs rest f Hf) as V. unfold fval in V. lia.
    + intros f Hf. apply field_of_in; assumption.
    + apply incl_refl.
    + exact N.
    + intros k [].
    + intros k d' H. discriminate.
    + intros k d _ _ H1 H2. contradiction.
    + unfold empty_struct. change (VStruct (emb_fields []) (Some VTop)) with (VStruct [] (Some VTop)) in E1.
      rewrite E1. cbn [bind]. rewrite reg_fields_emb, copy_emb.
      2: exact ND.
      2: intros k Hk; left; apply E2; exact Hk.
      exists (embed (DStruct (done ++ others (map flabel fs) df))), false.
      split; [reflexivity|]. eexists. split; [reflexivity|]. constructor.
      * intros k d' H. rewrite lookup_app in H. destruct (lookup k done) as [z|] eqn:Z.
        -- injection H as <-. destruct (E3 k z Z) as [d [H1 [f [H2 H3]]]]. exists d. split; [exact H1|].
           right. exists f. auto.
        -- rewrite lookup_others in H. destruct (mem_str k (map flabel fs)); [discriminate|].
           exists d'. split; [exact H|]. left. reflexivity.
      * intros k d H1 H2. rewrite lookup_app in H2. destruct (lookup k done) as [z|] eqn:Z; [discriminate|].
        rewrite lookup_others in H2. destruct (mem_str k (map flabel fs)) eqn:M.
        -- apply mem_str_in in M. apply (E4 k d H1 Z M).
        -- congruence.
Qed.

Lemma valid_shapes : forall s, simple s = true -> plain_lists s = true -> wf s ->
  forall d r, dwf d -> eval s (Some d) = Con r -> shapes s d = true.
Proof.
  intros s. induction s as [| |a|t|lo hi|ds IH|es o IHe IHr|fs rest IHf IHr] using val_ind';
    intros SS P W d r D E; try reflexivity.
  - destruct d as [a|l|df]; try (destruct o; discriminate).
    destruct o as [u|]; [|reflexivity]. cbn [plain_lists] in P. destruct es as [|e es]; [|discriminate].
    cbn [simple] in SS. apply andb_true_iff in SS as [_ SU]. apply wf_list in W as [_ WU]. cbn in WU.
    rewrite eval_VList in E. cbn [eval_list] in E. apply of_list_con in E as [l' [_ E]].
    cbn [shapes]. apply forallb_forall. intros x Hx.
    assert (Hc : exists y, eval u (Some x) = Con y).
    { assert (In (eval u (Some x)) (map Con l')).
      { rewrite <- E. apply in_map_iff. exists x. auto. }
      apply in_map_iff in H as [y [Hy _]]. exists y. symmetry. exact Hy. }
    destruct Hc as [y Hy]. apply dwf_list in D. rewrite Forall_forall in D.
    apply (IHr SU P WU x y (D x Hx) Hy).
  - destruct d as [a|l|df]; try discriminate. cbn [shapes]. apply forallb_forall. intros f Hf.
    destruct (lookup (fst (fst f)) df) as [x|] eqn:Lx; [|reflexivity].
    cbn [simple plain_lists] in SS, P. apply andb_true_iff in SS as [SF _]. apply andb_true_iff in P as [PF _].
    rewrite forallb_forall in SF, PF. apply wf_struct in W as [N [W _]]. apply dwf_struct in D as [_ D].
    rewrite Forall_forall in D, IHf. apply lookup_In in Lx.
    destruct (valid_parts _ _ _ _ E) as [V1 _]. destruct (V1 _ _ Lx) as [y Hy]. unfold eval_at in Hy.
    fold (flabel f) in Hy. rewrite (field_of_in fs f N Hf) in Hy.
    apply (IHf f Hf (SF f Hf) (PF f Hf) (W f Hf) x y (D _ Lx) Hy).
Qed.

Lemma body_dehydrated : forall s d r, simple s = true -> plain_lists s = true -> live s = true -> wf s -> dwf d ->
  eval s (Some d) = Con r -> forall n, vdepth s < n ->
  exists v eq, doDehydrate n s (embed d) = Ok (v, eq)
    /\ if eq then is_default s d else exists d', v = embed d' /\ trims s d d'.
Proof.
  intros s d r SS P L W D E n Hn. apply (dehydrate_trims s SS W L n d D); [|exact Hn].
  apply (valid_shapes s SS P W d r D E).
Qed.

(** *** Where the two go wrong *)

Definition str (s : string) : val := VAtom (AString s).
Definition def_or (m : val) (t : val) : val := VOr [(true, m); (false, t)].

(** [schema: {a: *"x" | string}] *)
Definition body1 : val := VStruct [("a", false, def_or (str "x") (VType TString))] None.

Lemma hydrate_foreign_fields : forall n, exists v,
  Hydrate (S n) (schema_def 0 0 body1) (embed (DStruct [])) = Ok v
  /\ eval v None = Con (DStruct [("version", version_data 0 0); ("schema", DStruct [("a", DAtom (AString "x"))])]).
Proof.
  intros n. destruct (hydrate_adds n 0 0 body1 []) as [v [E1 E2]]; try (intros []).
  exists v. split; [exact E1|exact E2].
Qed.

(** [schema: {version: string}] *)
Definition body2 : val := VStruct [("version", false, VType TString)] None.

Lemma hydrate_conflict : forall n,
  Hydrate (S (S n)) (schema_def 0 0 body2) (embed (DStruct [("version", DAtom (AString "v1"))])) = Ok VBot.
Proof. intros n. reflexivity. Qed.

(** [schema: {schema: {...}, x: [...int]}] *)
Definition body3 : val :=
  VStruct [("schema", false, VStruct [] (Some VTop)); ("x", false, VList [] (Some (VType TInt)))] None.

Definition data3 : data :=
  DStruct [("schema", DStruct [("x", DAtom (AString "foo"))]); ("x", DList [DAtom (AInt 1)])].

Lemma hydrate_panics : forall n, Hydrate (S (S (S n))) (schema_def 0 0 body3) (embed data3) = Panic.
Proof. intros n. reflexivity. Qed.

(** [schema: {schema: string}] *)
Definition body4 : val := VStruct [("schema", false, VType TString)] None.

Lemma dehydrate_changes : forall n,
  Dehydrate (S (S n)) (schema_def 0 0 body4) (embed (DStruct [("schema", DAtom (AString "foo"))]))
  = Ok (embed (DStruct [("schema", DStruct [])])).
Proof. intros n. reflexivity. Qed.

(** [{a?: *"x" | string}] *)
Definition body5 : val := VStruct [("a", true, def_or (str "x") (VType TString))] None.

Lemma dehydrate_loses : forall n,
  doDehydrate (S (S n)) body5 (embed (DStruct [("a", DAtom (AString "x"))])) = Ok (embed (DStruct []), false).
Proof. intros n. reflexivity. Qed.

(** [{l: [int, ...{a: string}]}] *)
Definition body6 : val :=
  VStruct [("l", false, VList [VType TInt] (Some (VStruct [("a", false, VType TString)] None)))] None.

Lemma dehydrate_prefix : forall n,
  doDehydrate (S (S (S n))) body6 (embed (DStruct [("l", DList [DAtom (AInt 1)])]))
  = Ok (embed (DStruct [("l", DList [DStruct []])]), false).
Proof. intros n. reflexivity. Qed.

Lemma is_default_x : is_default (def_or (str "x") (VType TString)) (DAtom (AString "x")).
Proof. exists (str "x"). split; [reflexivity|]. split; intros x Hx; exact Hx. Qed.
