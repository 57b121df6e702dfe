(** Facts about [doHydrate], [doDehydrate] and their callers. *)
From Verif Require Import Prelude CueFrag CueSem CueProofs Hydrate HydrateSem HydrateProofs.
Local Open Scope string_scope.
Local Open Scope list_scope.

(** *** The loops as functions *)

Fixpoint hyd_fields (n : nat) (fs : list (string * bool * val)) (data : val) : outcome val :=
  match fs with
  | [] => Ok data
  | f :: t =>
      match lookup_field data (flabel f) with
      | Some lv =>
          match doHydrate n lv (fval f) with
          | Ok res => hyd_fields n t (fill data (flabel f) res)
          | Err _ => hyd_fields n t data
          | Panic => Panic
          | OutOfFuel => OutOfFuel
          end
      | None =>
          if fopt f then hyd_fields n t data
          else hyd_fields n t (fill data (flabel f) (fval f))
      end
  end.

Lemma doHydrate_struct : forall n fs rest data,
  doHydrate (S n) (VStruct fs rest) data = hyd_fields n fs data.
Proof.
  intros n fs rest data.
  change ((fix each (fs : list (string * bool * val)) (data : val) : outcome val :=
               match fs with
               | [] => Ok data
               | f :: t =>
                   match lookup_field data (flabel f) with
                   | Some lv =>
                       match doHydrate n lv (fval f) with
                       | Ok res => each t (fill data (flabel f) res)
                       | Err _ => each t data
                       | Panic => Panic
                       | OutOfFuel => OutOfFuel
                       end
                   | None =>
                       if fopt f then each t data
                       else each t (fill data (flabel f) (fval f))
                   end
               end) fs data = hyd_fields n fs data).
  revert data. induction fs as [|f fs IH]; intros data; [reflexivity|].
  cbn [hyd_fields]. destruct (lookup_field data (flabel f)).
  - destruct (doHydrate n v (fval f)); try reflexivity; apply IH.
  - destruct (fopt f); apply IH.
Qed.

Lemma doHydrate_other : forall n sch data, list_kind sch = false -> struct_kind sch = false ->
  doHydrate (S n) sch data = Ok (unify data sch).
Proof. intros n sch data H1 H2. cbn [doHydrate]. rewrite H1, H2. reflexivity. Qed.

(** *** Filling a field of a struct *)

Definition put (k : string) (v : val) (fs : list (string * bool * val)) (rest : option val) :
    list (string * bool * val) :=
  match field_of k fs with
  | Some _ => map (fun f => if String.eqb k (flabel f) then (k, false, unify (fval f) v) else f) fs
  | None => fs ++ [(k, false, match rest with Some u => unify u v | None => VBot end)]
  end.

Lemma fill_put : forall fs rest k v,
  fill (VStruct fs rest) k v = mk_struct (put k v fs rest)
    (match rest with Some u => Some u | None => None end).
Proof.
  intros fs rest k v. unfold fill. rewrite unify_VStruct.
  assert (E : match rest with Some u => Some (unify u VTop) | None => None end
              = match rest with Some u => Some u | None => None end).
  { destruct rest; [rewrite unify_VTop_r|]; reflexivity. }
  rewrite E. f_equal. unfold put.
  assert (L : map (unify_left [(k, false, v)] (Some VTop)) fs
              = map (fun f => if String.eqb k (flabel f) then (k, false, unify (fval f) v) else f) fs).
  { apply map_ext. intros f. unfold unify_left. rewrite field_of_cons. cbn [flabel fst].
    rewrite (String.eqb_sym (flabel f) k). destruct (String.eqb_spec k (flabel f)) as [<-|_].
    - cbn [fopt fval fst snd]. rewrite andb_false_r. reflexivity.
    - cbn. rewrite unify_VTop_r. destruct f; reflexivity. }
  rewrite L. cbn [flat_map]. unfold unify_right. cbn [flabel fst snd fval].
  destruct (field_of k fs) as [f|] eqn:F; [apply app_nil_r|].
  rewrite app_nil_r. f_equal.
  rewrite <- (map_id fs) at 2. apply map_ext_in. intros f Hf.
  destruct (String.eqb_spec k (flabel f)) as [E'|_]; [|reflexivity].
  exfalso. exact (field_of_none k fs F f Hf (eq_sym E')).
Qed.

Lemma mk_struct_ok : forall fs rest, (forall f, In f fs -> fopt f = false -> fval f <> VBot) ->
  mk_struct fs rest = VStruct fs rest.
Proof.
  intros fs rest H. unfold mk_struct. destruct (existsb _ fs) eqn:E; [|reflexivity].
  apply existsb_exists in E as [f [Hf E]]. apply andb_true_iff in E as [E1 E2].
  apply negb_true_iff in E1. specialize (H f Hf E1). destruct (fval f); try discriminate. contradiction.
Qed.

Lemma embed_not_bot : forall d, embed d <> VBot.
Proof. intros []; discriminate. Qed.

Lemma rest_id : forall {A} (o : option A), match o with Some u => Some u | None => None end = o.
Proof. intros A []; reflexivity. Qed.

(** *** What [Instance.Hydrate] does *)

Lemma no_label_field : forall k df, no_label k df -> field_of k (emb_fields df) = None.
Proof.
  intros k df H. apply field_of_notin. unfold emb_fields. rewrite map_map. exact H.
Qed.

Lemma lookup_no : forall k df more, no_label k df -> lookup_field (VStruct (emb_fields df ++ more) (Some VTop)) k
  = lookup_field (VStruct more (Some VTop)) k.
Proof.
  intros k df more H. cbn. rewrite field_of_app, (no_label_field k df H). reflexivity.
Qed.

Definition version_data (a b : Z) : data := DList [DAtom (AInt a); DAtom (AInt b)].

Lemma hydrate_adds : forall n a b body df,
  no_label "version" df -> no_label "schema" df -> no_label "examples" df ->
  exists v, Hydrate (S n) (schema_def a b body) (embed (DStruct df)) = Ok v
    /\ eval v None =
       match eval body None with
       | Bot => Bot
       | Inc => Inc
       | Con x => Con (DStruct (df ++ [("version", version_data a b); ("schema", x)]))
       end.
Proof.
  intros n a b body df H1 H2 H3.
  assert (E : Hydrate (S n) (schema_def a b body) (embed (DStruct df))
            = Ok (mk_struct (emb_fields df ++ [("version", false, embed (version_data a b)); ("schema", false, body)])
                    (Some VTop))).
  { unfold Hydrate, schema_def. rewrite doHydrate_struct. cbn [hyd_fields flabel fopt fval fst snd embed].
    fold (emb_fields df).
    assert (L : forall k, no_label k df -> lookup_field (VStruct (emb_fields df) (Some VTop)) k = None).
    { intros k Hk. cbn. rewrite (no_label_field k df Hk). reflexivity. }
    rewrite (L _ H1), fill_put. unfold put. rewrite (no_label_field _ _ H1).
    rewrite unify_VTop_l.
    rewrite mk_struct_ok.
    2: { intros f Hf _. apply in_app_iff in Hf as [Hf|[<-|[]]]; [|discriminate].
         apply in_map_iff in Hf as [[k x] [<- _]]. apply embed_not_bot. }
    rewrite (lookup_no _ _ _ H2). cbn [lookup_field field_of find flabel fst snd].
    change (String.eqb "schema" "version") with false. cbn iota.
    rewrite fill_put. unfold put. rewrite field_of_app, (no_label_field _ _ H2).
    cbn [field_of find flabel fst snd]. change (String.eqb "schema" "version") with false. cbn iota.
    rewrite unify_VTop_l, <- app_assoc. cbn [app].
    assert (L3 : lookup_field (mk_struct (emb_fields df ++
         [("version", false, VList [VAtom (AInt a); VAtom (AInt b)] None); ("schema", false, body)])
         (Some VTop)) "examples" = None).
    { unfold mk_struct. destruct (existsb _ _); [reflexivity|]. rewrite (lookup_no _ _ _ H3). reflexivity. }
    rewrite L3. reflexivity. }
  exists (mk_struct (emb_fields df ++ [("version", false, embed (version_data a b)); ("schema", false, body)])
                    (Some VTop)).
  split; [exact E|]. rewrite eval_mk_struct. cbn [eval]. rewrite flat_map_app.
  cbn [flat_map fst snd app]. rewrite eval_embed.
  assert (F : flat_map (fun f : string * bool * val => if snd (fst f) then [] else [(fst (fst f), eval (snd f) None)])
                (emb_fields df) = map (fun kx : string * data => (fst kx, Con (snd kx))) df).
  { clear. induction df as [|[k x] df IH]; [reflexivity|]. cbn. rewrite eval_embed. f_equal. exact IH. }
  rewrite F. destruct (eval body None) as [| |x].
  - unfold of_struct. rewrite (all_con_bot _ "schema"); [reflexivity|].
    apply in_app_iff. right. right. left. reflexivity.
  - unfold of_struct. clear. induction df as [|[k x] df IH]; [reflexivity|].
    cbn [map app all_con fst snd] in *. destruct (all_con _) as [[ds|]|]; try discriminate; reflexivity.
  - apply of_struct_con. eexists. split; [reflexivity|]. rewrite map_app. reflexivity.
Qed.

Lemma hydrate_never_valid : forall n a b fs df v x,
  no_label "version" df -> no_label "schema" df -> no_label "examples" df ->
  field_of "version" fs = None ->
  Hydrate (S n) (schema_def a b (VStruct fs None)) (embed (DStruct df)) = Ok v ->
  eval v None = Con x -> ~ valid (VStruct fs None) x.
Proof.
  intros n a b fs df v x H1 H2 H3 HF E Ex [r Hr].
  destruct (hydrate_adds n a b (VStruct fs None) df H1 H2 H3) as [v' [E' Ev]].
  rewrite E in E'. injection E' as <-. rewrite Ex in Ev.
  destruct (eval (VStruct fs None) None) as [| |y]; try discriminate. injection Ev as ->.
  rewrite eval_VStruct in Hr. unfold of_struct in Hr. rewrite (all_con_bot _ "version") in Hr; [discriminate|].
  apply in_app_iff. left. rewrite map_app. apply in_app_iff. right. left. cbn [fst snd].
  unfold eval_at. rewrite HF. reflexivity.
Qed.

(** *** [doHydrate] on a schema body *)

Lemma dwf_list : forall l, dwf (DList l) -> Forall dwf l.
Proof. intros l H. cbn in H. induction l as [|x l IH]; constructor; [apply H|apply IH, H]. Qed.

Lemma dwf_struct : forall l, dwf (DStruct l) -> NoDup (map fst l) /\ Forall (fun kx => dwf (snd kx)) l.
Proof.
  intros l [N H]. split; [exact N|]. clear N.
  induction l as [|x l IH]; constructor; [apply H|apply IH, H].
Qed.

Lemma lookup_in : forall df k x, NoDup (map fst df) -> In (k, x) df -> lookup k df = Some x.
Proof.
  induction df as [|[l y] df IH]; intros k x N H; [contradiction|]. cbn. inversion N; subst.
  destruct H as [H|H].
  - injection H as -> ->. rewrite String.eqb_refl. reflexivity.
  - destruct (String.eqb_spec k l) as [E|E]; [|apply IH; assumption].
    subst l. exfalso. apply H2. apply in_map_iff. exists (k, x). auto.
Qed.

Lemma eval_self : forall d, dwf d -> eval (embed d) (Some d) = Con d.
Proof.
  intros d. induction d as [a|l IH|l IH] using data_ind'; intros W.
  - cbn. rewrite (proj2 (atom_eqb_eq a a) eq_refl). reflexivity.
  - cbn [embed]. rewrite eval_VList. apply dwf_list in W.
    assert (E : eval_list None (map embed l) l = Some (map Con l)).
    { clear - IH W. induction l as [|x l IHl]; [reflexivity|].
      inversion IH; subst. inversion W; subst. cbn [map eval_list]. rewrite IHl, H1 by assumption.
      reflexivity. }
    rewrite E. apply of_list_Con.
  - cbn [embed]. fold (emb_fields l). rewrite eval_VStruct. apply dwf_struct in W as [N W].
    assert (E1 : map (fun kx : string * data => (fst kx, eval_at (emb_fields l) (Some VTop) (fst kx) (snd kx))) l
                 = map (fun kx : string * data => (fst kx, Con (snd kx))) l).
    { apply map_ext_in. intros [k x] Hx. cbn [fst snd]. f_equal. unfold eval_at.
      rewrite field_of_emb, (lookup_in l k x N Hx). cbn [snd].
      rewrite Forall_forall in IH, W. apply (IH (k, x) Hx (W (k, x) Hx)). }
    assert (E2 : flat_map (fun f => if fopt f || has_label (flabel f) l then [] else [(flabel f, eval (snd f) None)])
                   (emb_fields l) = []).
    { assert (G : forall m, incl m l ->
        flat_map (fun f => if fopt f || has_label (flabel f) l then [] else [(flabel f, eval (snd f) None)])
                   (emb_fields m) = []).
      { induction m as [|[k x] m IHm]; intros Hm; [reflexivity|]. cbn [emb_fields map flat_map].
        change (map (fun kx : string * data => (fst kx, false, embed (snd kx))) m) with (emb_fields m).
        rewrite IHm by (intros y Hy; apply Hm; right; exact Hy).
        assert (E : has_label k l = true).
        { apply has_label_in. exists x. apply Hm. left. reflexivity. }
        cbn [flabel fopt fst snd]. rewrite E. reflexivity. }
      apply G. apply incl_refl. }
    rewrite E1, E2, app_nil_r. apply of_struct_Con.
Qed.

Lemma shallow_simple : forall v, shallow v = true -> simple v = true.
Proof. intros v H. destruct v; try discriminate; try reflexivity. exact H. Qed.

Lemma shallow_wf : forall v, shallow v = true -> wf v.
Proof.
  intros v H. destruct v; try discriminate; try exact I. cbn in *.
  induction ds as [|x ds IH]; [exact I|]. cbn in H. apply andb_true_iff in H as [H1 H2].
  split; [destruct (snd x); try discriminate; exact I|apply IH; exact H2].
Qed.

Lemma shallow_not_list : forall v, shallow v = true -> list_kind v = false.
Proof.
  intros v H. destruct v as [| |a|t|lo hi|ds| |]; try discriminate; try reflexivity.
  - destruct a; reflexivity.
  - destruct t; reflexivity.
  - unfold list_kind, k_eqb.
    assert (K : k_list (kind (VOr ds)) = false).
    { cbn in *. induction ds as [|x ds IH]; [reflexivity|]. cbn in H. apply andb_true_iff in H as [H1 H2].
      cbn [fold_right]. cbn. rewrite IH by exact H2.
      destruct (snd x) as [| |a|t| | | |]; try discriminate; try reflexivity;
        [destruct a; reflexivity|destruct t; reflexivity]. }
    rewrite K. cbn. rewrite !andb_false_r. reflexivity.
Qed.

Lemma shallow_not_struct : forall v, shallow v = true -> struct_kind v = false.
Proof.
  intros v H. destruct v as [| |a|t|lo hi|ds| |]; try discriminate; try reflexivity.
  - destruct a; reflexivity.
  - destruct t; reflexivity.
  - unfold struct_kind, k_eqb.
    assert (K : k_struct (kind (VOr ds)) = false).
    { cbn in *. induction ds as [|x ds IH]; [reflexivity|]. cbn in H. apply andb_true_iff in H as [H1 H2].
      cbn [fold_right]. cbn. rewrite IH by exact H2.
      destruct (snd x) as [| |a|t| | | |]; try discriminate; try reflexivity;
        [destruct a; reflexivity|destruct t; reflexivity]. }
    rewrite K. cbn. rewrite !andb_false_r. reflexivity.
Qed.

Lemma mk_or_scalars : forall ds, forallb (fun d : bool * val => scalar_val (snd d)) ds = true ->
  shallow (mk_or ds) = true.
Proof.
  intros ds H. unfold mk_or.
  assert (F : forallb (fun d : bool * val => scalar_val (snd d))
                (filter (fun d : bool * val => negb (is_bot (snd d))) ds) = true).
  { rewrite forallb_forall in *. intros x Hx. apply filter_In in Hx. apply H. tauto. }
  destruct (filter _ ds) as [|x [|y l]]; [reflexivity| |exact F].
  cbn in F. rewrite andb_true_r in F. destruct (snd x); try discriminate; reflexivity.
Qed.

Lemma scalar_unify : forall x y, scalar_val x = true -> scalar_val y = true -> scalar_val (unify x y) = true.
Proof.
  intros x y Hx Hy.
  destruct x as [| |x|t|lo hi| | |], y as [| |y|t'|lo' hi'| | |]; try discriminate; try reflexivity.
  - assert (E : unify (VAtom x) (VAtom y) = if atom_eqb x y then VAtom x else VBot)
      by (destruct x; reflexivity).
    rewrite E. destruct (atom_eqb x y); reflexivity.
  - assert (E : unify (VAtom x) (VType t') = if type_has t' x then VAtom x else VBot)
      by (destruct x; reflexivity).
    rewrite E. destruct (type_has t' x); reflexivity.
  - destruct x; cbn; try reflexivity. destruct (in_lo lo' z && in_hi hi' z); reflexivity.
  - cbn. destruct (type_has t y); reflexivity.
  - destruct t, t'; reflexivity.
  - destruct t; reflexivity.
  - destruct y; cbn; try reflexivity. destruct (in_lo lo z && in_hi hi z); reflexivity.
  - destruct t'; reflexivity.
  - cbn. unfold mk_range. destruct (zmax lo lo') as [l|], (zmin hi hi') as [h|]; try reflexivity.
    destruct (h <? l)%Z; [reflexivity|]. destruct (l =? h)%Z; reflexivity.
Qed.

Lemma shallow_unify : forall u w, shallow u = true -> shallow w = true -> shallow (unify u w) = true.
Proof.
  intros u w Hu Hw.
  destruct (is_or u) eqn:Ou, (is_or w) eqn:Ow.
  - destruct u as [| | | | |xs| |]; try discriminate. destruct w as [| | | | |ys| |]; try discriminate.
    cbn [unify]. apply mk_or_scalars. cbn [shallow] in Hu, Hw. rewrite forallb_forall in *.
    intros z Hz. apply in_flat_map in Hz as [x [Hx Hz]]. apply in_map_iff in Hz as [y [<- Hy]].
    apply scalar_unify; [apply Hu|apply Hw]; assumption.
  - destruct u as [| | | | |xs| |]; try discriminate.
    destruct w; try discriminate; try exact Hu; try reflexivity;
      rewrite unify_or_l by (reflexivity || discriminate); apply mk_or_scalars;
      cbn [shallow] in Hu; rewrite forallb_forall in *; intros z Hz;
      apply in_map_iff in Hz as [x [<- Hx]]; apply scalar_unify; try reflexivity; apply Hu; assumption.
  - destruct w as [| | | | |ys| |]; try discriminate.
    destruct u; try discriminate; try exact Hw; try reflexivity;
      rewrite unify_or_r by (reflexivity || discriminate); apply mk_or_scalars;
      cbn [shallow] in Hw; rewrite forallb_forall in *; intros z Hz;
      apply in_map_iff in Hz as [x [<- Hx]]; apply scalar_unify; try reflexivity; apply Hw; assumption.
  - destruct u; try discriminate; destruct w; try discriminate; try reflexivity;
      (rewrite ?unify_VTop_r, ?unify_VTop_l; reflexivity) ||
      (match goal with |- shallow (unify ?a ?b) = true =>
         pose proof (scalar_unify a b eq_refl eq_refl) as S; destruct (unify a b); try discriminate; reflexivity end).
Qed.

(** For these values validating leaves the data alone. *)
Lemma shallow_eval : forall v d r, shallow v = true -> eval v (Some d) = Con r ->
  r = d /\ inst v d = true /\ (v = VTop \/ exists a, d = DAtom a).
Proof.
  intros v d r S E.
  destruct v as [| |a|t|lo hi|ds| |]; try discriminate.
  - cbn in E. injection E as <-. auto.
  - destruct (scalar_eval (VAtom a) d eq_refl) as [X|[X [Y Z]]]; rewrite E in X; [discriminate|].
    injection X as ->. auto.
  - destruct (scalar_eval (VType t) d eq_refl) as [X|[X [Y Z]]]; rewrite E in X; [discriminate|].
    injection X as ->. auto.
  - destruct (scalar_eval (VRange lo hi) d eq_refl) as [X|[X [Y Z]]]; rewrite E in X; [discriminate|].
    injection X as ->. auto.
  - cbn [eval] in E. apply pick_con in E as [m H]. apply in_map_iff in H as [x [H Hx]].
    injection H as _ H. cbn [shallow] in S. rewrite forallb_forall in S.
    destruct (scalar_eval (snd x) d (S x Hx)) as [X|[X [Y Z]]]; rewrite H in X; [discriminate|].
    injection X as ->. split; [reflexivity|]. split; [|right; exact Z].
    cbn [inst]. apply existsb_exists. exists x. auto.
Qed.

Lemma shallow_both : forall u w d, shallow u = true -> shallow w = true ->
  inst u d = true -> inst w d = true -> eval (unify u w) (Some d) = Con d.
Proof.
  intros u w d Su Sw Hu Hw. apply inst_eval.
  - apply shallow_simple, shallow_unify; assumption.
  - rewrite inst_unify by (apply shallow_wf; assumption). rewrite Hu, Hw. reflexivity.
Qed.

Lemma field_of_put : forall k' k v fs rest,
  field_of k' (put k v fs rest) =
  if String.eqb k' k then
    Some (k, false, match field_of k fs with
                    | Some f => unify (fval f) v
                    | None => match rest with Some u => unify u v | None => VBot end
                    end)
  else field_of k' fs.
Proof.
  intros k' k v fs rest. unfold put. destruct (field_of k fs) as [f|] eqn:F.
  - rewrite field_of_map.
    2: { intros g. destruct (String.eqb_spec k (flabel g)); [subst; reflexivity|reflexivity]. }
    destruct (String.eqb_spec k' k) as [E|E].
    + subst k'. rewrite F. rewrite (field_of_label k fs f F), String.eqb_refl. reflexivity.
    + destruct (field_of k' fs) as [g|] eqn:G; [|reflexivity].
      rewrite (field_of_label k' fs g G).
      destruct (String.eqb_spec k k') as [E'|_]; [congruence|reflexivity].
  - rewrite field_of_app. destruct (String.eqb_spec k' k) as [E|E].
    + subst k'. rewrite F, field_of_cons. cbn [flabel fst]. rewrite String.eqb_refl. reflexivity.
    + destruct (field_of k' fs); [reflexivity|]. rewrite field_of_cons. cbn [flabel fst].
      destruct (String.eqb_spec k' k); [contradiction|reflexivity].
Qed.

Definition missing (df : list (string * data)) (fs : list (string * bool * val)) : list (string * res) :=
  flat_map (fun f => if fopt f || has_label (flabel f) df then [] else [(flabel f, eval (fval f) None)]) fs.

Lemma missing_put : forall df k v fs rest, has_label k df = true ->
  missing df (put k v fs rest) = missing df fs.
Proof.
  intros df k v fs rest H. unfold put. destruct (field_of k fs).
  - unfold missing. clear p. induction fs as [|f fs IH]; [reflexivity|]. cbn [map flat_map]. rewrite IH. f_equal.
    destruct (String.eqb_spec k (flabel f)) as [E|E]; [|reflexivity].
    subst k. cbn [fopt flabel fst snd]. fold (flabel f). rewrite H, !orb_true_r. reflexivity.
  - unfold missing. rewrite flat_map_app. cbn [flat_map fopt flabel fst snd]. rewrite H.
    cbn. apply app_nil_r.
Qed.

Lemma eval_VStruct' : forall fs rest df,
  eval (VStruct fs rest) (Some (DStruct df)) =
  of_struct (map (fun kx => (fst kx, eval_at fs rest (fst kx) (snd kx))) df ++ missing df fs).
Proof. exact eval_VStruct. Qed.

Definition regular_ok (fs : list (string * bool * val)) : Prop :=
  forall f, In f fs -> fopt f = false -> fval f <> VBot.

Lemma regular_put : forall k v fs rest, regular_ok fs ->
  (forall f, In f fs -> flabel f = k -> unify (fval f) v <> VBot) ->
  (field_of k fs = None -> match rest with Some u => unify u v | None => VBot end <> VBot) ->
  regular_ok (put k v fs rest).
Proof.
  intros k v fs rest R H1 H2 f Hf Of. unfold put in Hf. destruct (field_of k fs) as [g|] eqn:F.
  - apply in_map_iff in Hf as [h [<- Hh]]. destruct (String.eqb_spec k (flabel h)) as [E|E].
    + apply H1; auto.
    + apply R; assumption.
  - apply in_app_iff in Hf as [Hf|[<-|[]]]; [apply R; assumption|]. apply H2. reflexivity.
Qed.

Lemma valid_parts : forall fs rest df r,
  eval (VStruct fs rest) (Some (DStruct df)) = Con r ->
  (forall k x, In (k, x) df -> exists y, eval_at fs rest k x = Con y)
  /\ (forall f, In f fs -> fopt f = false -> has_label (flabel f) df = false ->
        exists y, eval (fval f) None = Con y).
Proof.
  intros fs rest df r H. rewrite eval_VStruct' in H. apply of_struct_con in H as [ds [_ H]].
  assert (A : forall k z, In (k, z) (map (fun kx => (fst kx, eval_at fs rest (fst kx) (snd kx))) df ++ missing df fs)
              -> exists y, z = Con y).
  { rewrite H. intros k z Hz. apply in_map_iff in Hz as [y [E _]]. injection E as _ <-. eauto. }
  split.
  - intros k x Hx. apply (A k). apply in_app_iff. left. apply in_map_iff. exists (k, x). auto.
  - intros f Hf Of Hl. apply (A (flabel f)). apply in_app_iff. right. unfold missing. apply in_flat_map.
    exists f. split; [exact Hf|]. rewrite Of, Hl. left. reflexivity.
Qed.

Lemma valid_regular : forall fs rest df r, NoDup (map flabel fs) ->
  eval (VStruct fs rest) (Some (DStruct df)) = Con r -> regular_ok fs.
Proof.
  intros fs rest df r N H f Hf Of B. apply valid_parts in H as [H1 H2].
  destruct (has_label (flabel f) df) eqn:E.
  - apply has_label_in in E as [x Hx]. apply H1 in Hx as [y Hy]. unfold eval_at in Hy.
    rewrite (field_of_in fs f N Hf) in Hy. unfold fval in B. rewrite B in Hy. discriminate.
  - destruct (H2 f Hf Of E) as [y Hy]. rewrite B in Hy. discriminate.
Qed.

Lemma hyd_shallow : forall n v x, shallow v = true ->
  doHydrate (S n) v (embed x) = Ok (unify (embed x) v).
Proof.
  intros n v x H. apply doHydrate_other; [apply shallow_not_list|apply shallow_not_struct]; exact H.
Qed.

(** What filling does to one field: the value admits the data and nothing else
    happens to it. *)
Lemma shallow_fill : forall v x, shallow v = true -> dwf x -> inst v x = true ->
  (v = VTop \/ exists a, x = DAtom a) ->
  eval (unify v (embed x)) (Some x) = Con x
  /\ eval (unify v (unify (embed x) v)) (Some x) = Con x.
Proof.
  intros v x S W I [->|[a ->]].
  - rewrite unify_VTop_l, unify_VTop_r, unify_VTop_l. split; apply eval_self; exact W.
  - assert (Ia : inst (embed (DAtom a)) (DAtom a) = true) by (cbn; apply atom_eqb_eq; reflexivity).
    split.
    + apply shallow_both; auto.
    + apply shallow_both; auto.
      * apply shallow_unify; [reflexivity|exact S].
      * rewrite inst_unify; [|exact Logic.I|apply shallow_wf; exact S]. rewrite Ia, I. reflexivity.
Qed.

Lemma con_not_bot : forall v o r, eval v o = Con r -> v <> VBot.
Proof. intros v o r H E. subst v. discriminate. Qed.

Definition entry (f : string * bool * val) : string * res := (flabel f, eval (fval f) None).
