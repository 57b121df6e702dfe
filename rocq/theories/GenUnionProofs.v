(** Proofs about GenFile.v and GenUnionSpec.v. *)
From Verif Require Import Prelude Strings Gocode GocodeProofs GocodeFacts Version Util UtilProofs GenName GenNameProofs GenSpellProofs
  GenCommentProofs GenType GenTypeSpec GenTypeProofs GenDeclProofs GenTypeFacts GoJson GoJsonSpec GoJsonProofs GoJsonFacts
  GenFile GenUnionSpec.
Local Open Scope string_scope.
Local Open Scope list_scope.
Local Notation decl := GenTypeSpec.decl.

(** *** Types *)

Section Types.
Variable u : unicode.
Variable env : string -> schema.
Variable np : bool.
Variable ex : list string.
Let env' := blur_env env.
Let fn := withoutRawData ex.
Hypothesis HB : forall n, In n builtins -> mem n ex = false.

Lemma blur_eq b ps it ad al an on :
  blur env (Sch b ps it ad al an on) =
  if is_union (Sch b ps it ad al an on) then any_of b
  else Sch b (map (fun p => (fst p, blur_ref env (snd p))) ps)
         (match it with Some r => Some (blur_ref env r) | None => None end)
         (match ad with Some r => Some (blur_ref env r) | None => None end) al (hollow an) (hollow on).
Proof. reflexivity. Qed.
Lemma hollow_list o : has_list (hollow o) = has_list o.
Proof. destruct o; reflexivity. Qed.
Lemma hollow_elements o : elements (hollow o) = [].
Proof. destruct o; reflexivity. Qed.

(** What a base says about a field. *)
Definition flags (b : base) := (b_desc b, b_deprecated b, b_nullable b, b_readonly b, b_writeonly b).
Lemma blur_flags s : flags (s_base (blur env s)) = flags (s_base s).
Proof. destruct s as [b ps it ad al an on]. rewrite blur_eq. destruct (is_union _); reflexivity. Qed.
Lemma blur_inl s : blur_ref env (Inl s) = Inl (blur env s).
Proof. reflexivity. Qed.
Lemma blur_q q : blur_ref env (Ref q) = if is_union (env q) then Inl (any_of (s_base (env q))) else Ref q.
Proof. reflexivity. Qed.
Lemma value_flags r : flags (s_base (value env' (blur_ref env r))) = flags (s_base (value env r)).
Proof.
  destruct r as [q|s]; [rewrite blur_q|rewrite blur_inl]; cbn [value].
  - destruct (is_union (env q)); [reflexivity|apply blur_flags].
  - apply blur_flags.
Qed.
Lemma union_obj s : is_union s = true -> objectlike (s_base s) = true.
Proof. unfold is_union. intros H. apply andb_true_iff in H. tauto. Qed.
Lemma skips_obj s : objectlike (s_base s) = true -> skips (Inl s) = false.
Proof.
  unfold objectlike. cbn [skips]. intros H. destruct (String.eqb_spec (b_type (s_base s)) "string") as [E|E]; [|reflexivity].
  rewrite E in H. discriminate.
Qed.
Lemma skips_blur r : skips (blur_ref env r) = skips r.
Proof.
  destruct r as [q|s]; [rewrite blur_q; destruct (is_union (env q)); reflexivity|]. rewrite blur_inl.
  destruct s as [b ps it ad al an on]. rewrite blur_eq. destruct (is_union (Sch b ps it ad al an on)) eqn:U; [|reflexivity].
  symmetry. apply skips_obj, union_obj, U.
Qed.
Lemma field_blur req n r t : field_of u env' req n (blur_ref env r) t = field_of u env req n r t.
Proof.
  unfold field_of, is_optional, json_tag. pose proof (value_flags r) as F. unfold flags in F. injection F as F1 F2 F3 F4 F5.
  rewrite F1, F2, F3, F4, F5, skips_blur. reflexivity.
Qed.

(** A schema that is no union keeps its kind. *)
Lemma used_q e path sfx q : used u e path sfx (Ref q) = GId (ref_name u q).
Proof. reflexivity. Qed.
Lemma used_inl e path sfx s : used u e path sfx (Inl s) =
  if enumlike (s_base s) && Nat.ltb 1 (length path) then GId (enum_name u path)
  else if owned (Inl s) then GId (pathToTypeName u (path ++ sfx)) else body u e path s.
Proof. reflexivity. Qed.
Lemma used_any e path sfx b : used u e path sfx (Inl (any_of b)) = GId "any".
Proof. reflexivity. Qed.
Lemma nonempty_map {A B} (f : A -> B) l : nonempty (map f l) = nonempty l.
Proof. destruct l; reflexivity. Qed.
Lemma blur_base s : is_union s = false -> s_base (blur env s) = s_base s.
Proof. destruct s as [b ps it ad al an on]. rewrite blur_eq. intros ->. reflexivity. Qed.
Lemma blur_owned s : is_union s = false -> owned (Inl (blur env s)) = owned (Inl s).
Proof.
  destruct s as [b ps it ad al an on]. rewrite blur_eq. intros U. rewrite U. unfold is_union, union_of in U.
  cbn [owned]. unfold structlike, more_of, union_of. cbn [s_base s_props s_anyOf s_oneOf s_addl] in *.
  rewrite nonempty_map, !hollow_list, !hollow_elements. destruct (objectlike b); [|reflexivity]. cbn [andb] in U. rewrite U.
  destruct ad; reflexivity.
Qed.
Lemma used_blur path sfx s : is_union s = false ->
  body u env' path (blur env s) = body u env path s ->
  used u env' path sfx (blur_ref env (Inl s)) = used u env path sfx (Inl s).
Proof. intros U E. rewrite blur_inl, !used_inl, (blur_base s U), (blur_owned s U), E. reflexivity. Qed.

Lemma within_union s : within env s = false -> is_union s = false.
Proof.
  destruct s as [b ps it ad al an on]. unfold is_union, union_of. cbn [within s_base s_anyOf s_oneOf].
  destruct (objectlike b); [|reflexivity]. intros W.
  apply orb_false_iff in W. destruct W as [W _]. apply orb_false_iff in W. tauto.
Qed.
Lemma within_props (ps : list (string * sref)) p : existsb (fun p => within_ref env (snd p)) ps = false -> In p ps -> within_ref env (snd p) = false.
Proof.
  intros W I. destruct (within_ref env (snd p)) eqn:Q; [|reflexivity].
  assert (E : existsb (fun p => within_ref env (snd p)) ps = true) by (apply existsb_exists; eauto). congruence.
Qed.

(** The fields of a struct. *)
Lemma fields_blur req path (ps : list (string * sref)) (T : forall p, In p ps ->
    used u env' (path ++ [fst p]) [] (blur_ref env (snd p)) = used u env (path ++ [fst p]) [] (snd p)) :
  map snd (by_key (map (fun p => (fst p, field_of u env' req (fst p) (snd p) (used u env' (path ++ [fst p]) [] (snd p))))
    (map (fun p => (fst p, blur_ref env (snd p))) ps)))
  = map snd (by_key (map (fun p => (fst p, field_of u env req (fst p) (snd p) (used u env (path ++ [fst p]) [] (snd p)))) ps)).
Proof.
  rewrite map_map. cbn [fst snd].
  rewrite (by_key_map (fun p => field_of u env' req (fst p) (blur_ref env (snd p)) (used u env' (path ++ [fst p]) [] (blur_ref env (snd p))))).
  rewrite (by_key_map (fun p => field_of u env req (fst p) (snd p) (used u env (path ++ [fst p]) [] (snd p)))).
  rewrite !map_map. cbn [snd]. apply map_ext_in. intros p I. rewrite by_key_in in I. rewrite field_blur, (T p I). reflexivity.
Qed.

(** Without unions nothing changes. *)
Lemma clean n : forall r, depth_ref r <= n -> within_ref env r = false ->
  forall path sfx, used u env' path sfx (blur_ref env r) = used u env path sfx r.
Proof.
  induction n as [|n IH]; intros r D W path sfx; [pose proof (depth_pos r); lia|].
  destruct r as [q|s]; cbn [within_ref] in W.
  { rewrite blur_q, W. reflexivity. }
  pose proof (within_union s W) as U. apply (used_blur path sfx s U).
  destruct s as [b ps it ad al an on]. cbn [depth_ref depth] in D. cbn [within] in W.
  rewrite blur_eq, U, !body_eq. destruct (objectlike b) eqn:O.
  - apply orb_false_iff in W. destruct W as [W WA]. apply orb_false_iff in W. destruct W as [WU WP].
    rewrite nonempty_map, !hollow_list, !hollow_elements, WU, fields_blur. cbn [app nonempty].
    2:{ intros p I. pose proof (depth_props ps p I). apply IH; [lia|apply (within_props ps); assumption]. }
    destruct ad as [r|]; [|reflexivity]. rewrite IH; [reflexivity|lia|exact WA].
  - destruct (arraylike b); [|reflexivity]. destruct it as [r|]; [|reflexivity]. rewrite IH; [reflexivity|lia|exact W].
Qed.

(** *** The pass *)

Definition raw (t : gty) : bool := match t with GStruct [] None true => true | _ => false end.

(** Whether a name is that of a union. *)
Definition fate (un : bool) (n : string) : Prop :=
  if un then mem n ex = true /\ go_of (GId n) = TIdent n else mem n ex = false.
Lemma fate_pass un n pl : fate un n -> iterate fn pl (go_of (GId n)) = go_of (GId (if un then "any" else n)).
Proof.
  destruct un; cbn [fate].
  - intros [M E]. rewrite E. cbn [iterate]. unfold fn, withoutRawData. rewrite M. reflexivity.
  - intros M. destruct (id_form n) as [[x [s E]]|E]; rewrite E; cbn [iterate]; [reflexivity|].
    unfold fn, withoutRawData. rewrite M. reflexivity.
Qed.
Lemma builtin_pass n pl : In n builtins -> iterate fn pl (go_of (GId n)) = go_of (GId n).
Proof. intros I. apply (fate_pass false). cbn [fate]. apply HB, I. Qed.

Lemma raw_body path s inside sp : fits env inside sp s -> raw (body u env path s) = is_union s.
Proof.
  destruct s as [b ps it ad al an on]. rewrite body_eq. cbn [fits].
  unfold is_union, union_of. cbn [s_base s_anyOf s_oneOf]. destruct (objectlike b); cbn [andb].
  - destruct (nonempty (elements an ++ elements on)) eqn:N.
    + intros [-> [-> [-> _]]]. cbn [orb nonempty].
      assert (L : has_list an || has_list on = true).
      { destruct an; [reflexivity|]. destruct on; [reflexivity|discriminate]. }
      rewrite L. cbn [map by_key fold_right raw]. reflexivity.
    + intros _. destruct (nonempty ps || has_list an || has_list on).
      * cbn [raw]. destruct (map snd _); [|reflexivity]. destruct (if b_has b || _ then _ else _); reflexivity.
      * destruct (b_has b || _); [reflexivity|]. destruct (String.eqb (b_type b) "object"); reflexivity.
  - intros _. destruct (arraylike b); [reflexivity|]. destruct (scalar (b_type b) (b_format b)) as [g|] eqn:E; [|reflexivity].
    pose proof (scalar_methods _ _ _ E) as M. destruct g; try reflexivity. cbn [methods] in M. injection M as _ ->.
    cbn [raw]. destruct fs; [destruct addl|]; reflexivity.
Qed.

Definition at_place (sp : spot) (pl : place) : Prop :=
  match sp with Field => pl = PTop \/ pl = PField | Elem => pl = PElt | Value => pl = PVal end.

(** No pointer is written for a schema. *)
Definition not_ptr (t : gty) : bool := match t with GPtr _ => false | _ => true end.
Lemma scalar_not_ptr t f g : scalar t f = Some g -> not_ptr g = true.
Proof.
  unfold scalar, formats. intros H.
  repeat match type of H with context [if ?c then _ else _] => destruct c; cbn [map lookup] in H end;
    try discriminate; injection H as <-; reflexivity.
Qed.
Lemma body_not_ptr e path s : not_ptr (body u e path s) = true.
Proof.
  destruct s as [b ps it ad al an on]. rewrite body_eq. destruct (objectlike b).
  - destruct (nonempty ps || _ || _); [reflexivity|]. destruct (b_has b || _); [reflexivity|]. destruct (String.eqb _ _); reflexivity.
  - destruct (arraylike b); [reflexivity|]. destruct (scalar _ _) eqn:E; [|reflexivity]. apply (scalar_not_ptr _ _ _ E).
Qed.
Lemma used_not_ptr e path sfx r : not_ptr (used u e path sfx r) = true.
Proof.
  destruct r as [q|s]; [reflexivity|]. rewrite used_inl. destruct (_ && _); [reflexivity|]. destruct (owned _); [reflexivity|].
  apply body_not_ptr.
Qed.

(** A field, with or without a pointer. *)
Lemma field_pass_eq (opt : bool) t t' : not_ptr t = true ->
  iterate fn PTop (go_of t) = go_of t' ->
  iterate fn PField (go_of t) = go_of t' ->
  iterate fn PField (go_of (unptr_field np (if opt then GPtr t else t))) = go_of (unptr_field np (if opt then GPtr t' else t')).
Proof.
  intros N E EF. destruct opt.
  - cbn [unptr_field]. destruct np; [exact EF|].
    assert (X : iterate fn PField (go_of (GPtr t)) = go_of (GPtr t')) by (cbn [go_of iterate]; rewrite E; reflexivity).
    destruct t as [n|n t|t|t|t|fs a un]; try discriminate.
    + cbn [go_of] in *. destruct t' as [m|m t'|t'|t'|t'|fs' a' un']; try exact X.
      * destruct (split_str n ".") as [|x [|y [|z r]]]; discriminate.
      * destruct (split_str n ".") as [|x [|y [|z r]]]; discriminate.
    + cbn [go_of] in *. destruct t' as [m|m t'|t'|t'|t'|fs' a' un']; try exact X.
      * destruct (split_str n ".") as [|x [|y [|z r]]]; discriminate.
      * destruct (split_str n ".") as [|x [|y [|z r]]]; discriminate.
    + destruct t' as [m|m t'|t'|t'|t'|fs' a' un']; try discriminate; try exact EF;
        cbn [go_of iterate] in E; destruct (split_str m ".") as [|x [|y [|z r]]]; discriminate.
    + destruct t' as [m|m t'|t'|t'|t'|fs' a' un']; try discriminate; try exact EF;
        cbn [go_of iterate] in E; destruct (split_str m ".") as [|x [|y [|z r]]]; discriminate.
    + destruct t' as [m|m t'|t'|t'|t'|fs' a' un']; try discriminate; exact X.
  - assert (X : forall g, not_ptr g = true -> unptr_field np g = g) by (intros [| | | | |]; intros; try discriminate; reflexivity).
    rewrite (X t N), X; [exact EF|]. destruct t' as [| | | | |]; try reflexivity.
    destruct t as [n|n t| | | |]; try discriminate; cbn [go_of iterate] in EF; destruct (split_str n ".") as [|x [|y [|z r]]]; discriminate.
Qed.

Lemma unptr_not_ptr t : not_ptr (unptr np t) = not_ptr t.
Proof. destruct t; reflexivity. Qed.
Lemma unptr_opt (o : bool) t : unptr np (if o then GPtr t else t) = if o then GPtr (unptr np t) else unptr np t.
Proof. destruct o; reflexivity. Qed.

Lemma scalar_pass t f g pl : scalar t f = Some g -> iterate fn pl (go_of (unptr np g)) = go_of (unptr np g).
Proof.
  intros E. assert (X : (exists n, g = GId n /\ In n builtins) \/ g = GSlice (GId "byte")).
  { unfold scalar, formats in E.
    repeat match type of E with context [if ?c then _ else _] => destruct c; cbn [map lookup] in E end;
    try discriminate; injection E as <-; try (right; reflexivity); left; eexists; (split; [reflexivity|]); cbn; tauto. }
  destruct X as [[n [-> I]]| ->]; [apply builtin_pass, I|]. cbn [unptr go_of iterate].
  pose proof (builtin_pass "byte" PElt ltac:(cbn; tauto)) as X. cbn [go_of] in X. rewrite X. reflexivity.
Qed.
Lemma any_pass pl : iterate fn pl (go_of (unptr np (GId "any"))) = go_of (unptr np (GId "any")).
Proof. apply builtin_pass. cbn. tauto. Qed.

Definition defs_fate (ds : list decl) : Prop := forall d, In d ds -> fate (raw (dty d)) (dname d).
Definition refs_fate (rs : list string) : Prop := forall q, In q rs -> fate (is_union (env q)) (ref_name u q).
Lemma fate_incl ds ds' : defs_fate ds -> incl ds' ds -> defs_fate ds'.
Proof. intros H I d J. apply H, I, J. Qed.
Lemma fate_last ds d : defs_fate (ds ++ [d]) -> fate (raw (dty d)) (dname d).
Proof. intros H. apply H, in_app_iff. right. left. reflexivity. Qed.
Lemma fate_refs rs rs' : refs_fate rs -> incl rs' rs -> refs_fate rs'.
Proof. intros H I d J. apply H, I, J. Qed.

Definition passes_use (r : sref) : Prop := forall inside sp pl path sfx, fits_ref env inside sp r -> at_place sp pl ->
  defs_fate (defs u env (negb inside) path sfx r) -> refs_fate (refs_ref r) ->
  iterate fn pl (go_of (unptr np (used u env path sfx r))) = go_of (unptr np (used u env' path sfx (blur_ref env r))).

Lemma go_struct fs a un : go_of (unptr np (GStruct fs a un)) =
  TStruct (map (fun f => ([f_name (fst f)], go_of (unptr_field np (unptr np (snd f))))) fs
    ++ match a with Some t => [(["AdditionalProperties"], TMap (TIdent "string") (go_of (unptr np t)))] | None => [] end
    ++ (if un then [(["union"], TSel "json" "RawMessage")] else [])).
Proof. cbn [unptr go_of]. rewrite map_map. destruct a; reflexivity. Qed.

Lemma body_pass b ps it ad al an on
  (USE : forall r, (exists k, In (k, r) ps) \/ it = Some r \/ ad = Some r -> passes_use r) :
  let s := Sch b ps it ad al an on in is_union s = false -> forall inside sp pl path, simple s -> fits env inside sp s -> at_place sp pl ->
  (sp = Value -> structlike s = true -> more_of s = false) ->
  defs_fate (defs_in u env (negb inside) path s) -> refs_fate (refs s) ->
  iterate fn pl (go_of (unptr np (body u env path s))) = go_of (unptr np (body u env' path (blur env s))).
Proof.
  intros s U inside sp pl path S0 F P V HD HR. subst s.
  cbn [refs] in HR. rewrite defs_in_eq in HD.
  rewrite blur_eq, U, !body_eq. unfold is_union, union_of in U. cbn [s_base s_anyOf s_oneOf] in U.
  cbn [fits] in F. destruct (objectlike b) eqn:O; cbn [andb] in U.
  - rewrite U in F. destruct F as [FI [FV [FE [FP0 FA]]]]. pose proof (proj1 (fits_props env inside ps) FP0) as FP.
    assert (SL : structlike (Sch b ps it ad al an on) = nonempty ps || has_list an || has_list on).
    { unfold structlike. cbn [s_base s_props s_anyOf s_oneOf]. rewrite O. reflexivity. }
    rewrite SL in FV, FE, V. unfold more_of in FV, V. cbn [s_base s_addl] in FV, V.
    assert (HDP : forall p, In p ps -> defs_fate (defs u env (negb inside) (path ++ [fst p]) [] (snd p))).
    { intros p I. destruct inside; cbn [negb] in *.
      - destruct (needs_nothing u env (depth_ref (snd p)) (snd p) (le_n _) (FI eq_refl p I)) as [Z _]. rewrite Z. intros d [].
      - apply (fate_incl _ _ HD). intros d J. rewrite !in_app_iff. left.
        apply (in_by_key_flat (fun p => defs u env true (path ++ [fst p]) [] (snd p)) ps p d I J). }
    assert (HRP : forall p, In p ps -> refs_fate (refs_ref (snd p))).
    { intros p I. apply (fate_refs _ _ HR). intros q J. rewrite !in_app_iff. left. apply in_flat_map. eauto. }
    assert (ELEM : forall q, at_place Value q ->
      iterate fn q (go_of (unptr np (match ad with None => GId "any" | Some r => used u env path ["AdditionalProperties"] r end)))
      = go_of (unptr np (match match ad with Some r => Some (blur_ref env r) | None => None end with
                         | None => GId "any" | Some r => used u env' path ["AdditionalProperties"] r end))).
    { intros q Q. destruct ad as [r|]; [|apply any_pass]. apply (USE r ltac:(tauto) true Value q); auto.
      - apply (fate_incl _ _ HD). intros d J. rewrite !in_app_iff. right. left. exact J.
      - apply (fate_refs _ _ HR). intros x J. rewrite !in_app_iff. tauto. }
    rewrite nonempty_map, !hollow_list, !hollow_elements. cbn [app nonempty].
    assert (HASE : match match ad with Some r => Some (blur_ref env r) | None => None end with Some _ => true | None => false end
                   = match ad with Some _ => true | None => false end) by (destruct ad; reflexivity).
    rewrite HASE. destruct (nonempty ps || has_list an || has_list on) eqn:ST.
    + (* struct *)
      destruct sp.
      * rewrite !go_struct, U, !app_nil_r.
        assert (IT : forall fs, iterate fn pl (TStruct fs) = TStruct (map (fun f => (fst f, iterate fn PField (snd f))) fs)).
        { intros fs. destruct P as [->| ->]; reflexivity. }
        rewrite IT, map_app. do 2 f_equal.
        -- rewrite !map_map. cbn [fst snd].
           rewrite (by_key_map (fun p => field_of u env (b_required b) (fst p) (snd p) (used u env (path ++ [fst p]) [] (snd p)))).
           rewrite (by_key_map (fun p => field_of u env' (b_required b) (fst p) (blur_ref env (snd p)) (used u env' (path ++ [fst p]) [] (blur_ref env (snd p))))).
           rewrite !map_map. cbn [snd]. apply map_ext_in. intros [k r] I. rewrite by_key_in in I. cbn [fst snd].
           rewrite field_blur. unfold field_of. cbn [fst snd]. f_equal. rewrite !unptr_opt.
           pose proof (USE r ltac:(left; eauto)) as X.
           pose proof (FP _ I) as X1. pose proof (HDP _ I) as X2. pose proof (HRP _ I) as X3. cbn [fst snd] in X1, X2, X3.
           apply field_pass_eq; [rewrite unptr_not_ptr; apply used_not_ptr| |].
           ++ apply (X inside Field PTop); cbn; auto.
           ++ apply (X inside Field PField); cbn; auto.
        -- destruct (b_has b || _); [|reflexivity]. cbn [map fst snd iterate]. rewrite ELEM; reflexivity.
      * rewrite !go_struct, U, !app_nil_r. cbn [at_place] in P. subst pl.
        cbn [iterate]. rewrite map_app. do 2 f_equal.
        -- rewrite !map_map. cbn [fst snd].
           rewrite (by_key_map (fun p => field_of u env (b_required b) (fst p) (snd p) (used u env (path ++ [fst p]) [] (snd p)))).
           rewrite (by_key_map (fun p => field_of u env' (b_required b) (fst p) (blur_ref env (snd p)) (used u env' (path ++ [fst p]) [] (blur_ref env (snd p))))).
           rewrite !map_map. cbn [snd]. apply map_ext_in. intros [k r] I. rewrite by_key_in in I. cbn [fst snd].
           rewrite field_blur. unfold field_of. cbn [fst snd]. f_equal. rewrite !unptr_opt.
           pose proof (USE r ltac:(left; eauto)) as X.
           pose proof (FP _ I) as X1. pose proof (HDP _ I) as X2. pose proof (HRP _ I) as X3. cbn [fst snd] in X1, X2, X3.
           apply field_pass_eq; [rewrite unptr_not_ptr; apply used_not_ptr| |].
           ++ apply (X inside Field PTop); cbn; auto.
           ++ apply (X inside Field PField); cbn; auto.
        -- destruct (b_has b || _); [|reflexivity]. cbn [map fst snd iterate]. rewrite ELEM; reflexivity.
      * cbn [at_place] in P. subst pl. rewrite (V eq_refl eq_refl). rewrite fields_blur.
        2:{ intros p I. apply (clean (depth_ref (snd p))); [apply le_n|]. apply FV; auto. }
        rewrite U, go_struct. reflexivity.
    + destruct (b_has b || _) eqn:MO.
      * destruct sp; cbn [at_place] in P.
        -- cbn [unptr go_of]. destruct P as [->| ->]; cbn [iterate]; rewrite ELEM; reflexivity.
        -- subst pl. cbn [unptr go_of iterate]. do 2 f_equal. destruct ad as [r|]; [|reflexivity].
           f_equal. symmetry. apply (clean (depth_ref r)); [apply le_n|]. apply (FE eq_refl eq_refl).
        -- subst pl. cbn [unptr go_of iterate]. rewrite ELEM; reflexivity.
      * pose proof (any_pass pl) as A0. pose proof (any_pass PVal) as A1.
        destruct (String.eqb (b_type b) "object"); [|exact A0].
        change (go_of (unptr np (GMap (GId "any")))) with (TMap (TIdent "string") (go_of (unptr np (GId "any")))).
        destruct pl; cbn [iterate]; rewrite ?A1; reflexivity.
  - destruct (arraylike b) eqn:A.
    + change (go_of (unptr np (GSlice ?t))) with (TArray (go_of (unptr np t))). cbn [unptr go_of iterate].
      f_equal. destruct it as [r|]; [|apply any_pass].
      apply (USE r ltac:(tauto) inside Elem PElt path ["Item"] F eq_refl HD).
      apply (fate_refs _ _ HR). intros q J. rewrite !in_app_iff. tauto.
    + destruct (scalar (b_type b) (b_format b)) as [g|] eqn:E; [|apply any_pass]. apply (scalar_pass _ _ _ pl E).
Qed.

Lemma fits_field inside sp s : fits env inside sp s -> fits env inside Field s.
Proof.
  destruct s as [b ps it ad al an on]. cbn [fits]. destruct (objectlike b); [|tauto].
  destruct (nonempty _); [tauto|]. intros [A [B [C D]]]. split; [exact A|]. split; [discriminate|]. split; [discriminate|exact D].
Qed.

Theorem use_pass n : forall r, depth_ref r <= n -> simple_ref r -> passes_use r.
Proof.
  induction n as [|n IH]; intros r D S0; [pose proof (depth_pos r); lia|].
  destruct r as [q|s]; intros inside sp pl path sfx F P HD HR.
  { rewrite used_q, blur_q. cbn [unptr]. rewrite (fate_pass (is_union (env q)) _ pl); [|apply HR; left; reflexivity].
    destruct (is_union (env q)); reflexivity. }
  rewrite blur_inl. cbn [simple_ref] in S0. change (fits env inside sp s) in F. change (refs_fate (refs s)) in HR.
  rewrite defs_split in HD. destruct (is_union s) eqn:U.
  - assert (E : used u env path sfx (Inl s) = GId (pathToTypeName u (path ++ sfx)) /\
               own u env path sfx (Inl s) = [(pathToTypeName u (path ++ sfx), dotted u (path ++ sfx), b_desc (s_base s), false, constants u (s_base s), body u env path s)]).
    { rewrite used_inl. unfold own. pose proof (union_obj s U) as O.
      assert (E : enumlike (s_base s) = false) by (unfold enumlike; rewrite O; reflexivity). rewrite E. cbn [andb].
      assert (W : owned (Inl s) = true); [|rewrite W; split; reflexivity].
      cbn [owned]. unfold structlike. rewrite O. unfold is_union in U. apply andb_true_iff in U. destruct U as [_ U]. rewrite U.
      rewrite orb_true_r, andb_true_r. cbn [andb]. unfold union_of in U. destruct (s_anyOf s); [destruct (nonempty (s_props s)); reflexivity|].
      destruct (s_oneOf s); [destruct (nonempty (s_props s)); reflexivity|discriminate]. }
    destruct E as [-> E]. rewrite E in HD. cbn [unptr]. rewrite (fate_pass true).
    2:{ assert (X := fate_last _ _ HD). cbn [dty dname fst snd] in X.
        rewrite (raw_body path s inside sp F), U in X. exact X. }
    destruct s as [b ps it ad al an on]. rewrite blur_eq, U. reflexivity.
  - rewrite !used_inl, (blur_base s U), (blur_owned s U).
    destruct (enumlike (s_base s) && Nat.ltb 1 (length path)) eqn:E.
    { cbn [unptr]. apply (fate_pass false). unfold own in HD. rewrite E in HD.
      assert (X := fate_last _ _ HD). cbn [dty dname fst snd] in X.
      rewrite (raw_body path s inside sp F), U in X. exact X. }
    destruct (owned (Inl s)) eqn:OW.
    { cbn [unptr]. apply (fate_pass false). unfold own in HD. rewrite E, OW in HD.
      assert (X := fate_last _ _ HD). cbn [dty dname fst snd] in X.
      rewrite (raw_body path s inside sp F), U in X. exact X. }
    destruct s as [b ps it ad al an on].
    apply (body_pass b ps it ad al an on) with (inside := inside) (sp := sp); auto.
    + cbn [depth_ref depth] in D. cbn [simple] in S0. destruct S0 as [-> [HAN [HON [HI [HA [HP HT]]]]]]. rewrite simple_props in HP.
      intros r [[k I]|[->| ->]]; apply IH; try assumption; try lia.
      * pose proof (depth_props ps _ I) as X. cbn [snd] in X. lia.
      * apply (HP _ I).
    + intros _ SL. cbn [owned] in OW. rewrite SL in OW. cbn [andb] in OW. apply orb_false_iff in OW. tauto.
    + apply (fate_incl _ _ HD). intros d J. rewrite in_app_iff. left. exact J.
Qed.

Lemma body_id e path s n : body u e path s = GId n -> In n builtins.
Proof.
  destruct s as [b ps it ad al an on]. rewrite body_eq. intros E.
  assert (A : GId "any" = GId n -> In n builtins) by (intros Q; injection Q as <-; left; reflexivity).
  destruct (objectlike b).
  - destruct (nonempty ps || _ || _); [discriminate|]. destruct (b_has b || _); [discriminate|].
    destruct (String.eqb _ _); [discriminate|]. apply A, E.
  - destruct (arraylike b); [discriminate|]. destruct (scalar _ _) as [g|] eqn:Q; [|apply A, E].
    subst g. apply (scalar_ids env _ _ _ Q). left. reflexivity.
Qed.

Lemma body_pass_top s inside path : simple s -> is_union s = false -> fits env inside Field s ->
  defs_fate (defs_in u env (negb inside) path s) -> refs_fate (refs s) ->
  iterate_spec fn (go_of (unptr np (body u env path s))) = go_of (unptr np (body u env' path (blur env s))).
Proof.
  intros S0 U F HD HR. destruct s as [b ps it ad al an on].
  rewrite <- (body_pass b ps it ad al an on) with (inside := inside) (sp := Field) (pl := PTop); auto; try discriminate.
  - assert (X : forall n, body u env path (Sch b ps it ad al an on) = GId n -> In n builtins).
    { intros n E. apply (body_id _ _ _ _ E). }
    destruct (body u env path (Sch b ps it ad al an on)) as [n|n t|t|t|t|fs a un] eqn:E; try reflexivity.
    + cbn [unptr]. rewrite (builtin_pass n PTop); [|apply X; reflexivity]. destruct (id_form n) as [[x [y G]]|G]; rewrite G; reflexivity.
    + exfalso. apply (body_not_as u env path _ _ _ E).
  - cbn [simple] in S0. destruct S0 as [-> [HAN [HON [HI [HA [HP HT]]]]]]. rewrite simple_props in HP.
    intros r [[k I]|[->| ->]]; apply (use_pass (depth_ref r)); try assumption; try apply le_n. apply (HP _ I).
  - cbn. tauto.
Qed.

(** *** Declarations *)

Definition djson (d : decl) : string := snd (fst (fst (fst (fst d)))).
Definition ddesc (d : decl) : string := snd (fst (fst (fst d))).

(** What the pass removes: unions, and elements of unions. *)
Definition dead (d : decl) : bool := raw (dty d) || (String.eqb (djson d) "" && String.eqb (ddesc d) "").
Definition alive (d : decl) : bool := negb (dead d).

(** A declaration as it is written, and after the pass. *)
Definition written (d : decl) := (fst d, go_of (unptr np (dty d))).
Definition passed (d : decl) := (fst d, iterate_spec fn (go_of (unptr np (dty d)))).

Lemma filter_flat {A B} (f : A -> list B) p l : filter p (flat_map f l) = flat_map (fun x => filter p (f x)) l.
Proof. induction l as [|x l IH]; [reflexivity|]. cbn [flat_map]. rewrite filter_app, IH. reflexivity. Qed.
Lemma map_flat {A B C} (f : A -> list B) (g : B -> C) l : map g (flat_map f l) = flat_map (fun x => map g (f x)) l.
Proof. induction l as [|x l IH]; [reflexivity|]. cbn [flat_map]. rewrite map_app, IH. reflexivity. Qed.
Lemma flat_map_ext_in {A B} (f g : A -> list B) l : (forall x, In x l -> f x = g x) -> flat_map f l = flat_map g l.
Proof.
  induction l as [|x l IH]; [reflexivity|]. intros H. cbn [flat_map]. rewrite (H x (or_introl eq_refl)), IH; [reflexivity|].
  intros y I. apply H. right. exact I.
Qed.
Lemma flat_snd {A B} (f : string * A -> list B) l : flat_map snd (map (fun p => (fst p, f p)) l) = flat_map f l.
Proof. induction l as [|x l IH]; [reflexivity|]. cbn [map flat_map snd]. rewrite IH. reflexivity. Qed.

Lemma concat_dot_ne x l : x <> "" -> String.concat "." (x :: l) <> "".
Proof. intros H. destruct l; cbn [String.concat]; [exact H|]. destruct x; [congruence|discriminate]. Qed.
Lemma dotted_ne path : path_ok path -> dotted u path <> "".
Proof.
  destruct path as [|x path]; [intros []|]. cbn [path_ok]. intros H. unfold dotted. cbn [map].
  apply concat_dot_ne. apply first_ne, camel_first, H.
Qed.

Lemma elements_dead l path : forall i, (forall r, In r l -> plain_element r) ->
  filter alive (elements_from u env i path l) = [].
Proof.
  induction l as [|r l IH]; intros i H; [reflexivity|]. cbn [elements_from]. rewrite filter_app, IH by (intros q Q; apply H; right; exact Q).
  rewrite app_nil_r. destruct r as [q|s]; [reflexivity|]. destruct (H _ (or_introl eq_refl)) as [E _].
  cbn [element filter]. unfold alive, dead, djson, ddesc. cbn [fst snd]. rewrite E. cbn [String.eqb andb]. rewrite orb_true_r. reflexivity.
Qed.

Definition left_of (whole : bool) (path : list string) (r : sref) : Prop :=
  map passed (filter alive (inner_defs u env whole path r)) = map written (inner_defs u env' whole path (blur_ref env r)).

Lemma own_left r inside sp path sfx : path_ok path -> simple_ref r -> fits_ref env inside sp r ->
  defs_fate (inner_defs u env (negb inside) path r) -> refs_fate (refs_ref r) ->
  map passed (filter alive (own u env path sfx r)) = map written (own u env' path sfx (blur_ref env r)).
Proof.
  intros P S0 F HD HR. destruct r as [q|s].
  { rewrite blur_q. destruct (is_union (env q)); reflexivity. }
  rewrite blur_inl. destruct (is_union s) eqn:U.
  - assert (X : own u env' path sfx (Inl (blur env s)) = []).
    { destruct s as [b ps it ad al an on]. rewrite blur_eq, U. reflexivity. }
    rewrite X. unfold own. assert (A : forall n j d a c, alive (n, j, d, a, c, body u env path s) = false).
    { intros. unfold alive, dead, dty. cbn [snd]. rewrite (raw_body path s inside sp F), U. reflexivity. }
    destruct (_ && _); cbn [filter]; rewrite ?A; [reflexivity|]. destruct (owned _); cbn [filter]; rewrite ?A; reflexivity.
  - assert (A : forall n j d a c, j <> "" -> alive (n, j, d, a, c, body u env path s) = true).
    { intros n j d a c J. unfold alive, dead, dty, djson. cbn [fst snd]. rewrite (raw_body path s inside sp F), U.
      destruct (String.eqb_spec j ""); [congruence|]. reflexivity. }
    assert (B : iterate_spec fn (go_of (unptr np (body u env path s))) = go_of (unptr np (body u env' path (blur env s)))).
    { apply (body_pass_top s inside path S0 U (fits_field _ _ _ F) HD HR). }
    unfold own. rewrite (blur_base s U), (blur_owned s U). destruct (_ && _).
    + cbn [filter]. rewrite A by (apply dotted_ne, P). cbn [map]. unfold passed, written, dty. cbn [fst snd]. rewrite B. reflexivity.
    + destruct (owned (Inl s)); [|reflexivity]. cbn [filter]. rewrite A by (apply dotted_ne, path_app, P).
      cbn [map]. unfold passed, written, dty. cbn [fst snd]. rewrite B. reflexivity.
Qed.

Lemma inner_q e w path q : inner_defs u e w path (Ref q) = [].
Proof. reflexivity. Qed.
Lemma inner_any e w path b : inner_defs u e w path (Inl (any_of b)) = [].
Proof. destruct w; reflexivity. Qed.

Theorem inner_left n : forall r inside sp path, depth_ref r <= n -> path_ok path -> simple_ref r -> fits_ref env inside sp r ->
  defs_fate (inner_defs u env (negb inside) path r) -> refs_fate (refs_ref r) -> left_of (negb inside) path r.
Proof.
  induction n as [|n IH]; intros r inside sp path D P S0 F HD HR; [pose proof (depth_pos r); lia|].
  unfold left_of. destruct r as [q|s].
  { rewrite blur_q. destruct (is_union (env q)); [rewrite inner_any|]; reflexivity. }
  rewrite blur_inl. destruct s as [b ps it ad al an on].
  change (fits env inside sp (Sch b ps it ad al an on)) in F. cbn [depth_ref depth] in D.
  cbn [simple_ref simple] in S0. destruct S0 as [-> [HAN [HON [HI [HA [HP HT]]]]]]. rewrite simple_props in HP.
  assert (DEFS : forall r inside sp path sfx, depth_ref r <= n -> path_ok path -> simple_ref r -> fits_ref env inside sp r ->
    defs_fate (defs u env (negb inside) path sfx r) -> refs_fate (refs_ref r) ->
    map passed (filter alive (defs u env (negb inside) path sfx r)) = map written (defs u env' (negb inside) path sfx (blur_ref env r))).
  { clear - IH HB. intros r inside sp path sfx D P S0 F HD HR. rewrite !defs_split in *. rewrite filter_app, !map_app.
    assert (HD1 : defs_fate (inner_defs u env (negb inside) path r)).
    { apply (fate_incl _ _ HD). intros d I. apply in_app_iff. left. exact I. }
    rewrite (IH r inside sp path D P S0 F HD1 HR). f_equal. apply (own_left r inside sp); assumption. }
  cbn [inner_defs] in *. cbn [refs_ref refs] in HR. rewrite defs_in_eq in *.
  rewrite blur_eq. unfold is_union, union_of. cbn [s_base s_anyOf s_oneOf]. cbn [fits] in F.
  destruct (objectlike b) eqn:O; cbn [andb].
  - destruct (nonempty (elements an ++ elements on)) eqn:U.
    + destruct F as [-> [_ [-> F]]]. change (by_key (map _ [])) with (@nil (string * list decl)). cbn [flat_map].
      rewrite !filter_app, !elements_dead by (intros r I; apply F, in_app_iff; tauto).
      assert (X : defs_in u env' (negb inside) path (any_of b) = []) by (destruct inside; reflexivity). rewrite X.
      destruct (negb inside); reflexivity.
    + destruct F as [FI [FV [FE [FP0 FA]]]]. pose proof (proj1 (fits_props env inside ps) FP0) as FP. clear FP0.
      assert (E : elements an = [] /\ elements on = []).
      { apply app_eq_nil. destruct (elements an ++ elements on); [reflexivity|discriminate]. }
      destruct E as [E1 E2]. rewrite defs_in_eq, O, !hollow_elements, E1, E2 in *. cbn [elements_from] in *. rewrite !app_nil_r in *.
      rewrite filter_app, !map_app. f_equal.
      * destruct inside; cbn [negb] in *; [reflexivity|].
        rewrite map_map. cbn [fst snd].
        rewrite (by_key_map (fun p => defs u env true (path ++ [fst p]) [] (snd p))) in *.
        rewrite (by_key_map (fun p => defs u env' true (path ++ [fst p]) [] (blur_ref env (snd p)))).
        rewrite !flat_snd in *. rewrite filter_flat, !map_flat. apply flat_map_ext_in. intros p I.
        assert (J : In p ps) by (apply by_key_in; exact I). pose proof (depth_props ps p J).
        apply (DEFS (snd p) false Field); auto; try lia.
        -- apply path_app, P.
        -- apply (fate_incl _ _ HD). intros d K. apply in_app_iff. left. apply in_flat_map. eauto.
        -- apply (fate_refs _ _ HR). intros q K. apply in_app_iff. left. apply in_flat_map. eauto.
      * destruct ad as [r|]; [|reflexivity].
        apply (DEFS r true Value); auto; try lia.
        -- apply (fate_incl _ _ HD). intros d K. rewrite !in_app_iff. right. exact K.
        -- apply (fate_refs _ _ HR). intros q K. rewrite !in_app_iff. tauto.
  - rewrite defs_in_eq, O. destruct (arraylike b) eqn:A; [|reflexivity]. destruct it as [r|]; [|reflexivity].
    apply (DEFS r inside Elem); auto; try lia.
    apply (fate_refs _ _ HR). intros q K. rewrite !in_app_iff. tauto.
Qed.
End Types.
