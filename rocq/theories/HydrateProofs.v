(** Unification with data agrees with the evaluation of CueSem.v. *)
From Verif Require Import Prelude CueFrag CueSem CueProofs Hydrate.
Local Open Scope string_scope.
Local Open Scope list_scope.

(** *** Evaluation ignores how disjunctions, structs and lists are built *)

Lemma eval_is_bot : forall v o, is_bot v = true -> eval v o = Bot.
Proof. intros v o H. destruct v; try discriminate. reflexivity. Qed.

Lemma pick_filter : forall l, pick (filter (fun x => not_bot (snd x)) l) = pick l.
Proof.
  intros l. unfold pick.
  assert (E : filter (fun x : bool * res => not_bot (snd x)) (filter (fun x => not_bot (snd x)) l)
              = filter (fun x => not_bot (snd x)) l).
  { induction l as [|x l IH]; [reflexivity|]. cbn [filter].
    destruct (not_bot (snd x)) eqn:E; [cbn [filter]; rewrite E, IH|rewrite IH]; reflexivity. }
  rewrite E. reflexivity.
Qed.

Lemma eval_mk_or : forall ds o,
  eval (mk_or ds) o = pick (map (fun x : bool * val => (fst x, eval (snd x) o)) ds).
Proof.
  intros ds o. unfold mk_or.
  assert (E : pick (map (fun x : bool * val => (fst x, eval (snd x) o))
                     (filter (fun d : bool * val => negb (is_bot (snd d))) ds))
              = pick (map (fun x : bool * val => (fst x, eval (snd x) o)) ds)).
  { rewrite <- pick_filter. symmetry. rewrite <- pick_filter. f_equal.
    induction ds as [|[m v] ds IH]; [reflexivity|]. cbn [map filter fst snd].
    destruct (is_bot v) eqn:B; cbn [negb].
    - rewrite (eval_is_bot v o B). cbn [not_bot]. exact IH.
    - cbn [map filter fst snd]. destruct (not_bot (eval v o)); [f_equal|]; exact IH. }
  destruct (filter _ ds) as [|d [|d' l]] eqn:F.
  - cbn in E. cbn [eval]. exact E.
  - rewrite <- E. cbn [map]. unfold pick. cbn [filter snd fst].
    destruct d as [m v]. cbn [snd fst]. destruct (eval v o); destruct m; reflexivity.
  - cbn [eval]. exact E.
Qed.

Lemma all_con_bot : forall {A} (l : list (A * res)) a, In (a, Bot) l -> all_con l = None.
Proof.
  intros A l a. induction l as [|[b r] l IH]; intros H; [contradiction|].
  destruct H as [H|H].
  - injection H as -> ->. reflexivity.
  - cbn. rewrite (IH H). destruct r; reflexivity.
Qed.

Lemma eval_mk_struct : forall fs rest, eval (mk_struct fs rest) None = eval (VStruct fs rest) None.
Proof.
  intros fs rest. unfold mk_struct. destruct (existsb _ fs) eqn:E; [|reflexivity].
  apply existsb_exists in E as [f [Hf E]]. apply andb_true_iff in E as [E1 E2].
  apply negb_true_iff in E1. cbn [eval]. unfold of_struct.
  rewrite (all_con_bot _ (fst (fst f))); [reflexivity|].
  apply in_flat_map. exists f. split; [exact Hf|]. unfold fopt in E1. rewrite E1. left.
  unfold fval in E2. rewrite (eval_is_bot _ None E2). reflexivity.
Qed.

Lemma eval_mk_list : forall es rest, eval (mk_list es rest) None = eval (VList es rest) None.
Proof.
  intros es rest. unfold mk_list. destruct (existsb is_bot es) eqn:E; [|reflexivity].
  apply existsb_exists in E as [e [He E]]. cbn [eval]. unfold of_list.
  rewrite (all_con_bot _ tt); [reflexivity|].
  rewrite map_map. apply in_map_iff. exists e. rewrite (eval_is_bot _ None E). auto.
Qed.

Lemma of_struct_Con : forall l, of_struct (map (fun kx : string * data => (fst kx, Con (snd kx))) l)
  = Con (DStruct l).
Proof. intros l. apply of_struct_con. exists l. split; reflexivity. Qed.

Lemma of_list_Con : forall l, of_list (map Con l) = Con (DList l).
Proof.
  intros l. unfold of_list. rewrite map_map.
  assert (E : all_con (map (fun d => (tt, Con d)) l) = Some (Some (map (fun d => (tt, d)) l))).
  { apply all_con_some. rewrite map_map. reflexivity. }
  rewrite E, map_map, map_id. reflexivity.
Qed.

Lemma eval_embed : forall d, eval (embed d) None = Con d.
Proof.
  intros d. induction d as [a|l IH|l IH] using data_ind'.
  - reflexivity.
  - cbn [embed eval]. rewrite map_map. rewrite <- of_list_Con. f_equal.
    rewrite Forall_forall in IH. apply map_ext_in. exact IH.
  - cbn [embed eval]. rewrite <- of_struct_Con. f_equal.
    induction l as [|kx l IHl]; [reflexivity|]. inversion IH; subst.
    cbn [map flat_map fst snd app]. rewrite H1. f_equal. apply IHl. exact H2.
Qed.

(** *** Unification without its local fixpoint *)

Fixpoint unify_list (r r' : option val) (es es' : list val) : option (list val) :=
  match es, es' with
  | [], [] => Some []
  | [], _ => match r with Some u => Some (map (unify u) es') | None => None end
  | _, [] => match r' with Some w => Some (map (fun e => unify e w) es) | None => None end
  | e :: t, e' :: t' =>
      match unify_list r r' t t' with Some l => Some (unify e e' :: l) | None => None end
  end.

Lemma unify_VList : forall es r es' r',
  unify (VList es r) (VList es' r') =
  match unify_list r r' es es' with
  | Some l => mk_list l (match r, r' with Some u, Some w => Some (unify u w) | _, _ => None end)
  | None => VBot
  end.
Proof.
  intros es r es' r'. cbn [unify].
  match goal with |- match ?g es es' with _ => _ end = _ =>
    assert (E : g es es' = unify_list r r' es es') end.
  { revert es'. induction es as [|e es IH]; intros [|e' es']; try reflexivity.
    cbn [unify_list]. rewrite <- IH. reflexivity. }
  rewrite E. reflexivity.
Qed.

Definition unify_left (fs' : list (string * bool * val)) (rest' : option val)
    (f : string * bool * val) : string * bool * val :=
  match field_of (flabel f) fs' with
  | Some f' => (flabel f, fopt f && fopt f', unify (fval f) (fval f'))
  | None => (fst f, match rest' with Some w => unify (fval f) w | None => VBot end)
  end.

Definition unify_right (fs : list (string * bool * val)) (rest : option val)
    (f' : string * bool * val) : list (string * bool * val) :=
  match field_of (flabel f') fs with
  | Some _ => []
  | None => [(fst f', match rest with Some u => unify u (fval f') | None => VBot end)]
  end.

Lemma unify_VStruct : forall fs rest fs' rest',
  unify (VStruct fs rest) (VStruct fs' rest') =
  mk_struct (map (unify_left fs' rest') fs ++ flat_map (unify_right fs rest) fs')
    (match rest, rest' with Some u, Some w => Some (unify u w) | _, _ => None end).
Proof. reflexivity. Qed.

Lemma unify_VTop_r : forall v, unify v VTop = v.
Proof. intros v. destruct v; reflexivity. Qed.

Lemma unify_VTop_l : forall v, unify VTop v = v.
Proof. intros v. destruct v; reflexivity. Qed.

Definition emb_fields (df : list (string * data)) : list (string * bool * val) :=
  map (fun kx : string * data => (fst kx, false, embed (snd kx))) df.

Lemma field_of_emb : forall k df,
  field_of k (emb_fields df) = match lookup k df with Some x => Some (k, false, embed x) | None => None end.
Proof.
  intros k df. induction df as [|[l x] df IH]; [reflexivity|].
  unfold field_of, emb_fields in *. cbn [map find lookup fst snd flabel].
  destruct (String.eqb_spec k l) as [E|E]; [subst; reflexivity|exact IH].
Qed.

Lemma has_label_lookup : forall k df, has_label k df = match lookup k df with Some _ => true | None => false end.
Proof.
  intros k df. induction df as [|[l x] df IH]; [reflexivity|].
  unfold has_label in *. cbn [existsb lookup fst].
  destruct (String.eqb k l); [reflexivity|exact IH].
Qed.

(** Unifying data with a schema and evaluating is evaluating the schema
    against the data. *)
Lemma eval_unify : forall v d, eval (unify (embed d) v) None = eval v (Some d).
Proof.
  intros v. induction v as [| |a|t|lo hi|ds IH|es r IHe IHr|fs rest IHf IHr] using val_ind';
    intros d.
  - destruct d; reflexivity.
  - rewrite unify_VTop_r, eval_embed. reflexivity.
  - destruct d as [b|l|l]; [|reflexivity|reflexivity].
    assert (U : unify (embed (DAtom b)) (VAtom a) = if atom_eqb b a then VAtom b else VBot)
      by (destruct b; reflexivity).
    rewrite U. cbn [eval]. destruct (atom_eqb b a) eqn:E.
    + apply atom_eqb_eq in E as ->. rewrite (proj2 (atom_eqb_eq a a) eq_refl). reflexivity.
    + destruct (atom_eqb a b) eqn:E'; [|reflexivity].
      apply atom_eqb_eq in E' as ->. rewrite (proj2 (atom_eqb_eq b b) eq_refl) in E. discriminate.
  - destruct d as [b|l|l]; [|reflexivity|reflexivity].
    destruct b, t; reflexivity.
  - destruct d as [b|l|l]; [|reflexivity|reflexivity].
    cbn. destruct b; try reflexivity. destruct (in_lo lo z && in_hi hi z); reflexivity.
  - assert (E : unify (embed d) (VOr ds)
              = mk_or (map (fun e : bool * val => (fst e, unify (embed d) (snd e))) ds))
      by (destruct d; reflexivity).
    rewrite E, eval_mk_or, map_map. cbn [eval]. f_equal. apply map_ext_in. intros x Hx.
    cbn [fst snd]. f_equal. rewrite Forall_forall in IH. apply IH. exact Hx.
  - destruct d as [b|l|l]; [reflexivity| |reflexivity].
    cbn [embed]. rewrite unify_VList, eval_VList.
    assert (E : match unify_list None r (map embed l) es with
                | Some u => Some (map (fun e => eval e None) u) | None => None end
              = eval_list r es l).
    { revert l. induction IHe as [|e es He _ IHes]; intros l.
      - destruct l as [|x l]; [destruct r; reflexivity|]. cbn [map unify_list eval_list].
        destruct r as [u|]; [|reflexivity]. f_equal. cbn [map]. f_equal; [apply IHr|].
        rewrite !map_map. apply map_ext. intros y. apply IHr.
      - destruct l as [|x l]; [reflexivity|]. cbn [map unify_list eval_list].
        rewrite <- IHes. destruct (unify_list None r (map embed l) es); [|reflexivity].
        cbn [map]. rewrite He. reflexivity. }
    rewrite <- E. destruct (unify_list None r (map embed l) es) as [u|]; [|reflexivity].
    rewrite eval_mk_list. reflexivity.
  - destruct d as [b|l|df]; [reflexivity|reflexivity|].
    cbn [embed]. rewrite unify_VStruct, eval_mk_struct, eval_VStruct.
    cbn [eval]. f_equal. rewrite flat_map_app. f_equal.
    + fold (emb_fields df). unfold emb_fields.
      induction df as [|[k x] df IHdf]; [reflexivity|]. cbn [map flat_map fst snd].
      rewrite IHdf. unfold unify_left, eval_at. cbn [flabel fopt fval fst snd].
      destruct (field_of k fs) as [f|] eqn:F; cbn [fst snd andb app].
      * f_equal. f_equal. apply field_of_some in F as [F _]. rewrite Forall_forall in IHf.
        apply (IHf _ F).
      * f_equal. f_equal. destruct rest as [u|]; [apply IHr|reflexivity].
    + fold (emb_fields df). clear IHf IHr. induction fs as [|[[k o] v] fs IHfs]; [reflexivity|].
      cbn [flat_map]. rewrite flat_map_app. rewrite IHfs. f_equal.
      unfold unify_right. cbn [flabel fopt fval fst snd].
      rewrite field_of_emb, has_label_lookup. destruct (lookup k df) as [x|].
      * rewrite orb_true_r. reflexivity.
      * rewrite orb_false_r, unify_VTop_l. cbn [flat_map fst snd]. destruct o; reflexivity.
Qed.

(** *** Unification is intersection *)

Lemma inst_mk_or : forall ds d, inst (mk_or ds) d = existsb (fun x : bool * val => inst (snd x) d) ds.
Proof.
  intros ds d. unfold mk_or.
  assert (E : existsb (fun x : bool * val => inst (snd x) d)
                (filter (fun x : bool * val => negb (is_bot (snd x))) ds)
              = existsb (fun x : bool * val => inst (snd x) d) ds).
  { induction ds as [|[m v] ds IH]; [reflexivity|]. cbn [filter existsb snd].
    destruct v; cbn [is_bot negb existsb snd]; rewrite IH; reflexivity. }
  destruct (filter _ ds) as [|x [|y l]].
  - rewrite <- E. reflexivity.
  - rewrite <- E. cbn. rewrite orb_false_r. reflexivity.
  - exact E.
Qed.

Lemma inst_mk_list : forall es r d, inst (mk_list es r) d = inst (VList es r) d.
Proof.
  intros es r d. unfold mk_list. destruct (existsb is_bot es) eqn:E.
  - destruct d as [|l|]; try reflexivity. rewrite inst_VList. cbn [inst]. symmetry.
    revert l. induction es as [|e es IH]; intros l; [discriminate|].
    destruct l as [|x l]; [reflexivity|]. cbn [inst_list]. cbn in E.
    destruct (is_bot e) eqn:B; [destruct e; try discriminate; reflexivity|].
    rewrite (IH E). apply andb_false_r.
  - destruct r as [u|]; [|reflexivity]. destruct u; try reflexivity.
    destruct d as [|l|]; try reflexivity. rewrite !inst_VList. clear E.
    revert l. induction es as [|e es IH]; intros l; [destruct l; reflexivity|].
    destruct l as [|x l]; [reflexivity|]. cbn [inst_list]. rewrite IH. reflexivity.
Qed.

Lemma inst_mk_struct : forall fs r d, NoDup (map flabel fs) ->
  inst (mk_struct fs r) d = inst (VStruct fs r) d.
Proof.
  intros fs r d N. unfold mk_struct. destruct (existsb _ fs) eqn:E; [|reflexivity].
  destruct d as [| |df]; try reflexivity. rewrite inst_VStruct. cbn [inst]. symmetry.
  apply existsb_exists in E as [f [Hf E]]. apply andb_true_iff in E as [E1 E2].
  apply negb_true_iff in E1. destruct (has_label (flabel f) df) eqn:H.
  - apply has_label_in in H as [x Hx]. apply andb_false_iff. left.
    destruct (forallb _ df) eqn:F; [|reflexivity]. rewrite forallb_forall in F.
    specialize (F _ Hx). cbn [fst snd] in F. unfold inst_at in F.
    rewrite (field_of_in fs f N Hf) in F. unfold fval in E2. destruct (snd f); discriminate.
  - apply andb_false_iff. right. destruct (forallb _ fs) eqn:F; [|reflexivity].
    rewrite forallb_forall in F. specialize (F _ Hf). rewrite E1, H in F. discriminate.
Qed.

Lemma field_of_app : forall k l m,
  field_of k (l ++ m) = match field_of k l with Some f => Some f | None => field_of k m end.
Proof.
  intros k l m. unfold field_of. induction l as [|f l IH]; [reflexivity|]. cbn [app find].
  destruct (String.eqb k (flabel f)); [reflexivity|exact IH].
Qed.

Lemma field_of_map : forall (g : string * bool * val -> string * bool * val) k l,
  (forall f, flabel (g f) = flabel f) ->
  field_of k (map g l) = match field_of k l with Some f => Some (g f) | None => None end.
Proof.
  intros g k l G. unfold field_of. induction l as [|f l IH]; [reflexivity|]. cbn [map find].
  rewrite G. destruct (String.eqb k (flabel f)); [reflexivity|exact IH].
Qed.

Lemma field_of_label : forall k l f, field_of k l = Some f -> flabel f = k.
Proof. intros k l f H. apply field_of_some in H. tauto. Qed.

Lemma unify_left_label : forall fs' rest' f, flabel (unify_left fs' rest' f) = flabel f.
Proof. intros. unfold unify_left. destruct (field_of _ _); reflexivity. Qed.

Lemma field_of_cons : forall k f l,
  field_of k (f :: l) = if String.eqb k (flabel f) then Some f else field_of k l.
Proof. reflexivity. Qed.

Lemma field_of_right : forall fs rest k fs', field_of k fs = None ->
  field_of k (flat_map (unify_right fs rest) fs')
  = match field_of k fs' with
    | Some f' => Some (fst f', match rest with Some u => unify u (fval f') | None => VBot end)
    | None => None
    end.
Proof.
  intros fs rest k fs' H. induction fs' as [|f' fs' IH]; [reflexivity|].
  cbn [flat_map]. rewrite field_of_app, field_of_cons.
  destruct (String.eqb_spec k (flabel f')) as [E|E].
  - unfold unify_right at 1. rewrite <- E, H, field_of_cons.
    change (flabel (fst f', match rest with Some u => unify u (fval f') | None => VBot end))
      with (flabel f'). rewrite <- E, String.eqb_refl. reflexivity.
  - rewrite <- IH. unfold unify_right at 1. destruct (field_of (flabel f') fs); [reflexivity|].
    rewrite field_of_cons.
    change (flabel (fst f', match rest with Some u => unify u (fval f') | None => VBot end))
      with (flabel f').
    destruct (String.eqb_spec k (flabel f')) as [E'|_]; [contradiction|]. reflexivity.
Qed.

Lemma labels_left : forall fs' rest' fs, map flabel (map (unify_left fs' rest') fs) = map flabel fs.
Proof. intros. rewrite map_map. apply map_ext. intros f. apply unify_left_label. Qed.

Lemma labels_right : forall fs rest fs' k,
  In k (map flabel (flat_map (unify_right fs rest) fs')) -> In k (map flabel fs') /\ field_of k fs = None.
Proof.
  intros fs rest fs' k H. apply in_map_iff in H as [f [<- H]]. apply in_flat_map in H as [f' [H' H]].
  unfold unify_right in H. destruct (field_of (flabel f') fs) eqn:E; [contradiction|].
  destruct H as [<-|[]].
  change (In (flabel f') (map flabel fs') /\ field_of (flabel f') fs = None).
  split; [apply in_map; exact H'|exact E].
Qed.

Lemma nodup_right : forall fs rest fs', NoDup (map flabel fs') ->
  NoDup (map flabel (flat_map (unify_right fs rest) fs')).
Proof.
  intros fs rest fs' N. induction fs' as [|f' fs' IH]; [constructor|].
  inversion N as [|? ? N1 N2]; subst. cbn [flat_map]. rewrite map_app.
  unfold unify_right at 1. destruct (field_of (flabel f') fs); [apply IH; exact N2|].
  cbn. constructor; [|apply IH; exact N2]. intros H. apply labels_right in H as [H _]. contradiction.
Qed.

Lemma field_of_notin : forall k fs, field_of k fs = None <-> ~ In k (map flabel fs).
Proof.
  intros k fs. split.
  - intros H HI. apply in_map_iff in HI as [f [E Hf]]. exact (field_of_none k fs H f Hf E).
  - intros H. destruct (field_of k fs) as [f|] eqn:E; [|reflexivity].
    apply field_of_some in E as [E1 <-]. exfalso. apply H. apply in_map. exact E1.
Qed.

Lemma nodup_unify : forall fs rest fs' rest', NoDup (map flabel fs) -> NoDup (map flabel fs') ->
  NoDup (map flabel (map (unify_left fs' rest') fs ++ flat_map (unify_right fs rest) fs')).
Proof.
  intros fs rest fs' rest' N N'. rewrite map_app, labels_left.
  assert (H : forall k, In k (map flabel fs) ->
                ~ In k (map flabel (flat_map (unify_right fs rest) fs'))).
  { intros k Hk Hr. apply labels_right in Hr as [_ Hr]. apply field_of_notin in Hr. contradiction. }
  pose proof (nodup_right fs rest fs' N') as R. revert H R.
  generalize (map flabel (flat_map (unify_right fs rest) fs')). intros m H R.
  induction (map flabel fs) as [|k l IH]; [exact R|].
  inversion N as [|? ? N1 N2]; subst. cbn. constructor.
  - rewrite in_app_iff. intros [A|A]; [contradiction|]. exact (H k (or_introl eq_refl) A).
  - apply IH; [exact N2|]. intros k' Hk'. apply H. right. exact Hk'.
Qed.

Lemma forallb_and : forall {A} (f g : A -> bool) l,
  forallb (fun x => f x && g x) l = forallb f l && forallb g l.
Proof.
  intros A f g l. induction l as [|x l IH]; [reflexivity|]. cbn. rewrite IH.
  destruct (f x), (g x), (forallb f l), (forallb g l); reflexivity.
Qed.

Lemma required_unify : forall fs rest fs' rest' df,
  NoDup (map flabel fs) -> NoDup (map flabel fs') ->
  forallb (fun f => fopt f || has_label (flabel f) df)
    (map (unify_left fs' rest') fs ++ flat_map (unify_right fs rest) fs')
  = forallb (fun f => fopt f || has_label (flabel f) df) fs
    && forallb (fun f => fopt f || has_label (flabel f) df) fs'.
Proof.
  intros fs rest fs' rest' df N N'. apply eq_true_iff_eq.
  rewrite andb_true_iff, !forallb_forall. split.
  - intros H. split.
    + intros f Hf. specialize (H (unify_left fs' rest' f)).
      assert (Hin : In (unify_left fs' rest' f) (map (unify_left fs' rest') fs
                       ++ flat_map (unify_right fs rest) fs'))
        by (apply in_app_iff; left; apply in_map; exact Hf).
      apply H in Hin. unfold unify_left in Hin.
      destruct (field_of (flabel f) fs'); cbn [flabel fopt fst snd] in Hin; [|exact Hin].
      apply orb_true_iff in Hin as [E|E]; apply orb_true_iff; [|right; exact E].
      apply andb_true_iff in E. left. tauto.
    + intros f' Hf'. destruct (field_of (flabel f') fs) as [f|] eqn:F.
      * apply field_of_some in F as [Hf E].
        assert (Hin : In (unify_left fs' rest' f) (map (unify_left fs' rest') fs
                       ++ flat_map (unify_right fs rest) fs'))
          by (apply in_app_iff; left; apply in_map; exact Hf).
        apply H in Hin. unfold unify_left in Hin. rewrite E, (field_of_in fs' f' N' Hf') in Hin.
        cbn [flabel fopt fst snd] in Hin. fold (flabel f) in Hin.
        apply orb_true_iff in Hin as [X|X]; apply orb_true_iff; [|right; exact X].
        apply andb_true_iff in X. left. tauto.
      * assert (Hin : In (fst f', match rest with Some u => unify u (fval f') | None => VBot end)
                  (map (unify_left fs' rest') fs ++ flat_map (unify_right fs rest) fs')).
        { apply in_app_iff. right. apply in_flat_map. exists f'. split; [exact Hf'|].
          unfold unify_right. rewrite F. left. reflexivity. }
        apply H in Hin. exact Hin.
  - intros [H1 H2] g Hg. apply in_app_iff in Hg as [Hg|Hg].
    + apply in_map_iff in Hg as [f [<- Hf]]. unfold unify_left.
      destruct (field_of (flabel f) fs') as [f'|] eqn:F; [|exact (H1 f Hf)].
      apply field_of_some in F as [Hf' E]. specialize (H1 f Hf). specialize (H2 f' Hf').
      cbn [flabel fopt fst snd]. fold (flabel f). rewrite E in H2.
      apply orb_true_iff in H1 as [H1|H1]; apply orb_true_iff; [|right; exact H1].
      apply orb_true_iff in H2 as [H2|H2]; [left; unfold fopt in *; rewrite H1, H2; reflexivity|right; exact H2].
    + apply in_flat_map in Hg as [f' [Hf' Hg]]. unfold unify_right in Hg.
      destruct (field_of (flabel f') fs); [contradiction|]. destruct Hg as [<-|[]]. exact (H2 f' Hf').
Qed.

Lemma atom_eqb_spec : forall a b, reflect (a = b) (atom_eqb a b).
Proof.
  intros a b. destruct (atom_eqb a b) eqn:E; constructor.
  - apply atom_eqb_eq. exact E.
  - intros H. apply atom_eqb_eq in H. congruence.
Qed.

Lemma inst_mk_range : forall lo hi d, inst (mk_range lo hi) d = inst (VRange lo hi) d.
Proof.
  intros [l|] [h|] d; try reflexivity. unfold mk_range.
  destruct (Z.ltb_spec h l) as [H|H]; [|destruct (Z.eqb_spec l h) as [E|E]; [|reflexivity]].
  - destruct d as [[]| |]; try reflexivity. cbn.
    destruct (Z.leb_spec l z), (Z.leb_spec z h); cbn; try reflexivity; lia.
  - subst h. destruct d as [[]| |]; try reflexivity. cbn.
    destruct (Z.eqb_spec l z), (Z.leb_spec l z), (Z.leb_spec z l); cbn; try reflexivity; lia.
Qed.

Lemma in_lo_max : forall a b z, in_lo (zmax a b) z = in_lo a z && in_lo b z.
Proof.
  intros [a|] [b|] z; cbn; try reflexivity; [|rewrite andb_true_r; reflexivity].
  destruct (Z.leb_spec (Z.max a b) z), (Z.leb_spec a z), (Z.leb_spec b z); cbn; try reflexivity; lia.
Qed.

Lemma in_hi_min : forall a b z, in_hi (zmin a b) z = in_hi a z && in_hi b z.
Proof.
  intros [a|] [b|] z; cbn; try reflexivity; [|rewrite andb_true_r; reflexivity].
  destruct (Z.leb_spec z (Z.min a b)), (Z.leb_spec z a), (Z.leb_spec z b); cbn; try reflexivity; lia.
Qed.

Lemma inst_scalar : forall x y d, scalar_val x = true -> scalar_val y = true ->
  inst (unify_scalar x y) d = inst x d && inst y d.
Proof.
  intros x y d Hx Hy.
  destruct x as [| |x|t|lo hi| | |], y as [| |y|t'|lo' hi'| | |]; try discriminate; try reflexivity.
  - destruct x; cbn [unify_scalar inst]; rewrite andb_false_r; reflexivity.
  - assert (E : unify_scalar (VAtom x) (VAtom y) = if atom_eqb x y then VAtom x else VBot)
      by (destruct x; reflexivity).
    rewrite E. clear E. destruct (atom_eqb_spec x y) as [E|E].
    + subst y. cbn. destruct d; try reflexivity. rewrite andb_diag. reflexivity.
    + cbn. destruct d as [b| |]; try reflexivity.
      destruct (atom_eqb_spec x b), (atom_eqb_spec y b); try reflexivity. congruence.
  - assert (E : unify_scalar (VAtom x) (VType t') = if type_has t' x then VAtom x else VBot)
      by (destruct x; reflexivity).
    rewrite E. clear E. destruct (type_has t' x) eqn:E; cbn; destruct d as [b| |]; try reflexivity;
      destruct (atom_eqb_spec x b); try reflexivity; subst b; rewrite E; reflexivity.
  - destruct x; try (cbn; destruct d as [[]| |]; rewrite ?andb_false_r; reflexivity).
    cbn [unify_scalar]. destruct d as [[]| |]; cbn [inst];
      try (destruct (in_lo lo' z && in_hi hi' z); reflexivity).
    destruct (in_lo lo' z && in_hi hi' z) eqn:E; cbn;
      destruct (Z.eqb_spec z z0); try reflexivity; subst z0; rewrite E; reflexivity.
  - cbn. rewrite andb_false_r. reflexivity.
  - cbn [unify_scalar]. destruct (type_has t y) eqn:E; cbn; destruct d as [b| |]; try reflexivity;
      destruct (atom_eqb_spec y b); rewrite ?andb_false_r; try reflexivity; subst b; rewrite E; reflexivity.
  - destruct d as [b| |]; destruct t, t'; try reflexivity; destruct b; reflexivity.
  - destruct d as [b| |]; destruct t; try reflexivity; destruct b; reflexivity.
  - cbn. rewrite andb_false_r. reflexivity.
  - destruct y; try (cbn; destruct d as [[]| |]; rewrite ?andb_false_r; reflexivity).
    cbn [unify_scalar]. destruct d as [[]| |]; cbn [inst];
      try (destruct (in_lo lo z && in_hi hi z); reflexivity).
    destruct (in_lo lo z && in_hi hi z) eqn:E; cbn;
      destruct (Z.eqb_spec z z0); rewrite ?andb_false_r; try reflexivity; subst z0; rewrite E; reflexivity.
  - destruct d as [b| |]; destruct t'; try reflexivity; destruct b; try reflexivity;
      cbn; rewrite ?andb_true_r, ?andb_false_r; reflexivity.
  - cbn [unify_scalar]. rewrite inst_mk_range. cbn. destruct d as [[]| |]; try reflexivity.
    rewrite in_lo_max, in_hi_min.
    destruct (in_lo lo z), (in_lo lo' z), (in_hi hi z), (in_hi hi' z); reflexivity.
Qed.

Lemma forallb_ext' : forall {A} (f g : A -> bool) l, (forall x, f x = g x) -> forallb f l = forallb g l.
Proof. intros A f g l H. induction l as [|x l IH]; [reflexivity|]. cbn. rewrite H, IH. reflexivity. Qed.

Lemma existsb_and_l : forall {A} b (f : A -> bool) l, existsb (fun x => b && f x) l = b && existsb f l.
Proof.
  intros A b f l. induction l as [|x l IH]; cbn; [rewrite andb_false_r; reflexivity|].
  rewrite IH. destruct b; reflexivity.
Qed.

Lemma existsb_ext_in : forall {A} (f g : A -> bool) l, (forall x, In x l -> f x = g x) ->
  existsb f l = existsb g l.
Proof.
  intros A f g l H. induction l as [|x l IH]; [reflexivity|]. cbn.
  rewrite (H x (or_introl eq_refl)), IH; [reflexivity|]. intros y Hy. apply H. right. exact Hy.
Qed.

Lemma existsb_map : forall {A B} (f : B -> bool) (g : A -> B) l,
  existsb f (map g l) = existsb (fun x => f (g x)) l.
Proof. intros. induction l as [|x l IH]; [reflexivity|]. cbn. rewrite IH. reflexivity. Qed.

Lemma existsb_flat_map : forall {A B} (f : B -> bool) (g : A -> list B) l,
  existsb f (flat_map g l) = existsb (fun x => existsb f (g x)) l.
Proof.
  intros. induction l as [|x l IH]; [reflexivity|]. cbn. rewrite existsb_app, IH. reflexivity.
Qed.

Lemma inst_list_unify : forall r r' es es' l,
  (forall e w d, In e es -> wf w -> inst (unify e w) d = inst e d && inst w d) ->
  (forall u w d, r = Some u -> wf w -> inst (unify u w) d = inst u d && inst w d) ->
  (forall e, In e es' -> wf e) -> opt_all wf r' ->
  match unify_list r r' es es' with
  | Some x => inst_list (match r, r' with Some u, Some w => Some (unify u w) | _, _ => None end) x l
  | None => false
  end = inst_list r es l && inst_list r' es' l.
Proof.
  intros r r' es. induction es as [|e es IH]; intros es' l HE HR W' WR'.
  - destruct es' as [|e' es'].
    + cbn. destruct r as [u|], r' as [w|]; cbn in WR'.
      * rewrite <- forallb_and. induction l as [|x l IHl]; [reflexivity|]. cbn.
        rewrite IHl, (HR u w x eq_refl WR'). reflexivity.
      * destruct l; [reflexivity|]. rewrite andb_false_r. reflexivity.
      * destruct l; reflexivity.
      * destruct l; reflexivity.
    + cbn [unify_list]. destruct r as [u|].
      * change (inst_list (Some u) [] l) with (forallb (inst u) l).
        revert l. generalize (e' :: es') W'. clear e' es' W'. intros es' W'.
        induction es' as [|e' es' IH']; intros l.
        -- cbn. destruct r' as [w|]; cbn in WR'.
           ++ rewrite <- forallb_and. induction l as [|x l IHl]; [reflexivity|]. cbn.
              rewrite IHl, (HR u w x eq_refl WR'). reflexivity.
           ++ destruct l; [reflexivity|]. rewrite andb_false_r. reflexivity.
        -- cbn [map]. destruct l as [|x l]; [reflexivity|]. cbn [inst_list forallb].
           rewrite IH' by (intros y Hy; apply W'; right; exact Hy).
           rewrite (HR u e' x eq_refl (W' e' (or_introl eq_refl))).
           destruct (inst u x), (inst e' x), (forallb (inst u) l); reflexivity.
      * cbn. destruct l; [|reflexivity]. reflexivity.
  - destruct es' as [|e' es'].
    + cbn [unify_list]. destruct r' as [w|]; cbn in WR'.
      * change (inst_list (Some w) [] l) with (forallb (inst w) l). clear IH. revert l HE.
        generalize (e :: es). clear e es. intros es.
        induction es as [|e es IH']; intros l HE.
        -- cbn. destruct r as [u|].
           ++ rewrite <- forallb_and. induction l as [|x l IHl]; [reflexivity|]. cbn.
              rewrite IHl, (HR u w x eq_refl WR'). reflexivity.
           ++ destruct l; reflexivity.
        -- cbn [map]. destruct l as [|x l]; [reflexivity|]. cbn [inst_list forallb].
           rewrite (IH' l) by (intros e0 w0 d0 He0; apply HE; right; exact He0).
           rewrite (HE e w x (or_introl eq_refl) WR').
           destruct (inst e x), (inst w x), (inst_list r es l); reflexivity.
      * cbn. destruct l; [reflexivity|]. rewrite andb_false_r. reflexivity.
    + cbn [unify_list]. destruct l as [|x l].
      { destruct (unify_list r r' es es'); reflexivity. }
      cbn [inst_list].
      specialize (IH es' l).
      destruct (unify_list r r' es es') as [y|].
      * cbn [inst_list]. rewrite IH; auto.
        -- rewrite (HE e e' x (or_introl eq_refl) (W' e' (or_introl eq_refl))).
           destruct (inst e x), (inst e' x), (inst_list r es l); reflexivity.
        -- intros e0 w0 d0 He0. apply HE. right. exact He0.
        -- intros y0 Hy0. apply W'. right. exact Hy0.
      * assert (E : false = inst_list r es l && inst_list r' es' l).
        { apply IH; auto.
          - intros e0 w0 d0 He0. apply HE. right. exact He0.
          - intros y0 Hy0. apply W'. right. exact Hy0. }
        destruct (inst e x), (inst e' x), (inst_list r es l); cbn in *; congruence.
Qed.

Lemma inst_or_l : forall ds w d,
  (forall x, In x ds -> inst (unify (snd x) w) d = inst (snd x) d && inst w d) ->
  inst (mk_or (map (fun x : bool * val => (fst x, unify (snd x) w)) ds)) d = inst (VOr ds) d && inst w d.
Proof.
  intros ds w d H. rewrite inst_mk_or, existsb_map. cbn [snd inst].
  rewrite (existsb_ext_in _ (fun x => inst w d && inst (snd x) d)).
  - rewrite existsb_and_l, andb_comm. reflexivity.
  - intros x Hx. rewrite (H x Hx). apply andb_comm.
Qed.

Lemma inst_or_r : forall u ds d,
  (forall x, In x ds -> inst (unify u (snd x)) d = inst u d && inst (snd x) d) ->
  inst (mk_or (map (fun x : bool * val => (fst x, unify u (snd x))) ds)) d = inst u d && inst (VOr ds) d.
Proof.
  intros u ds d H. rewrite inst_mk_or, existsb_map. cbn [snd inst].
  rewrite (existsb_ext_in _ (fun x => inst u d && inst (snd x) d)).
  - apply existsb_and_l.
  - intros x Hx. apply (H x Hx).
Qed.

Definition is_or (v : val) : bool := match v with VOr _ => true | _ => false end.

Lemma unify_or_r : forall u ds, is_or u = false -> u <> VBot -> u <> VTop ->
  unify u (VOr ds) = mk_or (map (fun x : bool * val => (fst x, unify u (snd x))) ds).
Proof.
  intros u ds H1 H2 H3. destruct u; try discriminate; try contradiction; try reflexivity.
Qed.

Lemma unify_or_l : forall ds w, is_or w = false -> w <> VBot -> w <> VTop ->
  unify (VOr ds) w = mk_or (map (fun x : bool * val => (fst x, unify (snd x) w)) ds).
Proof.
  intros ds w H1 H2 H3. destruct w; try discriminate; try contradiction; reflexivity.
Qed.

(** Unification admits exactly the data both operands admit. *)
Lemma inst_unify : forall u, wf u -> forall w, wf w -> forall d,
  inst (unify u w) d = inst u d && inst w d.
Proof.
  intros u. induction u as [| |a|t|lo hi|ds IH|es r IHe IHr|fs rest IHf IHr] using val_ind';
    intros WU w; induction w as [| |a'|t'|lo' hi'|ds' IH'|es' r' IHe' IHr'|fs' rest' IHf' IHr'] using val_ind';
    intros WW d; rewrite ?unify_VTop_r, ?unify_VTop_l; try reflexivity;
    try (cbn [inst]; rewrite ?andb_true_r, ?andb_false_r; reflexivity);
    try (apply (inst_scalar _ _ d); reflexivity).
  all: try (destruct d; reflexivity).
  all: try (destruct d; cbn [unify inst]; rewrite ?andb_false_r; reflexivity).
  all: try (rewrite unify_or_r by (reflexivity || discriminate); apply inst_or_r; intros x Hx; rewrite Forall_forall in IH';
            apply (IH' x Hx (wf_or _ WW x Hx))).
  all: try (rewrite unify_or_l by (reflexivity || discriminate); apply inst_or_l; intros x Hx; rewrite Forall_forall in IH;
            apply (IH x Hx (wf_or _ WU x Hx) _ WW)).
  - change (inst (mk_or (flat_map (fun x : bool * val =>
               map (fun y : bool * val =>
                 ((existsb fst ds || existsb fst ds') && (fst x || negb (existsb fst ds))
                  && (fst y || negb (existsb fst ds')),
                  unify (snd x) (snd y))) ds') ds)) d = inst (VOr ds) d && inst (VOr ds') d).
    rewrite inst_mk_or, existsb_flat_map.
    rewrite (existsb_ext_in _ (fun x : bool * val => inst (VOr ds') d && inst (snd x) d)).
    + rewrite existsb_and_l. apply andb_comm.
    + intros x Hx. rewrite existsb_map. cbn [snd].
      rewrite (existsb_ext_in _ (fun y : bool * val => inst (snd x) d && inst (snd y) d)).
      * rewrite existsb_and_l. apply andb_comm.
      * intros y Hy. rewrite Forall_forall in IH.
        apply (IH x Hx (wf_or _ WU x Hx) _ (wf_or _ WW y Hy)).
  - rewrite unify_VList. destruct d as [b|l|df].
    1,3: destruct (unify_list r r' es es'); [rewrite inst_mk_list|]; reflexivity.
    rewrite !inst_VList. apply wf_list in WU as [WU1 WU2]. apply wf_list in WW as [WW1 WW2].
    rewrite <- inst_list_unify; auto.
    + destruct (unify_list r r' es es'); [|reflexivity]. rewrite inst_mk_list, inst_VList. reflexivity.
    + intros e w d He Ww. rewrite Forall_forall in IHe. apply (IHe e He (WU1 e He) w Ww).
    + intros u w d -> Ww. apply (IHr WU2 w Ww).
  - rewrite unify_VStruct. apply wf_struct in WU as [N [WU1 WU2]]. apply wf_struct in WW as [N' [WW1 WW2]].
    rewrite inst_mk_struct by (apply nodup_unify; assumption).
    destruct d as [b|l|df]; try reflexivity. rewrite !inst_VStruct.
    rewrite required_unify by assumption.
    assert (E : forallb (fun kx => inst_at (map (unify_left fs' rest') fs ++ flat_map (unify_right fs rest) fs')
                       match rest with Some u => match rest' with Some w => Some (unify u w) | None => None end
                                     | None => None end (fst kx) (snd kx)) df
              = forallb (fun kx => inst_at fs rest (fst kx) (snd kx)) df
                && forallb (fun kx => inst_at fs' rest' (fst kx) (snd kx)) df).
    { rewrite <- forallb_and. apply forallb_ext'. intros [k x]. cbn [fst snd]. unfold inst_at.
      rewrite field_of_app, field_of_map by (intros f; apply unify_left_label).
      rewrite Forall_forall in IHf.
      destruct (field_of k fs) as [f|] eqn:F.
      - apply field_of_some in F as [Hf Ef]. unfold unify_left. rewrite Ef.
        destruct (field_of k fs') as [f'|] eqn:F'; cbn [snd].
        + apply field_of_some in F' as [Hf' _]. apply (IHf f Hf (WU1 f Hf) _ (WW1 f' Hf')).
        + destruct rest' as [w|]; [|cbn; rewrite andb_false_r; reflexivity].
          apply (IHf f Hf (WU1 f Hf) _ WW2).
      - rewrite field_of_right by exact F. destruct (field_of k fs') as [f'|] eqn:F'; cbn [snd].
        + apply field_of_some in F' as [Hf' _]. destruct rest as [u|]; [|reflexivity].
          apply (IHr WU2 _ (WW1 f' Hf')).
        + destruct rest as [u|], rest' as [w|]; try reflexivity.
          * apply (IHr WU2 _ WW2).
          * rewrite andb_false_r. reflexivity. }
    rewrite E.
    destruct (forallb (fun kx => inst_at fs rest (fst kx) (snd kx)) df),
      (forallb (fun kx => inst_at fs' rest' (fst kx) (snd kx)) df),
      (forallb (fun f => fopt f || has_label (flabel f) df) fs); reflexivity.
Qed.
