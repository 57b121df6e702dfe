(** Proofs about Gocode.v. *)
From Verif Require Import Prelude Strings Gocode.
Local Open Scope string_scope.
Local Open Scope list_scope.

(** *** Induction on types *)

Section GInd.
  Variable P : gtype -> Prop.
  Hypothesis Hi : forall n, P (TIdent n).
  Hypothesis Hs : forall t, P t -> P (TStar t).
  Hypothesis Ha : forall t, P t -> P (TArray t).
  Hypothesis Hm : forall k v, P k -> P v -> P (TMap k v).
  Hypothesis Ht : forall fs, Forall (fun f : field => P (snd f)) fs -> P (TStruct fs).
  Hypothesis Hl : forall x s, P (TSel x s).
  Hypothesis Ho : forall s, P (TOther s).
  Fixpoint gtype_rect' (t : gtype) : P t :=
    match t with
    | TIdent n => Hi n
    | TStar u => Hs u (gtype_rect' u)
    | TArray u => Ha u (gtype_rect' u)
    | TMap k v => Hm k v (gtype_rect' k) (gtype_rect' v)
    | TStruct fs => Ht fs
        ((fix go l : Forall (fun f : field => P (snd f)) l :=
            match l with [] => Forall_nil _ | f :: r => Forall_cons f (gtype_rect' (snd f)) (go r) end) fs)
    | TSel x s => Hl x s
    | TOther s => Ho s
    end.
End GInd.

Lemma map_ext_F {A B} (f g : A -> B) l : Forall (fun x => f x = g x) l -> map f l = map g l.
Proof. induction 1; simpl; congruence. Qed.

(** *** depointerizer *)

Definition slice_or_map (t : gtype) : Prop :=
  (exists e, t = TArray e) \/ (exists k v, t = TMap k v).

(** A field of type [t] is to lose its pointer. *)
Definition loses (all : bool) (t : gtype) : Prop :=
  exists u, t = TStar u /\ (all = true \/ slice_or_map u).

(** [pruned all t t']: [t'] is [t] where the fields that are to lose their
    pointer have lost it, and nothing else is different. *)
Inductive pruned (all : bool) : gtype -> gtype -> Prop :=
| pr_ident : forall n, pruned all (TIdent n) (TIdent n)
| pr_star : forall t t', pruned all t t' -> pruned all (TStar t) (TStar t')
| pr_array : forall t t', pruned all t t' -> pruned all (TArray t) (TArray t')
| pr_map : forall k k' v v', pruned all k k' -> pruned all v v' -> pruned all (TMap k v) (TMap k' v')
| pr_struct : forall fs fs',
    Forall2 (fun f f' : field => fst f' = fst f /\
      ((loses all (snd f) /\ (exists u, snd f = TStar u /\ pruned all u (snd f'))) \/
       (~ loses all (snd f) /\ pruned all (snd f) (snd f')))) fs fs' ->
    pruned all (TStruct fs) (TStruct fs')
| pr_sel : forall x s, pruned all (TSel x s) (TSel x s)
| pr_other : forall s, pruned all (TOther s) (TOther s).

Definition pruned_field (all : bool) (f f' : field) : Prop :=
  fst f' = fst f /\
  ((loses all (snd f) /\ (exists u, snd f = TStar u /\ pruned all u (snd f'))) \/
   (~ loses all (snd f) /\ pruned all (snd f) (snd f'))).

Inductive pruned_spec (all : bool) : spec -> spec -> Prop :=
| ps_type : forall n t t', pruned all t t' -> pruned_spec all (SType n t) (SType n t')
| ps_value : forall ns t t', pruned all t t' -> pruned_spec all (SValue ns (Some t)) (SValue ns (Some t'))
| ps_value_none : forall ns, pruned_spec all (SValue ns None) (SValue ns None)
| ps_import : forall p, pruned_spec all (SImport p) (SImport p).

Inductive pruned_decl (all : bool) : decl -> decl -> Prop :=
| pd_gen : forall c ss ss', Forall2 (pruned_spec all) ss ss' -> pruned_decl all (DGen c ss) (DGen c ss')
| pd_func : forall c n sig sig', Forall2 (pruned_field all) sig sig' ->
    pruned_decl all (DFunc c None n sig) (DFunc c None n sig')
| pd_method : forall c r r' n sig sig', Forall2 (pruned_field all) r r' ->
    Forall2 (pruned_field all) sig sig' ->
    pruned_decl all (DFunc c (Some r) n sig) (DFunc c (Some r') n sig').

Lemma depoint_field_cases all t :
  (loses all t /\ exists u, t = TStar u /\ depoint_field all t = u) \/
  (~ loses all t /\ depoint_field all t = t).
Proof.
  destruct t as [n|u|u|k v|fs|x s|s];
    try (right; split; [intros (w & E & _); discriminate|reflexivity]).
  destruct all.
  - left. split; [exists u; auto|]. exists u. auto.
  - destruct u as [n|u|u|k v|fs|x s|s]; simpl;
      try (right; split; [intros (w & E & [H|[(? & H)|(? & ? & H)]]); congruence|reflexivity]).
    + left. split; [exists (TArray u); split; auto; right; left; eauto|eauto].
    + left. split; [exists (TMap k v); split; auto; right; right; eauto|eauto].
Qed.

Lemma loses_visit all pre t : loses all (visit pre t) <-> loses all t.
Proof.
  unfold loses, slice_or_map.
  destruct t; simpl; split; intros (u & E & H); try discriminate;
    inversion E; subst; clear E; eexists; split; eauto.
  - destruct H as [H|[(e & H)|(k & v & H)]]; auto; destruct t; try discriminate; right; eauto.
  - destruct H as [H|[(e & H)|(k & v & H)]]; auto; subst; right; simpl; eauto.
Qed.

Lemma pruned_visit all t : pruned all t (visit (depoint_field all) t).
Proof.
  induction t using gtype_rect'; simpl; try (constructor; assumption).
  constructor. induction H; simpl; constructor; auto. clear IHForall H0.
  simpl. split; auto.
  destruct (depoint_field_cases all (visit (depoint_field all) (snd x))) as [(L & u & E & D)|(L & D)];
    rewrite loses_visit in L; [left|right]; split; auto; rewrite D; auto.
  destruct L as (w & E' & _). rewrite E' in *. simpl in E. inversion E; subst.
  exists w. split; auto. inversion H; subst; auto.
Qed.

Lemma pruned_det all t : forall a, pruned all t a -> a = visit (depoint_field all) t.
Proof.
  induction t using gtype_rect'; intros a Ha; inversion Ha; subst; simpl;
    try (f_equal; auto; fail).
  f_equal. clear Ha. revert fs' H1.
  induction H as [|f r Hf Hr IHr]; intros gs Hg; inversion Hg as [|? y ? ? H2 H3]; subst; auto.
  simpl. f_equal; [|apply IHr; auto].
  destruct H2 as (E1 & H2). destruct y as [yn yt]; simpl in *. f_equal; [congruence|].
  destruct (depoint_field_cases all (visit (depoint_field all) (snd f))) as [(L & u & E & D)|(L & D)];
    rewrite loses_visit in L; destruct H2 as [(L' & u' & E' & P)|(L' & P)]; try tauto; rewrite D.
  - rewrite E' in Hf, E. simpl in E. inversion E; subst u.
    specialize (Hf (TStar yt) (pr_star all _ _ P)). simpl in Hf. congruence.
  - apply Hf, P.
Qed.

Lemma pruned_field_iff all f f' : pruned_field all f f' <-> f' = visit_field (depoint_field all) f.
Proof.
  unfold pruned_field, visit_field.
  assert (S : pruned_field all f f' <-> pruned all (TStruct [f]) (TStruct [f'])).
  { split; intros H.
    - constructor. apply Forall2_cons; [exact H|apply Forall2_nil].
    - inversion H as [| | | |? ? F| |]; subst. inversion F; subst. assumption. }
  unfold pruned_field in S. rewrite S. split.
  - intros H. apply pruned_det in H. simpl in H. inversion H. auto.
  - intros ->. apply (pruned_visit all (TStruct [f])).
Qed.

Lemma F2_map {A B} (R : A -> B -> Prop) (f : A -> B) :
  (forall x y, R x y <-> y = f x) -> forall l l', Forall2 R l l' <-> l' = map f l.
Proof.
  intros H l. induction l as [|x l IH]; intros l'; split; intros E.
  - inversion E; auto.
  - subst; constructor.
  - inversion E; subst. simpl. f_equal; [apply H|apply IH]; auto.
  - subst. constructor; [apply H; auto|apply IH; auto].
Qed.

Lemma pruned_spec_iff all s s' : pruned_spec all s s' <-> s' = visit_spec (depoint_field all) s.
Proof.
  split.
  - intros H; inversion H; subst; simpl; auto; repeat f_equal; apply pruned_det; auto.
  - intros ->. destruct s as [n t|ns [t|]|p]; simpl; constructor; apply pruned_visit.
Qed.

Lemma pruned_decl_iff all d d' : pruned_decl all d d' <-> d' = visit_decl (depoint_field all) d.
Proof.
  split.
  - intros H; inversion H; subst; simpl; f_equal;
      try (apply (F2_map _ _ (pruned_spec_iff all)); auto; fail);
      try (f_equal; apply (F2_map _ _ (pruned_field_iff all)); auto; fail);
      apply (F2_map _ _ (pruned_field_iff all)); auto.
  - intros ->. destruct d as [c ss|c [r|] n sig]; simpl; constructor;
      try (apply (F2_map _ _ (pruned_spec_iff all)); auto; fail);
      apply (F2_map _ _ (pruned_field_iff all)); auto.
Qed.

Lemma depointerizer_exact all f f' :
  Forall2 (pruned_decl all) f f' <-> f' = depointerizer all f.
Proof. apply F2_map, pruned_decl_iff. Qed.

(** The types of all fields, of structs, receivers, parameters and results. *)
Fixpoint field_types (t : gtype) : list gtype :=
  match t with
  | TStar u | TArray u => field_types u
  | TMap k v => field_types k ++ field_types v
  | TStruct fs => flat_map (fun f => snd f :: field_types (snd f)) fs
  | _ => []
  end.
Definition spec_field_types (s : spec) : list gtype :=
  match s with
  | SType _ t | SValue _ (Some t) => field_types t
  | _ => []
  end.
Definition sig_field_types (l : list field) : list gtype :=
  flat_map (fun f => snd f :: field_types (snd f)) l.
Definition decl_field_types (d : decl) : list gtype :=
  match d with
  | DGen _ ss => flat_map spec_field_types ss
  | DFunc _ r _ sig => sig_field_types (match r with Some l => l | None => [] end) ++ sig_field_types sig
  end.
Definition file_field_types (f : list decl) : list gtype := flat_map decl_field_types f.

Section FieldTypes.
  Variable pre : gtype -> gtype.
  Hypothesis pre_sub : forall t, incl (field_types (pre t)) (field_types t).

  (** Every field of the result is [pre] of a field of the input whose inner
      fields were visited. *)
  Lemma field_types_visit t :
    incl (field_types (visit pre t)) (map (fun u => pre (visit pre u)) (field_types t)).
  Proof.
    induction t using gtype_rect'; simpl; try (intros ? []; fail); auto.
    - rewrite map_app. apply incl_app; [apply incl_appl|apply incl_appr]; auto.
    - induction H; simpl; [intros ? []|]. apply incl_cons; [left; auto|].
      rewrite map_app. apply incl_app; [|right; apply in_or_app; right; auto].
      intros y Hy. right. apply in_or_app. left. apply H. apply pre_sub. auto.
  Qed.

  Lemma sig_field_types_visit l :
    incl (sig_field_types (map (visit_field pre) l)) (map (fun u => pre (visit pre u)) (sig_field_types l)).
  Proof.
    induction l as [|f l IH]; simpl; [intros ? []|]. apply incl_cons; [left; auto|].
    rewrite map_app. apply incl_app; [|right; apply in_or_app; right; auto].
    intros y Hy. right. apply in_or_app. left. apply field_types_visit, pre_sub, Hy.
  Qed.

  Lemma file_field_types_visit f :
    incl (file_field_types (map (visit_decl pre) f)) (map (fun u => pre (visit pre u)) (file_field_types f)).
  Proof.
    unfold file_field_types. induction f as [|d f IH]; simpl; [intros ? []|].
    rewrite map_app. apply incl_app; [apply incl_appl|apply incl_appr; auto].
    destruct d as [c ss|c r n sig]; simpl.
    - induction ss as [|s ss IHs]; simpl; [intros ? []|].
      rewrite map_app. apply incl_app; [apply incl_appl|apply incl_appr; auto].
      destruct s as [n t|ns [t|]|p]; simpl; try (intros ? []; fail); apply field_types_visit.
    - rewrite map_app. apply incl_app; [apply incl_appl|apply incl_appr; apply sig_field_types_visit].
      destruct r as [r|]; simpl; [apply sig_field_types_visit|intros ? []].
  Qed.

  (** A [pre] that leaves all fields of a file alone leaves the file alone. *)
  Lemma visit_id t : (forall u, In u (field_types t) -> pre u = u) -> visit pre t = t.
  Proof.
    induction t using gtype_rect'; simpl; intros Hu; try (f_equal; auto; fail).
    - f_equal; [apply IHt1|apply IHt2]; intros; apply Hu, in_or_app; auto.
    - f_equal. clear pre_sub. induction H as [|f r Hf Hr IH]; simpl; auto.
      rewrite Hf, Hu, IH; [destruct f; auto|..]; simpl; auto.
      + intros. apply Hu. right. simpl. apply in_or_app. auto.
      + intros. apply Hu. right. simpl. apply in_or_app. auto.
  Qed.

  Lemma visit_sig_id l : (forall u, In u (sig_field_types l) -> pre u = u) -> map (visit_field pre) l = l.
  Proof.
    induction l as [|f l IH]; intros H; simpl; auto. f_equal.
    - unfold visit_field. rewrite visit_id, H; [destruct f; auto|left; auto|].
      intros u Hu. apply H. right. simpl. apply in_or_app. auto.
    - apply IH. intros u Hu. apply H. simpl. right. apply in_or_app. auto.
  Qed.

  Lemma visit_file_id f :
    (forall u, In u (file_field_types f) -> pre u = u) -> map (visit_decl pre) f = f.
  Proof.
    unfold file_field_types. induction f as [|d f IH]; intros H; simpl; auto. f_equal.
    - assert (Hd : forall u, In u (decl_field_types d) -> pre u = u)
        by (intros; apply H, in_or_app; auto).
      destruct d as [c ss|c r n sig]; simpl in *; f_equal.
      + induction ss as [|s ss IHs]; simpl; auto. simpl in Hd. f_equal.
        * destruct s as [n t|ns [t|]|p]; simpl in *; auto; rewrite visit_id; auto;
            intros; apply Hd, in_or_app; auto.
        * apply IHs; [|intros; apply Hd, in_or_app; auto].
          intros u Hu. simpl in Hu. apply in_app_or in Hu. destruct Hu; [|apply H, in_or_app; auto].
          apply Hd, in_or_app. auto.
      + destruct r as [r|]; simpl; auto. f_equal. apply visit_sig_id.
        intros; apply Hd, in_or_app; auto.
      + apply visit_sig_id. intros; apply Hd, in_or_app; auto.
    - apply IH. intros; apply H, in_or_app; auto.
  Qed.
End FieldTypes.

Lemma depoint_field_sub all t : incl (field_types (depoint_field all t)) (field_types t).
Proof.
  destruct (depoint_field_cases all t) as [(_ & u & -> & ->)|(_ & ->)]; apply incl_refl.
Qed.

Lemma depoint_no_pointers f t :
  In t (file_field_types (depointerizer false f)) -> ~ exists u, t = TStar u /\ slice_or_map u.
Proof.
  intros Hi. apply (file_field_types_visit _ (depoint_field_sub false)) in Hi.
  apply in_map_iff in Hi. destruct Hi as (x & <- & _). intros (w & E & Hw).
  destruct (depoint_field_cases false (visit (depoint_field false) x)) as [(L & u & E' & D)|(L & D)];
    rewrite D in E.
  - subst u. destruct L as (u & L & [Hl|Hl]); [discriminate|]. rewrite L in E'. inversion E'; subst.
    destruct Hl as [(? & ?)|(? & ? & ?)]; congruence.
  - apply L. exists w. auto.
Qed.

Lemma depoint_all_pointers f t :
  In (TStar t) (file_field_types (depointerizer true f)) ->
  exists u, In (TStar (TStar u)) (file_field_types f).
Proof.
  intros Hi. apply (file_field_types_visit _ (depoint_field_sub true)) in Hi.
  apply in_map_iff in Hi. destruct Hi as (x & E & Hx).
  destruct x as [n|u|u|k v|fs|a b|s]; simpl in E; try discriminate.
  destruct u as [n|u|u|k v|fs|a b|s]; simpl in E; try discriminate. eauto.
Qed.

Lemma depoint_idem f : depointerizer false (depointerizer false f) = depointerizer false f.
Proof.
  unfold depointerizer at 1. apply visit_file_id. intros u Hu.
  destruct (depoint_field_cases false u) as [(L & _)|(_ & D)]; auto.
  destruct L as (w & -> & [H|H]); [discriminate|].
  exfalso. apply (depoint_no_pointers _ _ Hu). eauto.
Qed.

Lemma depoint_all_idem f :
  (forall u, ~ In (TStar (TStar u)) (file_field_types f)) ->
  depointerizer true (depointerizer true f) = depointerizer true f.
Proof.
  intros H. unfold depointerizer at 1. apply visit_file_id. intros u Hu.
  destruct (depoint_field_cases true u) as [((w & -> & _) & _)|(_ & D)]; auto.
  destruct (depoint_all_pointers _ _ Hu) as (v & Hv). destruct (H _ Hv).
Qed.

(** *** Renaming *)

(** The names that occur in a type as references to types, and their renaming. *)
Fixpoint idents (t : gtype) : list string :=
  match t with
  | TIdent n => [n]
  | TStar u | TArray u => idents u
  | TMap k v => idents k ++ idents v
  | TStruct fs => flat_map (fun f => idents (snd f)) fs
  | _ => []
  end.

Fixpoint rename (r : string -> string) (t : gtype) : gtype :=
  match t with
  | TIdent n => TIdent (r n)
  | TStar u => TStar (rename r u)
  | TArray u => TArray (rename r u)
  | TMap k v => TMap (rename r k) (rename r v)
  | TStruct fs => TStruct (map (fun f => (fst f, rename r (snd f))) fs)
  | TSel x s => TSel x s
  | TOther s => TOther s
  end.

Lemma idents_rename r t : idents (rename r t) = map r (idents t).
Proof.
  induction t using gtype_rect'; simpl; auto.
  - rewrite map_app; congruence.
  - induction H; simpl; auto. rewrite map_app. congruence.
Qed.

Lemma rename_ext r r' t : (forall n, In n (idents t) -> r n = r' n) -> rename r t = rename r' t.
Proof.
  induction t using gtype_rect'; simpl; intros E; try (f_equal; auto; fail).
  - f_equal; [apply IHt1|apply IHt2]; intros; apply E, in_or_app; auto.
  - f_equal. induction H as [|f l Hf Hl IH]; simpl; auto. rewrite Hf, IH; auto;
      intros; apply E; simpl; apply in_or_app; auto.
Qed.

Lemma rename_id r t : (forall n, In n (idents t) -> r n = n) -> rename r t = t.
Proof.
  intros H. rewrite (rename_ext r (fun n => n) t H). clear H.
  induction t using gtype_rect'; simpl; try congruence.
  f_equal. induction H as [|f l Hf Hl IH]; simpl; auto. rewrite Hf, IH. destruct f; auto.
Qed.

(** [iterate fn] and visiting rename some of the identifiers. *)
Section Some.
  Variable r : string -> string.
  Hypothesis r_idem : forall n, r (r n) = r n.

  Lemma rename_iterate p t : rename r (iterate r p t) = rename r t.
  Proof.
    revert p. induction t using gtype_rect'; intros p; simpl; auto.
    - congruence.
    - destruct p; simpl; auto. rewrite IHt; auto.
    - rewrite IHt; auto.
    - destruct p; simpl; auto; rewrite IHt2; auto.
    - assert (E : forall p, map (fun f => (fst f, rename r (snd f)))
                    (map (fun f => (fst f, iterate r p (snd f))) fs)
                  = map (fun f => (fst f, rename r (snd f))) fs).
      { intros q. rewrite map_map. apply map_ext_F. eapply Forall_impl; [|exact H].
        simpl. intros f Hf. rewrite Hf. auto. }
      destruct p; simpl; rewrite ?E; auto.
  Qed.

  Lemma rename_iterate_spec t : rename r (iterate_spec r t) = rename r t.
  Proof. destruct t; auto; apply rename_iterate. Qed.

  Lemma rename_visit pre (H : forall t, rename r (pre t) = rename r t) t :
    rename r (visit pre t) = rename r t.
  Proof.
    induction t using gtype_rect'; simpl; try congruence.
    f_equal. rewrite map_map. apply map_ext_F. eapply Forall_impl; [|exact H0].
    simpl. intros f Hf. rewrite H, Hf. auto.
  Qed.

  Lemma iterate_id p t : (forall n, In n (idents t) -> r n = n) -> iterate r p t = t.
  Proof.
    revert p. induction t using gtype_rect'; intros p E; simpl; auto.
    - rewrite E; simpl; auto.
    - destruct p; rewrite ?IHt; auto.
    - rewrite IHt; auto.
    - destruct p; auto; rewrite IHt2; auto; intros; apply E; simpl; apply in_or_app; auto.
    - assert (E' : forall p, map (fun f => (fst f, iterate r p (snd f))) fs = fs).
      { intros q. simpl in E. induction H as [|f l Hf Hl IH]; simpl; auto. rewrite Hf, IH.
        - destruct f; auto.
        - intros; apply E; simpl; apply in_or_app; auto.
        - intros; apply E; simpl; apply in_or_app; auto. }
      destruct p; rewrite ?E'; auto.
  Qed.
End Some.

(** *** fixUnderscoreInTypeName *)

Lemma prefix_us c r : String.prefix "_" (String c r) = Ascii.eqb "_" c.
Proof.
  cbn [String.prefix]. destruct (ascii_dec "_" c) as [<-|n].
  - destruct r; reflexivity.
  - symmetry. apply Ascii.eqb_neq, n.
Qed.

Lemma contains_strip n : contains n "_" = false <-> strip n = n.
Proof.
  assert (L : forall n, String.length (strip n) <= String.length n).
  { induction n0 as [|c r IH]; simpl; auto. destruct (Ascii.eqb c "_"); simpl; lia. }
  induction n as [|c r IH]; [split; auto|].
  change (contains (String c r) "_") with (String.prefix "_" (String c r) || contains r "_").
  rewrite prefix_us, Ascii.eqb_sym. cbn [strip].
  destruct (Ascii.eqb c "_"); cbn [orb].
  - split; [discriminate|]. intros E. specialize (L r). rewrite E in L. simpl in L. lia.
  - rewrite IH. split; congruence.
Qed.

Lemma withoutUnderscore_strip n : withoutUnderscore n = strip n.
Proof.
  unfold withoutUnderscore. destruct (contains n "_") eqn:E; auto.
  symmetry. apply contains_strip, E.
Qed.

Lemma strip_idem n : strip (strip n) = strip n.
Proof.
  induction n as [|c r IH]; simpl; auto.
  destruct (Ascii.eqb c "_") eqn:E; auto. simpl. rewrite E, IH. auto.
Qed.

(** No name in [t] has an underscore. *)
Definition clean (t : gtype) : bool := forallb (fun n => negb (contains n "_")) (idents t).

(** The shapes in which every reference is found: the type of a field may be a
    name, a pointer to a name, a slice, a map or a struct; the elements of slices
    may not be pointers or maps, the values of maps may not be pointers. Other
    shapes may occur where no name in them has an underscore. *)
Fixpoint supported (p : place) (t : gtype) : bool :=
  clean t ||
  match t with
  | TIdent _ => true
  | TStar u => match p, u with PField, TIdent _ => true | _, _ => false end
  | TArray e => supported PElt e
  | TMap k v => match p with PElt => false | _ => clean k && supported PVal v end
  | TStruct fs => forallb (fun f => supported PField (snd f)) fs
  | TSel _ _ | TOther _ => true
  end.

Definition supported_type (t : gtype) : bool :=
  clean t || match t with TStruct _ | TMap _ _ | TArray _ => supported PTop t | _ => false end.

Definition clean_spec (s : spec) : bool :=
  match s with
  | SType n t => negb (contains n "_") && clean t
  | SValue _ (Some t) => clean t
  | _ => true
  end.

(** One type per declaration, as the generator writes them, with a comment if the
    name is to change; functions and other declarations mention no name with an
    underscore. *)
Definition supported_decl (d : decl) : bool :=
  match d with
  | DGen c (SType n t :: r) =>
      (negb (contains n "_") || negb (match c with [] => true | _ => false end))
      && supported_type t && forallb clean_spec r
  | DGen _ [] => false
  | DGen _ ss => forallb clean_spec ss
  | DFunc _ r _ sig =>
      forallb (fun f => supported PField (snd f)) (match r with Some l => l | None => [] end)
      && forallb (fun f => supported PField (snd f)) sig
  end.

(** The specification: every type name and every reference is renamed, and the
    old name is replaced in the first comment of the declaration. *)
Definition rename_spec (r : string -> string) (s : spec) : spec :=
  match s with
  | SType n t => SType (r n) (rename r t)
  | SValue ns t => SValue ns (option_map (rename r) t)
  | SImport p => SImport p
  end.
Definition rename_comment (r : string -> string) (n : string) (c : list string) : list string :=
  match c with
  | c0 :: cs => (if String.eqb (r n) n then c0 else replace_all c0 n (r n)) :: cs
  | [] => []
  end.
Definition rename_fields (r : string -> string) (l : list field) : list field :=
  map (fun f => (fst f, rename r (snd f))) l.
Definition rename_decl (r : string -> string) (d : decl) : decl :=
  match d with
  | DGen c ss =>
      DGen (match ss with SType n _ :: _ => rename_comment r n c | _ => c end) (map (rename_spec r) ss)
  | DFunc c rc n sig => DFunc c (option_map (rename_fields r) rc) n (rename_fields r sig)
  end.

Lemma clean_spec_iff t : clean t = true <-> forall n, In n (idents t) -> strip n = n.
Proof.
  unfold clean. rewrite forallb_forall. split; intros H n Hn; specialize (H n Hn).
  - apply contains_strip. destruct (contains n "_"); auto; discriminate.
  - apply contains_strip in H. rewrite H. auto.
Qed.

Lemma clean_without t : clean t = true -> forall n, In n (idents t) -> withoutUnderscore n = n.
Proof. intros H n Hn. rewrite withoutUnderscore_strip. rewrite clean_spec_iff in H. auto. Qed.

Lemma iterate_clean p t : clean t = true -> iterate withoutUnderscore p t = t.
Proof. intros H. apply iterate_id, clean_without, H. Qed.

Lemma find_clean t : clean t = true -> findFieldsWithUnderscores t = t.
Proof.
  intros H. destruct t as [n|u|u|k v|fs|x s|s]; simpl; auto.
  - rewrite (clean_without _ H); simpl; auto.
  - destruct u; auto. rewrite (clean_without _ H); simpl; auto.
  - pose proof (iterate_clean PTop _ H) as E. exact E.
  - pose proof (iterate_clean PTop _ H) as E. exact E.
Qed.

Lemma clean_fields fs f : clean (TStruct fs) = true -> In f fs -> clean (snd f) = true.
Proof.
  rewrite !clean_spec_iff. simpl. intros H Hf n Hn. apply H. apply in_flat_map. eauto.
Qed.

Lemma visit_clean t : clean t = true -> visit findFieldsWithUnderscores t = t.
Proof.
  intros H. induction t using gtype_rect'; simpl; auto.
  - rewrite IHt; auto.
  - rewrite IHt; auto.
  - rewrite clean_spec_iff in *. rewrite IHt1, IHt2; auto;
      intros; apply H; simpl; apply in_or_app; auto.
  - f_equal. rewrite Forall_forall in H0.
    rewrite <- (map_id fs) at 2. apply map_ext_in. intros f Hf.
    assert (C := clean_fields _ _ H Hf). rewrite H0, find_clean; auto. destruct f; auto.
Qed.

Lemma struct_clean fs : (forall f, In f fs -> clean (snd f) = true) -> clean (TStruct fs) = true.
Proof.
  intros H. apply clean_spec_iff. simpl. intros n Hn. apply in_flat_map in Hn.
  destruct Hn as (f & Hf & Hn). specialize (H f Hf). rewrite clean_spec_iff in H. auto.
Qed.

Lemma map_clean k v : clean k = true -> clean v = true -> clean (TMap k v) = true.
Proof.
  rewrite !clean_spec_iff. simpl. intros H H' n Hn. apply in_app_or in Hn. destruct Hn; auto.
Qed.

Lemma ident_clean n : clean (TIdent (withoutUnderscore n)) = true.
Proof.
  rewrite withoutUnderscore_strip. apply clean_spec_iff. simpl.
  intros m [<-|[]]. apply strip_idem.
Qed.

Lemma visit_supported t :
  (supported PField t = true -> clean (findFieldsWithUnderscores (visit findFieldsWithUnderscores t)) = true) /\
  (supported PTop t = true -> match t with TStruct _ | TMap _ _ | TArray _ => True | _ => clean t = true end ->
     clean (iterate withoutUnderscore PTop (visit findFieldsWithUnderscores t)) = true) /\
  (supported PElt t = true -> clean (iterate withoutUnderscore PElt (visit findFieldsWithUnderscores t)) = true) /\
  (supported PVal t = true -> clean (iterate withoutUnderscore PVal (visit findFieldsWithUnderscores t)) = true).
Proof.
  assert (C : forall t, clean t = true ->
    clean (findFieldsWithUnderscores (visit findFieldsWithUnderscores t)) = true /\
    forall p, clean (iterate withoutUnderscore p (visit findFieldsWithUnderscores t)) = true).
  { intros u Hu. rewrite visit_clean, find_clean; auto. split; auto. intros p. rewrite iterate_clean; auto. }
  induction t using gtype_rect'.
  - simpl. repeat split; intros; apply ident_clean.
  - destruct (clean (TStar t)) eqn:E; [destruct (C _ E); auto|].
    assert (X : forall p, supported p (TStar t) = match p, t with PField, TIdent _ => true | _, _ => false end)
      by (intros; cbn [supported]; rewrite E; auto).
    rewrite !X. repeat split; try discriminate.
    destruct t; try discriminate. intros _. simpl. apply (ident_clean n).
  - destruct (clean (TArray t)) eqn:E; [destruct (C _ E); auto|].
    assert (X : forall p, supported p (TArray t) = supported PElt t)
      by (intros; cbn [supported]; rewrite E; auto).
    rewrite !X. destruct IHt as (_ & _ & H & _). simpl.
    repeat split; intros; apply H; auto.
  - destruct (clean (TMap t1 t2)) eqn:E; [destruct (C _ E); auto|].
    assert (X : forall p, supported p (TMap t1 t2) = match p with PElt => false | _ => clean t1 && supported PVal t2 end)
      by (intros; cbn [supported]; rewrite E; auto).
    rewrite !X. destruct IHt2 as (_ & _ & _ & H). simpl.
    repeat split; intros Hs; try discriminate; apply andb_true_iff in Hs; destruct Hs;
      intros; apply map_clean; auto; rewrite visit_clean; auto.
  - destruct (clean (TStruct fs)) eqn:E; [destruct (C _ E); auto|].
    assert (X : forall p, supported p (TStruct fs) = forallb (fun f => supported PField (snd f)) fs)
      by (intros; cbn [supported]; rewrite E; auto).
    rewrite !X.
    assert (Y : forallb (fun f => supported PField (snd f)) fs = true ->
      clean (visit findFieldsWithUnderscores (TStruct fs)) = true).
    { rewrite forallb_forall. intros Hs. simpl. apply struct_clean. intros f Hf.
      apply in_map_iff in Hf. destruct Hf as (g & <- & Hg). simpl.
      rewrite Forall_forall in H. apply H; auto. }
    repeat split; intros Hs; intros; try rewrite iterate_clean; auto.
  - simpl. auto.
  - simpl. auto.
Qed.

Lemma supported_iterate t : forall p q, supported p t = true -> supported p (iterate withoutUnderscore q t) = true.
Proof.
  induction t using gtype_rect'; intros p q Hs; try exact Hs.
  - simpl. unfold clean. simpl. rewrite orb_true_r. auto.
  - destruct (clean (TStar t)) eqn:E; [rewrite iterate_clean; auto|].
    cbn [supported] in Hs. rewrite E in Hs. simpl in Hs.
    destruct p, t; try discriminate. destruct q; simpl; rewrite orb_true_r; auto.
  - destruct (clean (TArray t)) eqn:E; [rewrite iterate_clean; auto|].
    cbn [supported] in Hs. rewrite E in Hs. simpl in Hs. simpl. rewrite IHt, orb_true_r; auto.
  - destruct (clean (TMap t1 t2)) eqn:E; [rewrite iterate_clean; auto|].
    assert (Hs' := Hs). cbn [supported] in Hs. rewrite E in Hs. simpl in Hs.
    destruct p; try discriminate; apply andb_true_iff in Hs; destruct Hs as [H1 H2];
      destruct q; cbn [iterate]; try exact Hs'; cbn [supported]; rewrite H1, (IHt2 _ _ H2), orb_true_r; auto.
  - destruct (clean (TStruct fs)) eqn:E; [rewrite iterate_clean; auto|].
    assert (Hs' := Hs). cbn [supported] in Hs. rewrite E in Hs. simpl in Hs.
    assert (Z : forallb (fun f => supported PField (snd f))
        (map (fun f => (fst f, iterate withoutUnderscore PField (snd f))) fs) = true).
    { rewrite forallb_forall in *. intros f Hf. apply in_map_iff in Hf.
      destruct Hf as (g & <- & Hg). simpl. rewrite Forall_forall in H. apply H; auto. }
    destruct q; cbn [iterate]; try exact Hs'; cbn [supported]; rewrite Z, orb_true_r; auto.
Qed.

Lemma iterate_supported t :
  (supported PTop t = true -> match t with TStruct _ | TMap _ _ | TArray _ => True | _ => clean t = true end ->
     clean (visit findFieldsWithUnderscores (iterate withoutUnderscore PTop t)) = true) /\
  (supported PElt t = true -> clean (visit findFieldsWithUnderscores (iterate withoutUnderscore PElt t)) = true) /\
  (supported PVal t = true -> clean (visit findFieldsWithUnderscores (iterate withoutUnderscore PVal t)) = true).
Proof.
  assert (C : forall t, clean t = true ->
    forall p, clean (visit findFieldsWithUnderscores (iterate withoutUnderscore p t)) = true).
  { intros u Hu p. rewrite iterate_clean, visit_clean; auto. }
  induction t using gtype_rect'.
  - simpl. repeat split; intros; apply ident_clean.
  - destruct (clean (TStar t)) eqn:E; [auto using C|].
    assert (X : forall p, p <> PField -> supported p (TStar t) = false)
      by (intros [] ?; cbn [supported]; rewrite E; auto; congruence).
    rewrite !X by congruence. repeat split; discriminate.
  - destruct (clean (TArray t)) eqn:E; [auto using C|].
    assert (X : forall p, supported p (TArray t) = supported PElt t)
      by (intros; cbn [supported]; rewrite E; auto).
    rewrite !X. destruct IHt as (_ & H & _). simpl. repeat split; intros; apply H; auto.
  - destruct (clean (TMap t1 t2)) eqn:E; [auto using C|].
    assert (X : forall p, supported p (TMap t1 t2) = match p with PElt => false | _ => clean t1 && supported PVal t2 end)
      by (intros; cbn [supported]; rewrite E; auto).
    rewrite !X. destruct IHt2 as (_ & _ & H). simpl.
    repeat split; intros Hs; try discriminate; apply andb_true_iff in Hs; destruct Hs;
      intros; apply map_clean; auto; rewrite visit_clean; auto.
  - destruct (clean (TStruct fs)) eqn:E; [auto using C|].
    assert (X : forall p, supported p (TStruct fs) = forallb (fun f => supported PField (snd f)) fs)
      by (intros; cbn [supported]; rewrite E; auto).
    assert (Y : forall p, supported p (TStruct fs) = true ->
      clean (visit findFieldsWithUnderscores (iterate withoutUnderscore p (TStruct fs))) = true).
    { intros p Hp. assert (Hq : supported PField (TStruct fs) = true) by (rewrite X in *; auto).
      apply (supported_iterate _ PField p) in Hq.
      destruct p; exact (proj1 (visit_supported _) Hq). }
    repeat split; intros; apply Y; auto.
  - simpl. auto.
  - simpl. auto.
Qed.

Lemma find_rename t : rename strip (findFieldsWithUnderscores t) = rename strip t.
Proof.
  assert (E : forall p t, rename strip (iterate withoutUnderscore p t) = rename strip t).
  { intros p u. assert (X : iterate withoutUnderscore p u = iterate strip p u).
    { revert p. induction u using gtype_rect'; intros p; cbn [iterate].
      - rewrite withoutUnderscore_strip; auto.
      - destruct p; auto. rewrite IHu; auto.
      - rewrite IHu; auto.
      - destruct p; auto; rewrite IHu2; auto.
      - destruct p; auto; f_equal; apply map_ext_F; eapply Forall_impl; try exact H;
          simpl; intros f Hf; rewrite Hf; auto.
      - auto.
      - auto. }
    rewrite X. apply rename_iterate, strip_idem. }
  destruct t as [n|u|u|k v|fs|x s|s]; simpl; auto.
  - rewrite withoutUnderscore_strip, strip_idem; auto.
  - destruct u; auto. simpl. rewrite withoutUnderscore_strip, strip_idem; auto.
  - apply (E PTop (TArray u)).
  - apply (E PTop (TMap k v)).
Qed.

Lemma iterate_spec_rename t : rename strip (iterate_spec withoutUnderscore t) = rename strip t.
Proof.
  destruct t as [n|u|u|k v|fs|x s|s]; auto.
  - apply (find_rename (TArray u)).
  - apply (find_rename (TMap k v)).
  - cbn [iterate_spec iterate rename]. f_equal. rewrite map_map. apply map_ext. intros f. simpl. f_equal.
    (* through a slice of one struct *)
    pose proof (find_rename (TArray (TStruct [f]))) as E. simpl in E. congruence.
Qed.

Lemma clean_rename a t : rename strip a = rename strip t -> clean a = true -> a = rename strip t.
Proof. intros <- H. symmetry. apply rename_id. apply clean_spec_iff, H. Qed.

Lemma supported_type_rename t :
  supported_type t = true ->
  visit findFieldsWithUnderscores (iterate_spec withoutUnderscore t) = rename strip t.
Proof.
  intros H. apply clean_rename.
  - rewrite (rename_visit strip _ find_rename). apply iterate_spec_rename.
  - unfold supported_type in H. destruct (clean t) eqn:C.
    + assert (iterate_spec withoutUnderscore t = t) as ->
        by (destruct t; auto; apply (iterate_clean PTop); auto).
      rewrite visit_clean; auto.
    + destruct t; try discriminate; apply (proj1 (iterate_supported _) H I).
Qed.

Lemma supported_fields_rename l :
  forallb (fun f => supported PField (snd f)) l = true ->
  map (visit_field findFieldsWithUnderscores) l = rename_fields strip l.
Proof.
  rewrite forallb_forall. intros H. apply map_ext_in. intros f Hf. unfold visit_field. f_equal.
  apply clean_rename.
  - rewrite find_rename. apply (rename_visit strip _ find_rename).
  - apply (proj1 (visit_supported _)), H, Hf.
Qed.

Lemma clean_spec_rename s :
  clean_spec s = true -> visit_spec findFieldsWithUnderscores s = rename_spec strip s.
Proof.
  intros H. destruct s as [n t|ns [t|]|p]; simpl in *; auto.
  - apply andb_true_iff in H. destruct H as [Hn Ht].
    rewrite visit_clean; auto. rewrite rename_id by (apply clean_spec_iff, Ht).
    f_equal. symmetry. apply contains_strip. destruct (contains n "_"); auto; discriminate.
  - rewrite visit_clean; auto. rewrite rename_id by (apply clean_spec_iff, H). auto.
Qed.

Lemma clean_specs_rename ss :
  forallb clean_spec ss = true -> map (visit_spec findFieldsWithUnderscores) ss = map (rename_spec strip) ss.
Proof. rewrite forallb_forall. intros H. apply map_ext_in. intros s Hs. apply clean_spec_rename; auto. Qed.

Lemma underscore_decl d :
  supported_decl d = true ->
  (d' <- underscore_gen d ;; Ok (visit_decl findFieldsWithUnderscores d')) = Ok (rename_decl strip d).
Proof.
  intros H. destruct d as [c ss|c r n sig].
  - destruct ss as [|s ss]; [discriminate|]. destruct s as [n t|ns t|p].
    + simpl in H. apply andb_true_iff in H. destruct H as [H Hr].
      apply andb_true_iff in H. destruct H as [Hc Ht].
      simpl. destruct (contains n "_") eqn:C.
      * destruct c as [|c0 cs]; [discriminate|]. simpl.
        rewrite supported_type_rename, clean_specs_rename; auto.
        destruct (String.eqb_spec (strip n) n) as [E|E]; auto.
        apply contains_strip in E. congruence.
      * simpl. rewrite supported_type_rename, clean_specs_rename; auto.
        apply contains_strip in C. rewrite C. unfold rename_comment.
        destruct c; auto. rewrite C, String.eqb_refl. auto.
    + cbn [underscore_gen bind visit_decl rename_decl]. rewrite clean_specs_rename; auto.
    + cbn [underscore_gen bind visit_decl rename_decl]. rewrite clean_specs_rename; auto.
  - simpl in H. apply andb_true_iff in H. destruct H as [Hr Hs]. simpl.
    rewrite supported_fields_rename; auto.
    destruct r as [r|]; simpl; auto. rewrite supported_fields_rename; auto.
Qed.

Lemma underscore_renames f :
  forallb supported_decl f = true ->
  fixUnderscoreInTypeName f = Ok (map (rename_decl strip) f).
Proof.
  unfold fixUnderscoreInTypeName. induction f as [|d f IH]; auto.
  cbn [forallb omap map]. intros H. apply andb_true_iff in H. destruct H as [H1 H2].
  rewrite underscore_decl; auto. cbn [bind]. rewrite IH; auto.
Qed.

(** The types that a file declares, and the names that it refers to. *)
Definition declared_spec (s : spec) : list string := match s with SType n _ => [n] | _ => [] end.
Definition declared (f : list decl) : list string :=
  flat_map (fun d => match d with DGen _ ss => flat_map declared_spec ss | _ => [] end) f.
Definition refs_spec (s : spec) : list string :=
  match s with SType _ t | SValue _ (Some t) => idents t | _ => [] end.
Definition refs_fields (l : list field) : list string := flat_map (fun f => idents (snd f)) l.
Definition refs (f : list decl) : list string :=
  flat_map (fun d => match d with
    | DGen _ ss => flat_map refs_spec ss
    | DFunc _ r _ sig => refs_fields (match r with Some l => l | None => [] end) ++ refs_fields sig
    end) f.

Lemma flat_map_map {A B C} (g : A -> B) (h : B -> list C) l : flat_map h (map g l) = flat_map (fun x => h (g x)) l.
Proof. induction l; simpl; congruence. Qed.

Lemma map_flat_map {A B C} (g : B -> C) (h : A -> list B) l : map g (flat_map h l) = flat_map (fun x => map g (h x)) l.
Proof. induction l; simpl; auto. rewrite map_app; congruence. Qed.

Lemma flat_map_ext' {A B} (g h : A -> list B) l : (forall x, g x = h x) -> flat_map g l = flat_map h l.
Proof. intros H. induction l; simpl; congruence. Qed.

Lemma declared_rename r f : declared (map (rename_decl r) f) = map r (declared f).
Proof.
  unfold declared. rewrite flat_map_map, map_flat_map. apply flat_map_ext'.
  intros [c ss|c rc n sig]; simpl; auto.
  rewrite flat_map_map, map_flat_map. apply flat_map_ext'. intros []; auto.
Qed.

Lemma refs_fields_rename r l : refs_fields (rename_fields r l) = map r (refs_fields l).
Proof.
  unfold refs_fields, rename_fields. rewrite flat_map_map, map_flat_map. apply flat_map_ext'.
  intros f. simpl. apply idents_rename.
Qed.

Lemma refs_rename r f : refs (map (rename_decl r) f) = map r (refs f).
Proof.
  unfold refs. rewrite flat_map_map, map_flat_map. apply flat_map_ext'.
  intros [c ss|c rc n sig]; simpl.
  - rewrite flat_map_map, map_flat_map. apply flat_map_ext'.
    intros [n t|ns [t|]|p]; simpl; auto using idents_rename.
  - rewrite map_app. f_equal; [|apply refs_fields_rename].
    destruct rc; simpl; auto using refs_fields_rename.
Qed.

Definition underscored (n : string) : Prop := strip n <> n.

Lemma underscore_resolves f :
  forallb supported_decl f = true ->
  exists f', fixUnderscoreInTypeName f = Ok f' /\
    declared f' = map strip (declared f) /\
    refs f' = map strip (refs f) /\
    (forall n, In n (declared f') \/ In n (refs f') -> ~ underscored n) /\
    (forall n, In n (refs f) -> In n (declared f) -> In (strip n) (declared f')) /\
    ((forall a b, In a (declared f ++ refs f) -> In b (declared f ++ refs f) -> strip a = strip b -> a = b) ->
     forall n i, In n (refs f) ->
       (nth_error (declared f') i = Some (strip n) <-> nth_error (declared f) i = Some n)).
Proof.
  intros H. eexists. split; [apply underscore_renames, H|].
  rewrite declared_rename, refs_rename. do 2 (split; [auto|]). split; [|split].
  - intros n Hn. unfold underscored. intros X. apply X.
    assert (exists m, n = strip m) as (m & ->).
    { destruct Hn as [Hn|Hn]; apply in_map_iff in Hn; destruct Hn as (m & <- & _); eauto. }
    apply strip_idem.
  - intros n _ Hn. apply in_map, Hn.
  - intros Inj n i Hn. rewrite nth_error_map.
    destruct (nth_error (declared f) i) as [m|] eqn:E; simpl; [|split; discriminate].
    split; intros X; inversion X; subst; auto. f_equal. apply Inj; auto; apply in_or_app; auto.
    left. eapply nth_error_In; eauto.
Qed.

Lemma underscore_panics f :
  fixUnderscoreInTypeName f = Panic <->
  exists c ss, In (DGen c ss) f /\
    (ss = [] \/ (c = [] /\ exists n t r, ss = SType n t :: r /\ underscored n)).
Proof.
  unfold fixUnderscoreInTypeName, underscored.
  assert (S : forall d, (exists d', underscore_gen d = Ok d') /\
      ~ (exists c ss, d = DGen c ss /\ (ss = [] \/ (c = [] /\ exists n t r, ss = SType n t :: r /\ strip n <> n)))
    \/ underscore_gen d = Panic /\
      exists c ss, d = DGen c ss /\ (ss = [] \/ (c = [] /\ exists n t r, ss = SType n t :: r /\ strip n <> n))).
  { intros [c ss|c r n sig].
    2:{ left. split; [simpl; eauto|]. intros (? & ? & E & _); discriminate. }
    destruct ss as [|s ss]; [right; split; eauto|].
    destruct s as [n t|ns t|p]; simpl.
    2,3: left; split; [eauto|]; intros (? & ? & E & [X|(_ & ? & ? & ? & X & _)]); injection E as <- <-; discriminate.
    destruct (contains n "_") eqn:C.
    - assert (strip n <> n) by (intros X; apply contains_strip in X; congruence).
      destruct c; [right; split; auto; exists [], (SType n t :: ss); split; auto; right; split; auto; eauto 6|].
      left. split; [eauto|]. intros (? & ? & E & [X|(X & _)]); injection E as <- <-; discriminate.
    - apply contains_strip in C. left. split; [eauto|].
      intros (? & ? & E & [X|(_ & ? & ? & ? & X & Y)]); injection E as <- <-; [discriminate|]; injection X as <- <- <-; auto. }
  induction f as [|d f IH]; simpl.
  - split; [discriminate|]. intros (? & ? & [] & _).
  - destruct (S d) as [((d' & ->) & N)|(-> & c & ss & E & X)]; simpl.
    + destruct (omap _ f) as [a|e| |] eqn:O; simpl.
      * split; [discriminate|]. intros (c & ss & [E|Hi] & X); [exfalso; apply N; eauto|].
        destruct IH as [_ IH]. discriminate IH. eauto.
      * split; [discriminate|]. intros (c & ss & [E|Hi] & X); [exfalso; apply N; eauto|].
        destruct IH as [_ IH]. discriminate IH. eauto.
      * split; auto. intros _. destruct IH as [IH _]. destruct (IH eq_refl) as (c & ss & Hi & X). eauto 6.
      * split; [discriminate|]. intros (c & ss & [E|Hi] & X); [exfalso; apply N; eauto|].
        destruct IH as [_ IH]. discriminate IH. eauto.
    + split; auto. intros _. eauto 6.
Qed.
