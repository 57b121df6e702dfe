(** Which names lose their underscores, in files of any shape. *)
From Verif Require Import Prelude Strings Gocode GocodeProofs GocodeFacts GocodeReachProofs.
Local Open Scope string_scope.
Local Open Scope list_scope.

(** The way to a name ends in the type of a field: with the name, a pointer to it,
    or a list or map in which it is reached. *)
Definition in_field (b : list step) : Prop :=
  b = [] \/ b = [SPtr] \/ (reached b /\ exists c, b = SElt :: c \/ b = SVal :: c).
Definition under_field (w : list step) : Prop :=
  exists a i b, w = a ++ SField i :: b /\ in_field b.

(** The same type but for the names on the ways [P], which have no underscores
    any more. *)
Definition relabelled (P : list step -> Prop) (t t' : gtype) : Prop :=
  shape t' = shape t /\
  forall w x, names t' w x <-> exists y, names t w y /\ ((P w /\ x = strip y) \/ (~ P w /\ x = y)).

Inductive respec : spec -> spec -> Prop :=
| re_type : forall n t t', relabelled under_field t t' -> respec (SType n t) (SType n t')
| re_value : forall ns t t', relabelled under_field t t' -> respec (SValue ns (Some t)) (SValue ns (Some t'))
| re_const : forall ns, respec (SValue ns None) (SValue ns None)
| re_import : forall p, respec (SImport p) (SImport p).

Definition refield (f f' : field) : Prop :=
  fst f' = fst f /\ relabelled (fun w => under_field (SField 0 :: w)) (snd f) (snd f').

(** Of a declaration the first type is looked at, with its name and the first line
    of its comment; in everything else only fields are. *)
Inductive redecl : decl -> decl -> Prop :=
| rd_type : forall c n t t' r r', strip n = n ->
    relabelled (fun w => reached w \/ under_field w) t t' -> Forall2 respec r r' ->
    redecl (DGen c (SType n t :: r)) (DGen c (SType n t' :: r'))
| rd_renamed : forall c cs n t t' r r', strip n <> n ->
    relabelled (fun w => reached w \/ under_field w) t t' -> Forall2 respec r r' ->
    redecl (DGen (c :: cs) (SType n t :: r))
           (DGen (String.concat (strip n) (split_str c n) :: cs) (SType (strip n) t' :: r'))
| rd_other : forall c s s' r r', (forall n t, s <> SType n t) -> respec s s' -> Forall2 respec r r' ->
    redecl (DGen c (s :: r)) (DGen c (s' :: r'))
| rd_func : forall c n sig sig', Forall2 refield sig sig' -> redecl (DFunc c None n sig) (DFunc c None n sig')
| rd_method : forall c l l' n sig sig', Forall2 refield l l' -> Forall2 refield sig sig' ->
    redecl (DFunc c (Some l) n sig) (DFunc c (Some l') n sig').

(** *** Step by step *)

Definition tailb (b : list step) : bool :=
  match b with
  | [] | [SPtr] => true
  | SElt :: _ | SVal :: _ => go PTop b
  | _ => false
  end.
Fixpoint underb (w : list step) : bool :=
  match w with
  | [] => false
  | s :: r => match s with SField _ => tailb r | _ => false end || underb r
  end.

Lemma tailb_spec b : tailb b = true <-> in_field b.
Proof.
  unfold in_field. destruct b as [|[| | | |i] b]; cbn [tailb].
  - tauto.
  - destruct b as [|s b]; [tauto|]. split; [discriminate|].
    intros [H|[H|[_ (c & [H|H])]]]; discriminate H.
  - assert (N : SElt :: b <> []) by discriminate. rewrite (go_reached _ N). split; [intros H; right; right; eauto|].
    intros [H|[H|[H _]]]; [discriminate H|discriminate H|exact H].
  - split; [discriminate|]. intros [H|[H|[_ (c & [H|H])]]]; discriminate H.
  - assert (N : SVal :: b <> []) by discriminate. rewrite (go_reached _ N). split; [intros H; right; right; eauto|].
    intros [H|[H|[H _]]]; [discriminate H|discriminate H|exact H].
  - split; [discriminate|]. intros [H|[H|[_ (c & [H|H])]]]; discriminate H.
Qed.

Lemma underb_spec w : underb w = true <-> under_field w.
Proof.
  induction w as [|s w IH]; cbn [underb].
  - split; [discriminate|]. intros ([|] & i & b & E & _); discriminate E.
  - rewrite orb_true_iff, IH. split.
    + intros [H|(a & i & b & -> & H)].
      * destruct s; try discriminate H. exists [], i, w. split; [reflexivity|apply tailb_spec, H].
      * exists (s :: a), i, b. split; [reflexivity|exact H].
    + intros ([|s' a] & i & b & E & H); injection E as -> ->.
      * left. apply tailb_spec, H.
      * right. exists a, i, b. split; [reflexivity|exact H].
Qed.

Definition relab (q : list step -> bool) (t t' : gtype) : Prop :=
  shape t' = shape t /\
  forall w x, names t' w x <-> exists y, names t w y /\ x = if q w then strip y else y.

Lemma relab_prop (q : list step -> bool) (P : list step -> Prop) t t' :
  (forall w y, names t w y -> (q w = true <-> P w)) -> relab q t t' -> relabelled P t t'.
Proof.
  intros Q [S H]. split; [exact S|]. intros w x. rewrite H. split.
  - intros (y & N & ->). exists y. split; [exact N|]. assert (R := Q w y N). destruct (q w); [left|right]; split; auto.
    + apply R. reflexivity.
    + intros X. apply R in X. discriminate X.
  - intros (y & N & D). exists y. split; [exact N|]. assert (R := Q w y N). destruct (q w); destruct D as [[D ->]|[D ->]]; auto.
    + exfalso. apply D, R. reflexivity.
    + apply R in D. discriminate D.
Qed.

Lemma relab_trans q1 q2 a b c : relab q1 a b -> relab q2 b c -> relab (fun w => q1 w || q2 w) a c.
Proof.
  intros [S1 H1] [S2 H2]. split; [congruence|]. intros w x. rewrite H2. split.
  - intros (z & N & ->). apply H1 in N. destruct N as (y & N & ->). exists y. split; [exact N|].
    destruct (q1 w), (q2 w); cbn; rewrite ?strip_idem; reflexivity.
  - intros (y & N & ->). exists (if q1 w then strip y else y). split; [apply H1; eauto|].
    destruct (q1 w), (q2 w); cbn; rewrite ?strip_idem; reflexivity.
Qed.

Lemma relab_none t q : (forall w y, names t w y -> q w = false) -> relab q t t.
Proof.
  intros Q. split; [reflexivity|]. intros w x. split.
  - intros N. exists x. split; [exact N|]. rewrite (Q w x N). reflexivity.
  - intros (y & N & ->). rewrite (Q w y N). exact N.
Qed.

Lemma relab_iterate p t : relab (go p) t (iterate withoutUnderscore p t).
Proof.
  split; [apply iterate_shape|]. intros w x. rewrite iterate_names.
  split; intros (y & N & ->); exists y; (split; [exact N|]); destruct (go p w); rewrite ?withoutUnderscore_strip; reflexivity.
Qed.

Lemma relab_ext q q' t t' : (forall w y, names t w y -> q w = q' w) -> relab q t t' -> relab q' t t'.
Proof.
  intros Q [S H]. split; [exact S|]. intros w x. rewrite H.
  split; intros (y & N & ->); exists y; (split; [exact N|]); rewrite (Q w y N); reflexivity.
Qed.

Lemma relab_find t : relab tailb t (findFieldsWithUnderscores t).
Proof.
  assert (I : forall n, relab tailb (TIdent n) (TIdent (withoutUnderscore n))).
  { intros n. apply (relab_ext (go PTop)); [|apply (relab_iterate PTop (TIdent n))].
    intros w y N. inversion N; subst. reflexivity. }
  destruct t; cbn [findFieldsWithUnderscores].
  - apply I.
  - destruct t; try (apply relab_none; intros w y N; inversion N as [|u w' ? N'| | | |]; subst; inversion N'; subst; reflexivity).
    apply (relab_ext (go PField)); [|apply (relab_iterate PField (TStar (TIdent n)))].
    intros w y N. inversion N as [|u w' ? N'| | | |]; subst. inversion N'; subst. reflexivity.
  - apply (relab_ext (go PTop)); [|apply (relab_iterate PTop (TArray t))].
    intros w y N. inversion N; subst. reflexivity.
  - apply (relab_ext (go PTop)); [|apply (relab_iterate PTop (TMap t1 t2))].
    intros w y N. inversion N; subst; reflexivity.
  - apply relab_none. intros w y N. inversion N; subst. reflexivity.
  - apply relab_none. intros w y N. inversion N.
  - apply relab_none. intros w y N. inversion N.
Qed.

Lemma relab_visit : forall t, relab underb t (visit findFieldsWithUnderscores t).
Proof.
  fix IH 1. destruct t; cbn [visit].
  - apply relab_none. intros w y N. inversion N; subst. reflexivity.
  - destruct (IH t) as [S H]. split; [cbn; rewrite S; reflexivity|]. intros w x. split.
    + intros N. inversion N as [|u w' ? N'| | | |]; subst. apply H in N'. destruct N' as (y & N' & ->).
      exists y. split; [constructor; exact N'|reflexivity].
    + intros (y & N & ->). inversion N as [|u w' ? N'| | | |]; subst. constructor. apply H. eauto.
  - destruct (IH t) as [S H]. split; [cbn; rewrite S; reflexivity|]. intros w x. split.
    + intros N. inversion N as [| |u w' ? N'| | |]; subst. apply H in N'. destruct N' as (y & N' & ->).
      exists y. split; [constructor; exact N'|reflexivity].
    + intros (y & N & ->). inversion N as [| |u w' ? N'| | |]; subst. constructor. apply H. eauto.
  - destruct (IH t1) as [S1 H1]. destruct (IH t2) as [S2 H2]. split; [cbn; rewrite S1, S2; reflexivity|]. intros w x. split.
    + intros N. inversion N as [| | |k v w' ? N'|k v w' ? N'|]; subst; [apply H1 in N'|apply H2 in N'];
        destruct N' as (y & N' & ->); exists y; (split; [|reflexivity]); [apply nm_key|apply nm_val]; exact N'.
    + intros (y & N & ->). inversion N as [| | |k v w' ? N'|k v w' ? N'|]; subst; [apply nm_key, H1|apply nm_val, H2]; eauto.
  - assert (F : forall l : list (list string * gtype),
      map (fun f => (fst f, shape (snd f)))
        (map (fun f => (fst f, findFieldsWithUnderscores (visit findFieldsWithUnderscores (snd f)))) l)
      = map (fun f => (fst f, shape (snd f))) l /\
      forall i w x,
        (exists ns u, nth_error (map (fun f => (fst f, findFieldsWithUnderscores (visit findFieldsWithUnderscores (snd f)))) l) i
           = Some (ns, u) /\ names u w x) <->
        exists ns u y, nth_error l i = Some (ns, u) /\ names u w y /\ x = if tailb w || underb w then strip y else y).
    { induction l as [|[ns u] l [L1 L2]]; (split; [try reflexivity|]).
      - intros i w x. destruct i; cbn [map nth_error]; split;
          [intros (? & ? & E & _)|intros (? & ? & ? & E & _)|intros (? & ? & E & _)|intros (? & ? & ? & E & _)]; discriminate E.
      - cbn [map fst snd]. rewrite L1. destruct (relab_find (visit findFieldsWithUnderscores u)) as [S1 _].
        destruct (IH u) as [S2 _]. rewrite S1, S2. reflexivity.
      - intros [|i] w x; cbn [map nth_error fst snd]; [|apply L2].
        destruct (relab_trans _ _ _ _ _ (IH u) (relab_find (visit findFieldsWithUnderscores u))) as [_ H]. split.
        + intros (ns' & u' & E & N). injection E as <- <-. apply H in N. destruct N as (y & N & ->).
          exists ns, u, y. rewrite orb_comm. auto.
        + intros (ns' & u' & y & E & N & ->). injection E as <- <-. eexists _, _. split; [reflexivity|].
          apply H. exists y. rewrite orb_comm. auto. }
    destruct (F fs) as [F1 F2]. split; [cbn [shape]; rewrite F1; reflexivity|]. intros w x. split.
    + intros N. inversion N as [| | | | |l i ns u w' ? E N']; subst.
      destruct (proj1 (F2 i w' x) (ex_intro _ ns (ex_intro _ u (conj E N')))) as (ns' & u' & y & E' & N'' & ->).
      exists y. split; [eapply nm_field; eassumption|reflexivity].
    + intros (y & N & ->). inversion N as [| | | | |l i ns u w' ? E N']; subst. cbn [underb].
      destruct (proj2 (F2 i w' (if tailb w' || underb w' then strip y else y))) as (ns' & u' & E' & N'');
        [exists ns, u, y; auto|eapply nm_field; eassumption].
  - apply relab_none. intros w y N. inversion N.
  - apply relab_none. intros w y N. inversion N.
Qed.

(** *** Declarations *)

Lemma first_type t : relabelled (fun w => reached w \/ under_field w) t
  (visit findFieldsWithUnderscores (iterate_spec withoutUnderscore t)).
Proof.
  set (top := fun w => match t with TStruct _ | TMap _ _ | TArray _ => go PTop w | _ => false end).
  assert (T : relab top t (iterate_spec withoutUnderscore t)).
  { unfold top. destruct t; cbn [iterate_spec]; try (apply relab_none; reflexivity); apply (relab_iterate PTop). }
  apply (relab_prop (fun w => top w || underb w)); [|exact (relab_trans _ _ _ _ _ T (relab_visit _))].
  intros w y N. rewrite orb_true_iff, underb_spec.
  assert (E : top w = true <-> reached w); [|rewrite E; tauto].
  unfold top. destruct t; inversion N; subst; try (apply go_reached; discriminate).
  - split; [discriminate|]. intros [X _]. destruct X. reflexivity.
  - split; [discriminate|]. intros [_ R]. destruct (R [] SPtr _ eq_refl) as ([|z a] & i & E); discriminate E.
Qed.

Lemma other_type t : relabelled under_field t (visit findFieldsWithUnderscores t).
Proof. apply (relab_prop underb); [intros; apply underb_spec|apply relab_visit]. Qed.

Lemma spec_respec s : respec s (visit_spec findFieldsWithUnderscores s).
Proof. destruct s as [n t|ns [t|]|p]; cbn; constructor; apply other_type. Qed.

Lemma specs_respec r : Forall2 respec r (map (visit_spec findFieldsWithUnderscores) r).
Proof. induction r; constructor; [apply spec_respec|assumption]. Qed.

Lemma fields_refield l : Forall2 refield l (map (visit_field findFieldsWithUnderscores) l).
Proof.
  induction l as [|f l IH]; constructor; [|assumption]. split; [reflexivity|]. cbn.
  apply (relab_prop (fun w => underb w || tailb w)).
  - intros w y _. rewrite orb_comm. apply (underb_spec (SField 0 :: w)).
  - exact (relab_trans _ _ _ _ _ (relab_visit _) (relab_find _)).
Qed.

Lemma underscore_exact f : forall f', fixUnderscoreInTypeName f = Ok f' -> Forall2 redecl f f'.
Proof.
  unfold fixUnderscoreInTypeName. induction f as [|d f IH]; intros f' E; cbn [omap] in E; [injection E as <-; constructor|].
  destruct (underscore_gen d) as [d1| | |] eqn:D; try discriminate E. cbn [bind] in E.
  destruct (omap _ f) as [r| | |]; try discriminate E. cbn [bind] in E. injection E as <-.
  constructor; [|apply IH; reflexivity].
  destruct d as [c [|s r0]|c l n sig]; [discriminate D| |].
  - destruct s as [n t|ns t|p].
    + cbn [underscore_gen] in D. destruct (contains n "_") eqn:U.
      * destruct c as [|c cs]; [discriminate D|]. injection D as <-. cbn [visit_decl map visit_spec].
        apply rd_renamed; [|apply first_type|apply specs_respec].
        intros S. apply contains_strip in S. congruence.
      * injection D as <-. cbn [visit_decl map visit_spec]. apply rd_type; [apply contains_strip, U|apply first_type|apply specs_respec].
    + injection D as <-. cbn [visit_decl map]. apply rd_other; [discriminate|apply spec_respec|apply specs_respec].
    + injection D as <-. cbn [visit_decl map]. apply rd_other; [discriminate|apply spec_respec|apply specs_respec].
  - injection D as <-. cbn [visit_decl]. destruct l as [l|]; cbn [option_map].
    + apply rd_method; apply fields_refield.
    + apply rd_func; apply fields_refield.
Qed.
