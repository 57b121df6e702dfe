(** Which references in a type become [any]: by the way to them. *)
From Verif Require Import Prelude Strings Gocode GocodeProofs GocodeFacts.
Local Open Scope string_scope.
Local Open Scope list_scope.

(** A step into a type. *)
Inductive step := SPtr | SElt | SKey | SVal | SField (i : nat).

(** The name [n] stands in a type at the end of a way. *)
Inductive names : gtype -> list step -> string -> Prop :=
| nm_here : forall n, names (TIdent n) [] n
| nm_ptr : forall t w n, names t w n -> names (TStar t) (SPtr :: w) n
| nm_elt : forall t w n, names t w n -> names (TArray t) (SElt :: w) n
| nm_key : forall k v w n, names k w n -> names (TMap k v) (SKey :: w) n
| nm_val : forall k v w n, names v w n -> names (TMap k v) (SVal :: w) n
| nm_field : forall fs i ns t w n, nth_error fs i = Some (ns, t) -> names t w n -> names (TStruct fs) (SField i :: w) n.

(** A type with its names left out. *)
Fixpoint shape (t : gtype) : gtype :=
  match t with
  | TIdent _ => TIdent ""
  | TStar u => TStar (shape u)
  | TArray e => TArray (shape e)
  | TMap k v => TMap (shape k) (shape v)
  | TStruct fs => TStruct (map (fun f => (fst f, shape (snd f))) fs)
  | t => t
  end.

(** A step that is made after the way [a]: no step to the key of a map, to a
    pointer only from a field, from an element not to the value of a map, and from
    the value of a map not to a field. *)
Definition follows (a : list step) (s : step) : Prop :=
  match s with
  | SKey => False
  | SPtr => exists a' i, a = a' ++ [SField i]
  | SElt => True
  | SVal => forall a', a <> a' ++ [SElt]
  | SField _ => forall a', a <> a' ++ [SVal]
  end.
Definition reached (w : list step) : Prop :=
  w <> [] /\ forall a s b, w = a ++ s :: b -> follows a s.

(** The same, step by step. *)
Fixpoint go (p : place) (w : list step) : bool :=
  match w with
  | [] => true
  | s :: r =>
      match s, p with
      | SPtr, PField => go PTop r
      | SPtr, _ | SKey, _ => false
      | SElt, _ => go PElt r
      | SVal, PElt => false
      | SVal, _ => go PVal r
      | SField _, PVal => false
      | SField _, _ => go PField r
      end
  end.

Lemma iterate_names fn : forall t p w x,
  names (iterate fn p t) w x <-> exists y, names t w y /\ x = if go p w then fn y else y.
Proof.
  fix IH 1. intros t p w x.
  assert (K : forall t w x, names t w x <-> exists y, names t w y /\ x = y).
  { intros. split; [intros H; eauto|intros (y & H & ->); exact H]. }
  destruct t; cbn [iterate].
  - split.
    + intros H. inversion H; subst. eexists. split; [constructor|reflexivity].
    + intros (y & H & ->). inversion H; subst. constructor.
  - destruct p; (split;
      [intros H; inversion H as [|u w' ? H'| | | |]; subst;
       try (apply IH in H'; destruct H' as (y & H' & ->)); eexists; split; [constructor; eassumption|reflexivity]
      |intros (y & H & ->); inversion H as [|u w' ? H'| | | |]; subst; cbn [go]; constructor;
       try (apply IH; eauto); try exact H']).
  - split;
      [intros H; inversion H as [| |u w' ? H'| | |]; subst;
       apply IH in H'; destruct H' as (y & H' & ->); eexists; split; [constructor; eassumption|destruct p; reflexivity]
      |intros (y & H & ->); inversion H as [| |u w' ? H'| | |]; subst; destruct p; cbn [go]; constructor; apply IH; eauto].
  - destruct p; (split;
      [intros H; inversion H as [| | |u1 u2 w' ? H'|u1 u2 w' ? H'|]; subst;
       [eexists; split; [apply nm_key; eassumption|reflexivity]
       |try (apply IH in H'; destruct H' as (y & H' & ->)); eexists; split; [apply nm_val; eassumption|reflexivity]]
      |intros (y & H & ->); inversion H as [| | |u1 u2 w' ? H'|u1 u2 w' ? H'|]; subst; cbn [go];
       [apply nm_key; exact H'|apply nm_val; try (apply IH; eauto); try exact H']]).
  - assert (F : forall q (l : list (list string * gtype)) i w x,
      (exists ns u, nth_error (map (fun f => (fst f, iterate fn q (snd f))) l) i = Some (ns, u) /\ names u w x) <->
      exists ns u y, nth_error l i = Some (ns, u) /\ names u w y /\ x = if go q w then fn y else y).
    { intros q. induction l as [|[ns u] l IHl]; intros i w0 x0.
      - destruct i; split; [intros (? & ? & E & _)|intros (? & ? & ? & E & _)|intros (? & ? & E & _)|intros (? & ? & ? & E & _)]; discriminate E.
      - destruct i as [|i]; cbn [map nth_error fst snd]; [|apply IHl]. split.
        + intros (ns' & u' & E & H). injection E as <- <-. apply IH in H. destruct H as (y & H & ->). exists ns, u, y. auto.
        + intros (ns' & u' & y & E & H & ->). injection E as <- <-. exists ns, (iterate fn q u). split; [reflexivity|].
          apply IH. eauto. }
    destruct p;
      try (split;
        [intros H; inversion H as [| | | | |l i ns u w' ? E H']; subst;
         destruct (proj1 (F PField _ i w' x) (ex_intro _ ns (ex_intro _ u (conj E H')))) as (ns' & u' & y & E' & N & ->);
         exists y; split; [eapply nm_field; eassumption|reflexivity]
        |intros (y & H & ->); inversion H as [| | | | |l i ns u w' ? E H']; subst; cbn [go];
         destruct (proj2 (F PField fs i w' (if go PField w' then fn y else y))) as (ns' & u' & E' & N);
         [exists ns, u, y; auto|eapply nm_field; eassumption]]; fail).
    split.
    + intros H. inversion H; subst. eexists. split; [exact H|reflexivity].
    + intros (y & H & ->). inversion H; subst. exact H.
  - split; [intros H; inversion H|intros (y & H & _); inversion H].
  - split; [intros H; inversion H|intros (y & H & _); inversion H].
Qed.

Lemma iterate_shape fn : forall t p, shape (iterate fn p t) = shape t.
Proof.
  fix IH 1. intros t p. destruct t; cbn [iterate shape]; try reflexivity.
  - destruct p; cbn [shape]; rewrite ?IH; reflexivity.
  - rewrite IH. reflexivity.
  - destruct p; cbn [shape]; rewrite ?IH; reflexivity.
  - assert (M : map (fun f : list string * gtype => (fst f, shape (snd f))) (map (fun f => (fst f, iterate fn PField (snd f))) fs)
      = map (fun f => (fst f, shape (snd f))) fs).
    { induction fs as [|[ns u] l IHl]; [reflexivity|]. cbn [map fst snd]. rewrite IH, IHl. reflexivity. }
    destruct p; cbn [shape]; rewrite ?M; reflexivity.
Qed.

(** The way so far and the place it leads to. *)
Definition stands (a : list step) (p : place) : Prop :=
  match p with
  | PField => exists a' i, a = a' ++ [SField i]
  | PTop => a = [] \/ exists a', a = a' ++ [SPtr]
  | PElt => exists a', a = a' ++ [SElt]
  | PVal => exists a', a = a' ++ [SVal]
  end.

Lemma stands_last a p : stands a p ->
  ((exists a' i, a = a' ++ [SField i]) <-> p = PField) /\
  ((exists a', a = a' ++ [SElt]) <-> p = PElt) /\ ((exists a', a = a' ++ [SVal]) <-> p = PVal).
Proof.
  assert (L : forall (a b : list step) x y, a ++ [x] = b ++ [y] -> x = y) by (intros ? ? ? ? E; apply app_inj_tail in E; tauto).
  assert (N : forall (a : list step) x, [] <> a ++ [x]) by (intros [|] ? E; discriminate E).
  destruct p; cbn [stands].
  - intros (a' & i & ->). repeat split; intros H; try discriminate H; eauto;
      destruct H as (b & E); apply L in E; discriminate E.
  - intros [->|(a' & ->)]; repeat split; intros H; try discriminate H;
      try (destruct H as (b & j & E); (apply N in E; destruct E) || (apply L in E; discriminate E));
      destruct H as (b & E); (apply N in E; destruct E) || (apply L in E; discriminate E).
  - intros (a' & ->). repeat split; intros H; try discriminate H; eauto;
      try (destruct H as (b & j & E); apply L in E; discriminate E); destruct H as (b & E); apply L in E; discriminate E.
  - intros (a' & ->). repeat split; intros H; try discriminate H; eauto;
      try (destruct H as (b & j & E); apply L in E; discriminate E); destruct H as (b & E); apply L in E; discriminate E.
Qed.

Lemma go_follows w : forall a p, stands a p ->
  (go p w = true <-> forall b s c, w = b ++ s :: c -> follows (a ++ b) s).
Proof.
  induction w as [|s w IH]; intros a p P; [split; [intros _ [|] ? ? E; discriminate E|reflexivity]|].
  destruct (stands_last a p P) as (LF & LE & LV).
  assert (Step : forall q, stands (a ++ [s]) q -> follows a s ->
    (go q w = true <-> forall b s' c, s :: w = b ++ s' :: c -> follows (a ++ b) s')).
  { intros q Q F. rewrite (IH _ _ Q). split.
    - intros H [|x b] s' c E; [injection E as <- <-; rewrite app_nil_r; exact F|].
      injection E as <- E. replace (a ++ s :: b) with ((a ++ [s]) ++ b) by (rewrite <- app_assoc; reflexivity). eauto.
    - intros H b s' c E. rewrite <- app_assoc. cbn [app]. apply (H (s :: b) s' c). rewrite E. reflexivity. }
  assert (Stop : ~ follows a s -> (false = true <-> forall b s' c, s :: w = b ++ s' :: c -> follows (a ++ b) s')).
  { intros F. split; [discriminate|]. intros H. exfalso. apply F. rewrite <- (app_nil_r a). apply (H [] s w). reflexivity. }
  destruct s; cbn [go].
  - destruct p; try (apply Stop; cbn [follows]; intros H; apply LF in H; discriminate H).
    apply Step; [right; exists a; reflexivity|apply LF; reflexivity].
  - apply Step; [exists a; reflexivity|exact I].
  - apply Stop. cbn. tauto.
  - destruct p; try (apply Stop; cbn [follows]; intros H; destruct (proj2 LE eq_refl) as (a' & E); exact (H a' E));
      (apply Step; [exists a; reflexivity|cbn [follows]; intros a' E; assert (X := proj1 LE (ex_intro _ a' E)); discriminate X]).
  - destruct p; try (apply Stop; cbn [follows]; intros H; destruct (proj2 LV eq_refl) as (a' & E); exact (H a' E));
      (apply Step; [exists a, i; reflexivity|cbn [follows]; intros a' E; assert (X := proj1 LV (ex_intro _ a' E)); discriminate X]).
Qed.

Lemma go_reached w : w <> [] -> (go PTop w = true <-> reached w).
Proof.
  intros N. rewrite (go_follows w [] PTop (or_introl eq_refl)). unfold reached. cbn [app]. tauto.
Qed.

Lemma any_exact ex n t : ~ In n ex ->
  exists t', raw_rewrite_spec ex (SType n t) = SType n t' /\ shape t' = shape t /\
  forall w x, names t' w x <->
    exists y, names t w y /\ ((reached w /\ In y ex /\ x = "any") \/ (~ (reached w /\ In y ex) /\ x = y)).
Proof.
  intros N. cbn [raw_rewrite_spec].
  replace (mem n ex) with false by (symmetry; apply not_true_is_false; intros H; apply mem_in in H; tauto).
  assert (Top : forall w x, names (iterate (withoutRawData ex) PTop t) w x -> w <> [] ->
    exists y, names t w y /\ ((reached w /\ In y ex /\ x = "any") \/ (~ (reached w /\ In y ex) /\ x = y))).
  { intros w x H W. apply iterate_names in H. destruct H as (y & H & ->). exists y. split; [exact H|].
    assert (R := go_reached w W). destruct (go PTop w).
    - unfold withoutRawData. destruct (mem y ex) eqn:M; [left|right].
      + apply mem_in in M. tauto.
      + split; [|reflexivity]. intros [_ I]. apply mem_in in I. congruence.
    - right. split; [|reflexivity]. intros [X _]. apply R in X. discriminate X. }
  assert (Back : forall w x y, names t w y -> w <> [] ->
    ((reached w /\ In y ex /\ x = "any") \/ (~ (reached w /\ In y ex) /\ x = y)) ->
    names (iterate (withoutRawData ex) PTop t) w x).
  { intros w x y H W D. apply iterate_names. exists y. split; [exact H|].
    assert (R := go_reached w W). unfold withoutRawData. destruct (go PTop w), (mem y ex) eqn:M;
      try (assert (I : In y ex) by (apply mem_in, M)); try (assert (I : ~ In y ex) by (intros I; apply mem_in in I; congruence));
      destruct D as [(D1 & D2 & ->)|(D1 & ->)]; try reflexivity; try tauto.
    all: exfalso; first [apply D1; split; [apply R; reflexivity|exact I]
                        |assert (Z : false = true) by (apply R; exact D1); discriminate Z]. }
  assert (Stay : forall w x, (forall y, names t w y -> ~ (reached w)) ->
    (names t w x <-> exists y, names t w y /\ ((reached w /\ In y ex /\ x = "any") \/ (~ (reached w /\ In y ex) /\ x = y)))).
  { intros w x R. split.
    - intros H. exists x. split; [exact H|]. right. split; [|reflexivity]. intros [X _]. exact (R x H X).
    - intros (y & H & [(X & _)|(_ & ->)]); [destruct (R y H X)|exact H]. }
  assert (P0 : forall w, reached (SPtr :: w) -> False).
  { intros w [_ R]. destruct (R [] SPtr w eq_refl) as ([|z a] & i & E); discriminate E. }
  destruct t; cbn [iterate_spec]; eexists; (split; [reflexivity|]); (split; [try reflexivity; apply iterate_shape|]); intros w z.
  - apply Stay. intros y H [X _]. inversion H; subst. apply X. reflexivity.
  - apply Stay. intros y H X. inversion H; subst. exact (P0 _ X).
  - split; [intros H; apply Top; [exact H|intros ->; inversion H]|].
    intros (y & H & D). apply (Back w z y H); [intros ->; inversion H|exact D].
  - split; [intros H; apply Top; [exact H|intros ->; inversion H]|].
    intros (y & H & D). apply (Back w z y H); [intros ->; inversion H|exact D].
  - split; [intros H; apply Top; [exact H|intros ->; inversion H]|].
    intros (y & H & D). apply (Back w z y H); [intros ->; inversion H|exact D].
  - apply Stay. intros y H. inversion H.
  - apply Stay. intros y H. inversion H.
Qed.
