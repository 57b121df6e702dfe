(** Errors inside [doHydrate] and [doDehydrate] do not get out. *)
From Verif Require Import Prelude CueFrag CueSem CueProofs Hydrate HydrateSem HydrateProofs HydrateFacts DehydrateFacts
  HydrateDeep.
Local Open Scope string_scope.
Local Open Scope list_scope.

Lemma hydrate_no_error : forall n under raw,
  (forall e, Hydrate n under raw <> Err e) /\
  (forall e, doHydrate n under raw = Err e -> Hydrate n under raw = Ok raw) /\
  (forall e, Dehydrate n under raw <> Err e) /\
  (forall e, doDehydrate n under raw = Err e -> Dehydrate n under raw = Ok raw).
Proof.
  intros n under raw. unfold Hydrate, Dehydrate.
  destruct (doHydrate n under raw); destruct (doDehydrate n under raw) as [[? ?]| | |];
    repeat split; intros; try discriminate; reflexivity.
Qed.

(** No alternative of the elements of a list is completed by the data. *)
Definition unfit (u : val) (x : data) : Prop :=
  fst (expr u) = true /\ forall b y, In b (snd (expr u)) -> eval (unify b (embed x)) None <> Con y.

Lemma unfit_branch : forall u x, unfit u x -> getBranch u (embed x) = Err (mkErr [] "no branch is found for list").
Proof.
  intros u x [H1 H2]. unfold getBranch. destruct (expr u) as [op vals]. cbn [fst snd] in *. subst op.
  destruct (find _ vals) as [b|] eqn:F; [|reflexivity]. apply find_some in F as [F1 F2].
  unfold concrete in F2. destruct (eval (unify b (embed x)) None) as [| |y] eqn:E; try discriminate.
  exfalso. exact (H2 b y F1 E).
Qed.

Lemma unfit_list : forall n es u x l, k_eqb (kind u) k_bottom = false -> unfit u x ->
  doHydrate (S n) (VList es (Some u)) (embed (DList (x :: l))) = Err (mkErr [] "no branch is found for list").
Proof.
  intros n es u x l K H. rewrite doHydrate_list, K. cbn [list_elems default embed fst map hyd_elems].
  rewrite (unfit_branch u x H). reflexivity.
Qed.

Lemma unfit_field : forall n k es u x l rest, k_eqb (kind u) k_bottom = false -> unfit u x ->
  doHydrate (S (S n)) (embed (DStruct [(k, DList (x :: l))])) (VStruct [(k, false, VList es (Some u))] rest)
  = Ok (VStruct [(k, false, VList es (Some u))] rest).
Proof.
  intros n k es u x l rest K H. cbn [embed map fst snd]. rewrite doHydrate_struct. cbn [hyd_fields].
  unfold flabel, fval. cbn [fst snd lookup_field]. unfold field_of. cbn [find].
  unfold flabel. cbn [fst snd]. rewrite String.eqb_refl.
  unfold fval, fopt. cbn [fst snd].
  change (VList (embed x :: map embed l) None) with (embed (DList (x :: l))).
  rewrite (unfit_list n es u x l K H). reflexivity.
Qed.
