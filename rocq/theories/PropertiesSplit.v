(** C44, C45, C65: conjuncts of a candidate lineage and the outcome of binding. *)
From Verif Require Import Prelude Version Search ValidateErr Native Split SplitProofs Lineage LineageProofs
  WalkProofs GoLensProofs BindFacts SplitFacts Toy.
Local Open Scope string_scope.
Local Open Scope list_scope.

(** *** C44 *)

(** [occ v] counts how often #Lineage was unified into [v]. Exactly when the
    stored value is unified exactly once; it is never less. *)
Theorem C44_unified_once_partial :
  forall (V : Type) (ev : evaluator V) lindef e vs occ raw uni,
    AppendSplit (ev_subsumes_raw ev) e AndOp = Ok vs -> counts_lineage ev occ lindef e vs ->
    raw_uni ev lindef e = Ok (raw, uni) ->
    (occ uni = 1 <->
     lin_count ev vs = 0 \/ (lin_count ev vs = 1 /\ 0 < other_count ev vs) \/ 1 < other_count ev vs) /\
    0 < occ uni.
Proof. exact @unified_once. Qed.
Print Assumptions C44_unified_once_partial.

(** Whatever the composition, the stored value demands #Lineage and everything
    the candidate demands. *)
Theorem C44_conjuncts_kept :
  forall (V : Type) (ev : evaluator V) (D : Type) (accepts : V -> D -> Prop) lindef e vs raw uni,
    AppendSplit (ev_subsumes_raw ev) e AndOp = Ok vs ->
    (forall a b d, accepts (ev_unify ev a b) d <-> accepts a d /\ accepts b d) ->
    (forall d, accepts (cval e) d <-> Forall (fun v => accepts v d) vs) ->
    (forall v d, In v vs -> is_lin ev v = true -> (accepts v d <-> accepts lindef d)) ->
    raw_uni ev lindef e = Ok (raw, uni) ->
    forall d, accepts uni d <-> accepts lindef d /\ accepts (cval e) d.
Proof. exact @conjuncts_kept. Qed.
Print Assumptions C44_conjuncts_kept.

(** Two #Lineage conjuncts and one other: unified three times. *)
Theorem C44_unified_once_refuted :
  exists e vs raw uni,
    AppendSplit (ev_subsumes_raw conj_ev) e AndOp = Ok vs /\
    counts_lineage conj_ev conj_occ [1%N] e vs /\
    raw_uni conj_ev [1%N] e = Ok (raw, uni) /\ conj_occ uni = 3.
Proof. exact twice_unified. Qed.
Print Assumptions C44_unified_once_refuted.

(** Only #Lineage conjuncts: a panic. *)
Theorem C44_no_panic_refuted :
  exists e, SplitProofs.wf e /\ raw_uni conj_ev [1%N] e = Panic.
Proof. exact unify_panics. Qed.
Print Assumptions C44_no_panic_refuted.

(** A definition of that name from elsewhere: never unified. *)
Theorem C44_by_name_refuted :
  exists e raw uni, raw_uni conj_ev [1%N] e = Ok (raw, uni) /\ conj_occ uni = 0.
Proof. exact never_unified. Qed.
Print Assumptions C44_by_name_refuted.

Example C44_common_case :
  exists vs, AppendSplit (ev_subsumes_raw conj_ev) (conj_of [1; 5; 6]%N) AndOp = Ok vs /\
    counts_lineage conj_ev conj_occ [1%N] (conj_of [1; 5; 6]%N) vs /\
    raw_uni conj_ev [1%N] (conj_of [1; 5; 6]%N) = Ok ([5; 6]%N, [1; 5; 6]%N).
Proof.
  eexists. split; [reflexivity|]. split; [|reflexivity].
  unfold counts_lineage, conj_occ. split; [intros a b; apply count_occ_app|]. split; [reflexivity|].
  split; [reflexivity|]. intros v [<-|[<-|[<-|[]]]]; reflexivity.
Qed.

(** A datum is the list of the conjuncts it meets. *)
Example C44_kept_case :
  let accepts := fun v d : list N => incl v d in
  let e := conj_of [1; 1; 5; 6]%N in
  exists vs, AppendSplit (ev_subsumes_raw conj_ev) e AndOp = Ok vs /\
    (forall a b d, accepts (ev_unify conj_ev a b) d <-> accepts a d /\ accepts b d) /\
    (forall d, accepts (cval e) d <-> Forall (fun v => accepts v d) vs) /\
    (forall v d, In v vs -> is_lin conj_ev v = true -> (accepts v d <-> accepts [1%N] d)) /\
    raw_uni conj_ev [1%N] e = Ok ([5; 6]%N, [1; 5; 6]%N).
Proof.
  cbv zeta. eexists. split; [reflexivity|]. split.
  - intros a b d. cbn. unfold incl. split.
    + intros H. split; intros x Hx; apply H, in_or_app; auto.
    + intros [H1 H2] x Hx. apply in_app_or in Hx as [Hx|Hx]; auto.
  - split; [|split; [|reflexivity]].
    + intros d. cbn. rewrite !Forall_cons_iff. unfold incl. cbn. split.
      * intros H. repeat split; try (intros x [<-|[]]; apply H; tauto). constructor.
      * intros [H1 [H2 [H3 [H4 _]]]] x Hx. destruct Hx as [<-|[<-|[<-|[<-|[]]]]]; auto.
    + intros v d [<-|[<-|[<-|[<-|[]]]]]; cbn; (discriminate || tauto).
Qed.

(** *** C45 *)
Theorem C45_leaves :
  forall (V : Type) (subs : V -> V -> bool) e by_,
    SplitProofs.wf e ->
    exists out, AppendSplit subs e by_ = Ok out /\ splits subs by_ e out /\
      forall out', splits subs by_ e out' -> out' = out.
Proof. exact @split_leaves. Qed.
Print Assumptions C45_leaves.

Theorem C45_omitted :
  forall (V : Type) (subs : V -> V -> bool) args kept,
    keeps subs args kept ->
    (forall x, In x args -> In x kept \/ exists y, In y kept /\ same subs x y) /\
    (forall x, In x kept -> In x args).
Proof. exact @keeps_complete. Qed.
Print Assumptions C45_omitted.

Theorem C45_meaning :
  forall (V D : Type) (subs : V -> V -> bool) (accepts : V -> D -> Prop) e,
    (forall a b, subs a b = true -> subs b a = true -> forall d, accepts a d <-> accepts b d) ->
    SplitProofs.wf e ->
    (means_and accepts e -> exists out, AppendSplit subs e AndOp = Ok out /\
       forall d, accepts (cval e) d <-> Forall (fun v => accepts v d) out) /\
    (means_or accepts e -> exists out, AppendSplit subs e OrOp = Ok out /\
       forall d, accepts (cval e) d <-> Exists (fun v => accepts v d) out).
Proof. exact @split_meaning. Qed.
Print Assumptions C45_meaning.

(** (5 & (6 & 5)) & 7 & 5, values being lists of conjuncts. *)
Definition demo_tree : cexpr (list N) :=
  Oper [5; 6; 5; 7; 5]%N AndOp
    [Oper [5; 6; 5]%N AndOp [Atom [5%N]; Oper [6; 5]%N AndOp [Atom [6%N]; Atom [5%N]]]; Atom [7%N]; Atom [7%N]; Atom [5%N]].
Definition demo_subs (a b : list N) : bool := if list_eq_dec N.eq_dec a b then true else false.

Example C45_case :
  SplitProofs.wf demo_tree /\ AppendSplit demo_subs demo_tree AndOp = Ok [[5]; [6]; [5]; [7]; [5]]%N /\
  means_and (fun v (d : N) => In d v -> False) demo_tree.
Proof.
  split; [cbn; repeat split; discriminate|]. split; [reflexivity|].
  cbn. repeat split; try discriminate; try tauto; intros; repeat constructor; cbn in *; try tauto;
    repeat match goal with H : Forall _ (_ :: _) |- _ => inversion H; clear H; subst end; cbn in *; tauto.
Qed.

(** *** C65 *)
Theorem C65_bind_classified :
  forall (V : Type) (ev : evaluator V) id fv lindef e opts,
    SplitProofs.wf e ->
    exists vs, AppendSplit (ev_subsumes_raw ev) e AndOp = Ok vs /\
    match BindLineage ev id fv lindef e opts with
    | Ok _ => True
    | Err x =>
        single_mark x \/
        (e_marks x = [] /\
         (~ NoDup (map il_id (flat_map lenses_of opts)) \/
          exists l, In l (flat_map lenses_of opts) /\ il_mapper l = None))
    | Panic => 1 < length vs /\ forall v, In v vs -> ev_refpath ev v = "#Lineage"
    | OutOfFuel => False
    end.
Proof. exact @bind_classified. Qed.
Print Assumptions C65_bind_classified.

Example C65_cases :
  (exists x, tbind TBot [] = Err x /\ e_marks x = [ErrValueNotExist]) /\
  (exists x, tbind (TDat 3) [] = Err x /\ e_marks x = [ErrValueNotALineage]) /\
  (exists x, tbind (tlin [(0, 1, [1]); (0, 0, [1; 2])]%N []) [] = Err x /\
     e_marks x = [ErrInvalidSchemasOrder]) /\
  (exists x, tbind (tlin [(0, 0, [1])]%N []) [OImperativeLenses [mkImplens (0, 0)%N (0, 1)%N None]] = Err x /\
     e_marks x = []).
Proof. repeat split; eexists; (split; [vm_compute; reflexivity|reflexivity]). Qed.
