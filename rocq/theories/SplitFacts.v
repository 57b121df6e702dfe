(** Closing lemmas for C44, C45 and C65. *)
From Verif Require Import Prelude Version VersionProofs Search SearchProofs ValidateErr Native Split
  SplitProofs Lineage LineageProofs WalkProofs GoLensProofs BindFacts Toy.
Local Open Scope string_scope.
Local Open Scope list_scope.

(** *** C45 *)
Lemma split_leaves (V : Type) (subs : V -> V -> bool) e by_ :
  SplitProofs.wf e ->
  exists out, AppendSplit subs e by_ = Ok out /\ splits subs by_ e out /\
    forall out', splits subs by_ e out' -> out' = out.
Proof.
  intros W. destruct (split_total subs e by_ W) as [out [E S]]. exists out. split; [exact E|].
  split; [exact S|]. intros out' S'. eapply splits_fun; eauto.
Qed.

(** *** C44 *)
Section Uni.
Context {V : Type}.
Variable ev : evaluator V.

Definition is_lin (v : V) : bool := String.eqb (ev_refpath ev v) "#Lineage".
Definition lin_count (vs : list V) : nat := length (filter is_lin vs).
Definition other_count (vs : list V) : nat := length (filter (fun v => negb (is_lin v)) vs).

Lemma counts_sum vs : lin_count vs + other_count vs = length vs.
Proof.
  unfold lin_count, other_count. induction vs as [|v vs IH]; [reflexivity|]. cbn.
  destruct (is_lin v); cbn; lia.
Qed.

(** [raw_uni] by number of #Lineage conjuncts and of others. *)
Lemma raw_uni_cases lindef e vs : AppendSplit (ev_subsumes_raw ev) e AndOp = Ok vs ->
  let others := filter (fun v => negb (is_lin v)) vs in
  (length vs <= 1 /\ raw_uni ev lindef e = Ok (cval e, ev_unify ev lindef (cval e))) \/
  (1 < length vs /\ lin_count vs = 0 /\ raw_uni ev lindef e = Ok (cval e, ev_unify ev lindef (cval e))) \/
  (1 < length vs /\ 0 < lin_count vs /\ others = [] /\ raw_uni ev lindef e = Panic) \/
  (lin_count vs = 1 /\ (exists a, others = [a]) /\ raw_uni ev lindef e = Ok (cval e, cval e)) \/
  (1 < lin_count vs /\ (exists a, others = [a]) /\
     raw_uni ev lindef e = Ok (cval e, ev_unify ev lindef (cval e))) \/
  (lin_count vs = 1 /\ exists a b r, others = a :: b :: r /\
     raw_uni ev lindef e = Ok (fold_left (ev_unify ev) r (ev_unify ev a b), cval e)) \/
  (1 < lin_count vs /\ exists a b r, others = a :: b :: r /\
     raw_uni ev lindef e = Ok (fold_left (ev_unify ev) r (ev_unify ev a b),
                               ev_unify ev lindef (fold_left (ev_unify ev) r (ev_unify ev a b)))).
Proof.
  intros E others. unfold raw_uni. rewrite E. cbn [bind].
  pose proof (counts_sum vs) as C. unfold other_count in C. fold others in C.
  change (filter (fun v => negb (String.eqb (ev_refpath ev v) "#Lineage")) vs) with others.
  destruct (Nat.ltb_spec 1 (length vs)) as [L|L]; [|left; split; [lia|reflexivity]].
  destruct (Nat.eqb_spec (length others) (length vs)) as [E1|E1].
  - right. left. split; [exact L|]. split; [lia|reflexivity].
  - right. right. destruct others as [|a [|b r]] eqn:O; cbn [bind length] in *.
    + left. repeat split; auto. lia.
    + right. destruct (Nat.eqb_spec 1 (length vs - 1)) as [E2|E2].
      * left. split; [lia|]. split; [eauto|reflexivity].
      * right. left. split; [lia|]. split; [eauto|reflexivity].
    + right. right. right. destruct (Nat.eqb_spec (S (S (length r))) (length vs - 1)) as [E2|E2].
      * left. split; [lia|]. exists a, b, r. auto.
      * right. split; [lia|]. exists a, b, r. auto.
Qed.

(** [occ v]: how often #Lineage was unified into [v]. *)
Definition counts_lineage (occ : V -> nat) (lindef : V) (e : cexpr V) (vs : list V) : Prop :=
  (forall a b, occ (ev_unify ev a b) = occ a + occ b) /\
  occ lindef = 1 /\
  occ (cval e) = fold_right (fun v n => occ v + n) 0 vs /\
  (forall v, In v vs -> occ v = if is_lin v then 1 else 0).

Lemma occ_sum occ vs : (forall v, In v vs -> occ v = if is_lin v then 1 else 0) ->
  fold_right (fun v n => occ v + n) 0 vs = lin_count vs.
Proof.
  unfold lin_count. induction vs as [|v vs IH]; intros H; [reflexivity|]. cbn.
  rewrite (H v (or_introl eq_refl)), IH by (intros w Hw; apply H; right; exact Hw).
  destruct (is_lin v); reflexivity.
Qed.

Lemma occ_fold occ vs : (forall a b, occ (ev_unify ev a b) = occ a + occ b) ->
  (forall v, In v vs -> occ v = 0) -> forall x, occ (fold_left (ev_unify ev) vs x) = occ x.
Proof.
  intros U. induction vs as [|v vs IH]; intros H x; [reflexivity|]. cbn.
  rewrite IH by (intros w Hw; apply H; right; exact Hw). rewrite U, (H v (or_introl eq_refl)). lia.
Qed.

Lemma unified_once lindef e vs occ raw uni :
  AppendSplit (ev_subsumes_raw ev) e AndOp = Ok vs -> counts_lineage occ lindef e vs ->
  raw_uni ev lindef e = Ok (raw, uni) ->
  (occ uni = 1 <->
   lin_count vs = 0 \/ (lin_count vs = 1 /\ 0 < other_count vs) \/ (1 < other_count vs)) /\
  0 < occ uni.
Proof.
  intros E [U [L [S Z]]] R. pose proof (occ_sum occ vs Z) as OS. rewrite OS in S.
  pose proof (counts_sum vs) as C.
  assert (O : other_count vs = length (filter (fun v => negb (is_lin v)) vs)) by reflexivity.
  assert (ZO : forall v, In v (filter (fun v => negb (is_lin v)) vs) -> occ v = 0).
  { intros v Hv. apply filter_In in Hv as [H1 H2]. rewrite (Z v H1). destruct (is_lin v); [discriminate|reflexivity]. }
  destruct (raw_uni_cases lindef e vs E)
    as [[H K]|[[H [H1 K]]|[[H [H1 [H2 K]]]|[[H [[a H1] K]]|[[H [[a H1] K]]|[[H [a [b [r [H1 K]]]]]|[H [a [b [r [H1 K]]]]]]]]]]];
    rewrite R in K; try discriminate; injection K as -> ->.
  - rewrite U, L, S. lia.
  - rewrite U, L, S. lia.
  - rewrite S. rewrite H1 in O. cbn in O. lia.
  - rewrite U, L, S. rewrite H1 in O. cbn in O. lia.
  - rewrite S. rewrite H1 in O. cbn in O. lia.
  - rewrite U, L. rewrite H1 in O, ZO. cbn in O.
    rewrite (occ_fold occ r U) by (intros v Hv; apply ZO; right; right; exact Hv).
    rewrite U, (ZO a), (ZO b) by (cbn; auto). lia.
Qed.

(** Whatever the number, the result demands #Lineage and all conjuncts of the
    candidate. *)
Lemma conjuncts_kept (D : Type) (accepts : V -> D -> Prop) lindef e vs raw uni :
  AppendSplit (ev_subsumes_raw ev) e AndOp = Ok vs ->
  (forall a b d, accepts (ev_unify ev a b) d <-> accepts a d /\ accepts b d) ->
  (forall d, accepts (cval e) d <-> Forall (fun v => accepts v d) vs) ->
  (forall v d, In v vs -> is_lin v = true -> (accepts v d <-> accepts lindef d)) ->
  raw_uni ev lindef e = Ok (raw, uni) ->
  forall d, accepts uni d <-> accepts lindef d /\ accepts (cval e) d.
Proof.
  intros E U M R Q d.
  assert (F : forall r x, accepts (fold_left (ev_unify ev) r x) d <-> accepts x d /\ Forall (fun v => accepts v d) r).
  { induction r as [|v r IH]; intros x; cbn; [split; [auto|tauto]|]. rewrite IH, U.
    split; [intros [[A B] C]; auto|intros [A B]; inversion B; auto]. }
  assert (split_conj : Forall (fun v => accepts v d) vs <->
    Forall (fun v => accepts v d) (filter is_lin vs) /\
    Forall (fun v => accepts v d) (filter (fun v => negb (is_lin v)) vs)).
  { clear. induction vs as [|v vs IH]; cbn; [split; auto|]. destruct (is_lin v); cbn.
    - rewrite !Forall_cons_iff, IH. tauto.
    - rewrite !Forall_cons_iff, IH. tauto. }
  assert (lin_part : 0 < lin_count vs ->
    (Forall (fun v => accepts v d) (filter is_lin vs) <-> accepts lindef d)).
  { intros P. unfold lin_count in P. split.
    - intros H. destruct (filter is_lin vs) as [|v l] eqn:X; [cbn in P; lia|].
      assert (I : In v (filter is_lin vs)) by (rewrite X; left; reflexivity).
      apply filter_In in I as [I1 I2]. inversion H; subst. apply (R v d I1 I2). assumption.
    - intros H. apply Forall_forall. intros v I. apply filter_In in I as [I1 I2]. apply (R v d I1 I2). exact H. }
  destruct (raw_uni_cases lindef e vs E)
    as [[H K]|[[H [H1 K]]|[[H [H1 [H2 K]]]|[[H [[a H1] K]]|[[H [[a H1] K]]|[[H [a [b [r [H1 K]]]]]|[H [a [b [r [H1 K]]]]]]]]]]];
    rewrite Q in K; try discriminate; injection K as -> ->.
  - apply U.
  - apply U.
  - assert (accepts (cval e) d -> accepts lindef d); [|tauto].
    rewrite M, split_conj, (lin_part ltac:(lia)). tauto.
  - apply U.
  - assert (accepts (cval e) d -> accepts lindef d); [|tauto].
    rewrite M, split_conj, (lin_part ltac:(lia)). tauto.
  - rewrite U, F, U, M, split_conj, (lin_part ltac:(lia)), H1, !Forall_cons_iff. tauto.
Qed.

(** When [raw_uni] panics. *)
Lemma raw_uni_panic lindef e vs : AppendSplit (ev_subsumes_raw ev) e AndOp = Ok vs ->
  (raw_uni ev lindef e = Panic <-> 1 < length vs /\ forall v, In v vs -> ev_refpath ev v = "#Lineage").
Proof.
  intros E. pose proof (counts_sum vs) as C.
  assert (O : other_count vs = length (filter (fun v => negb (is_lin v)) vs)) by reflexivity.
  assert (A : other_count vs = 0 <-> forall v, In v vs -> ev_refpath ev v = "#Lineage").
  { rewrite O. clear. induction vs as [|v vs IH]; cbn; [split; [intros _ v []|reflexivity]|].
    unfold is_lin at 1. destruct (String.eqb_spec (ev_refpath ev v) "#Lineage") as [Hv|Hv]; cbn.
    - rewrite IH. split; [intros H w [<-|Hw]; auto|intros H w Hw; apply H; right; exact Hw].
    - split; [lia|]. intros H. exfalso. apply Hv. apply H. left. reflexivity. }
  rewrite <- A.
  destruct (raw_uni_cases lindef e vs E)
    as [[H K]|[[H [H1 K]]|[[H [H1 [H2 K]]]|[[H [[a H1] K]]|[[H [[a H1] K]]|[[H [a [b [r [H1 K]]]]]|[H [a [b [r [H1 K]]]]]]]]]]];
    rewrite K.
  - split; [discriminate|lia].
  - split; [discriminate|lia].
  - split; [|reflexivity]. intros _. split; [exact H|]. rewrite O, H2. reflexivity.
  - rewrite H1 in O. cbn in O. split; [discriminate|lia].
  - rewrite H1 in O. cbn in O. split; [discriminate|lia].
  - rewrite H1 in O. cbn in O. split; [discriminate|lia].
  - rewrite H1 in O. cbn in O. split; [discriminate|lia].
Qed.

(** *** C65 *)
Definition single_mark (x : err) : Prop :=
  exists s, e_marks x = [s] /\
    In s [ErrValueNotExist; ErrValueNotALineage; ErrInvalidLineage; ErrInvalidSchemasOrder;
          ErrInvalidLensesOrder; ErrMissingLenses; ErrErroneousLenses].

Lemma check_one_single cfg prev e :
  match check_one ev cfg prev e with Ok _ => True | Err x => single_mark x | _ => False end.
Proof.
  unfold check_one, single_mark.
  destruct (se_major e); [|exists ErrInvalidLineage; cbn; tauto].
  destruct (se_minor e); [|exists ErrInvalidLineage; cbn; tauto].
  destruct prev as [p|]; cbn [checkSchemasOrder bind]; [|exact I].
  destruct (vless _ _); cbn [bind]; [exists ErrInvalidSchemasOrder; cbn; tauto|].
  destruct (negb (skipbuggychecks cfg)); [|exact I].
  destruct (_ && _); [exists ErrInvalidLineage; cbn; tauto|].
  destruct (_ && _); [exists ErrInvalidLineage; cbn; tauto|exact I].
Qed.

Lemma check_schemas_single cfg es : forall prev,
  match check_schemas ev cfg prev es with Ok l => length l = length es | Err x => single_mark x | _ => False end.
Proof.
  induction es as [|e es IH]; intros prev; cbn [check_schemas]; [reflexivity|].
  pose proof (check_one_single cfg prev e) as H. destruct (check_one ev cfg prev e) as [s|x| |]; cbn [bind]; auto.
  specialize (IH (Some s)). destruct (check_schemas ev cfg (Some s) es); cbn [bind length]; auto.
Qed.

Lemma completeness_total vs ls : vs <> [] -> sorted_vs vs ->
  match checkGoLensCompleteness vs ls with
  | Ok _ => True
  | Err x => single_mark x \/
      (e_marks x = [] /\ (~ NoDup (map il_id ls) \/ exists l, In l ls /\ il_mapper l = None))
  | _ => False
  end.
Proof.
  intros NE Hs. unfold checkGoLensCompleteness.
  destruct (collect_cases ls []) as [[r Hr]|[t Ht]].
  - rewrite Hr. cbn [bind]. destruct vs as [|v0 rest]; [contradiction|].
    destruct (expect_lenses synv0 rest r []) as [missing all'].
    destruct missing as [|m ms]; [|left; exists ErrMissingLenses; cbn; tauto].
    destruct all' as [|a as_]; [exact I|].
    destruct (erroneous_total (v0 :: rest) (a :: as_) ls Hs) as [rs ->]. cbn [bind].
    left. exists ErrErroneousLenses. cbn. tauto.
  - rewrite Ht. cbn [bind]. right. split; [reflexivity|].
    destruct (existsb (fun l => match il_mapper l with None => true | _ => false end) ls) eqn:X.
    + right. apply existsb_exists in X as [l [H1 H2]]. exists l. split; [exact H1|]. destruct (il_mapper l); [discriminate|reflexivity].
    + left. intros ND.
      assert (K : collect_lenses [] ls = Ok (rev (map il_id ls) ++ [])).
      { apply collect_ok. split; [reflexivity|]. split; [exact ND|]. split; [intros ? ? []|].
        intros l Hl N. assert (existsb (fun l => match il_mapper l with None => true | _ => false end) ls = true); [|congruence].
        apply existsb_exists. exists l. split; [exact Hl|]. rewrite N. reflexivity. }
      congruence.
Qed.

Lemma check_fields_single raw fs :
  match check_fields ev raw fs with Ok _ => True | Err x => single_mark x | _ => False end.
Proof.
  induction fs as [|f fs IH]; cbn [check_fields]; [exact I|].
  destruct (ev_field ev raw f); [exists ErrValueNotALineage; cbn; tauto|exists ErrInvalidLineage; cbn; tauto|exact IH].
Qed.

Lemma bind_classified id fv lindef e opts : SplitProofs.wf e ->
  exists vs, AppendSplit (ev_subsumes_raw ev) e AndOp = Ok vs /\
  match BindLineage ev id fv lindef e opts with
  | Ok _ => True
  | Err x =>
      single_mark x \/
      (e_marks x = [] /\
       (~ NoDup (map il_id (flat_map lenses_of opts)) \/
        exists l, In l (flat_map lenses_of opts) /\ il_mapper l = None))
  | Panic => 1 < length vs /\ forall v, In v vs -> ev_refpath ev v = "#Lineage"
  | OutOfFuel => False
  end.
Proof.
  intros W. destruct (split_total (ev_subsumes_raw ev) e AndOp W) as [vs [E _]]. exists vs. split; [exact E|].
  pose proof (raw_uni_panic lindef e vs E) as P. unfold BindLineage. cbv zeta.
  destruct (raw_uni ev lindef e) as [[raw uni]|x| |] eqn:R; cbn [bind].
  - unfold checkExists. destruct (ev_exists ev raw); cbn [negb bind]; [|destruct (negb (String.eqb _ _)); left; exists ErrValueNotExist; cbn; tauto].
    unfold checkLineageShape. pose proof (check_fields_single raw ["name"; "schemas"]) as F.
    destruct (check_fields ev raw ["name"; "schemas"]) as [u|x| |]; cbn [bind]; auto; try contradiction.
    destruct (ev_final ev uni && native_ok ev uni) eqn:N; cbn [bind]; [|left; exists ErrInvalidLineage; cbn; tauto].
    apply andb_prop in N as [_ N].
    unfold checkNativeValidity.
    destruct (ev_valid ev raw); cbn [negb bind]; [|left; exists ErrInvalidLineage; cbn; tauto].
    destruct (ev_valid ev uni); cbn [negb bind]; [|left; exists ErrInvalidLineage; cbn; tauto].
    unfold checkGoValidity. unfold native_ok in N. destruct (ev_schemas ev uni) as [es|]; [|discriminate].
    pose proof (check_schemas_single (make_cfg fv opts) es None) as S.
    destruct (check_schemas ev (make_cfg fv opts) None es) as [sl|x| |] eqn:C; cbn [bind]; auto; try contradiction.
    assert (SO : sorted_vs (map sd_v sl)).
    { apply check_schemas_ok in C as [_ [G _]]. apply sorted_of_steps. intros i a b Ha Hb.
      rewrite nth_error_map in Ha, Hb.
      destruct (nth_error sl i) as [s1|] eqn:E1; [|discriminate].
      destruct (nth_error sl (Datatypes.S i)) as [s2|] eqn:E2; [|discriminate].
      cbn in Ha, Hb. inversion Ha; inversion Hb; subst. exact (proj1 (G i s1 s2 E1 E2)). }
    assert (NE : map sd_v sl <> []).
    { destruct es as [|e0 es]; [discriminate|]. destruct sl; [cbn in S; lia|discriminate]. }
    rewrite make_cfg_spec. unfold checkLensesOrder. cbn [implenses].
    destruct (flat_map lenses_of opts) as [|l0 ls] eqn:L.
    + destruct (ev_lenses ev uni) as [cl|]; cbn [bind]; [|exact I].
      pose proof (check_cue_lenses_cases cl None) as Q. destruct (check_cue_lenses None cl); cbn [bind]; try contradiction; [exact I|].
      left. destruct Q as [Q|[Q _]]; [exists ErrInvalidLensesOrder|exists ErrInvalidLineage]; cbn; tauto.
    + pose proof (completeness_total (map sd_v sl) (l0 :: ls) NE SO) as Q.
      destruct (checkGoLensCompleteness (map sd_v sl) (l0 :: ls)); cbn [bind]; auto; contradiction.
  - destruct (raw_uni_cases lindef e vs E)
      as [[H K]|[[H [H1 K]]|[[H [H1 [H2 K]]]|[[H [[a H1] K]]|[[H [[a H1] K]]|[[H [a [b [r [H1 K]]]]]|[H [a [b [r [H1 K]]]]]]]]]]];
      congruence.
  - apply P. reflexivity.
  - destruct (raw_uni_cases lindef e vs E)
      as [[H K]|[[H [H1 K]]|[[H [H1 [H2 K]]]|[[H [[a H1] K]]|[[H [[a H1] K]]|[[H [a [b [r [H1 K]]]]]|[H [a [b [r [H1 K]]]]]]]]]]];
      congruence.
Qed.
End Uni.

(** *** Witnesses for C44 *)

(** Values are lists of conjuncts: 1 is #Lineage, 2 another definition of that
    name, anything else some other value. *)
Definition conj_ev : evaluator (list N) := {|
  ev_unify := @app N;
  ev_embed := @app N;
  ev_subsumes := fun _ _ => false;
  ev_subsumes_raw := fun _ _ => false;
  ev_validate := fun _ => None;
  ev_schdef := fun v => v;
  ev_sch := fun v => v;
  ev_exists := fun _ => true;
  ev_path := fun _ => "";
  ev_refpath := fun v => match v with [1%N] | [2%N] => "#Lineage" | _ => "" end;
  ev_field := fun _ _ => FConcrete;
  ev_name := fun _ => "";
  ev_final := fun _ => true;
  ev_valid := fun _ => true;
  ev_schemas := fun _ => None;
  ev_lenses := fun _ => None;
  ev_lens_result := fun _ v => v;
  ev_lacunas := fun _ _ => [];
  ev_bottom := fun _ => false;
  ev_default := fun v => v;
  ev_json_ok := fun _ => true;
  ev_struct := fun _ => true
|}.
Definition conj_occ (v : list N) : nat := count_occ N.eq_dec v 1%N.
Definition conj_of (xs : list N) : cexpr (list N) := Oper xs AndOp (map (fun x => Atom [x]) xs).

Lemma twice_unified : exists e vs raw uni,
  AppendSplit (ev_subsumes_raw conj_ev) e AndOp = Ok vs /\
  counts_lineage conj_ev conj_occ [1%N] e vs /\
  raw_uni conj_ev [1%N] e = Ok (raw, uni) /\ conj_occ uni = 3.
Proof.
  exists (conj_of [1; 1; 5]%N). do 3 eexists. split; [reflexivity|]. split; [|split; reflexivity].
  unfold counts_lineage, conj_occ. split; [intros a b; apply count_occ_app|]. split; [reflexivity|].
  split; [reflexivity|]. intros v [<-|[<-|[<-|[]]]]; reflexivity.
Qed.

Lemma unify_panics : exists e, SplitProofs.wf e /\ raw_uni conj_ev [1%N] e = Panic.
Proof.
  exists (conj_of [1; 1]%N). split; [|reflexivity]. cbn. split; [discriminate|auto].
Qed.

Lemma never_unified : exists e raw uni,
  raw_uni conj_ev [1%N] e = Ok (raw, uni) /\ conj_occ uni = 0.
Proof. exists (conj_of [2; 5]%N). do 2 eexists. split; reflexivity. Qed.
