(** The hint at [-p] ([cmd/thema/load.go:213-221]). *)
From Verif Require Import Prelude Strings Version VersionProofs Search SearchProofs ValidateErr Native Split
  Lineage LineageProofs BindFacts BindErrorProofs WalkProofs WalkFacts Translate Cli Toy CliProofs.
Local Open Scope string_scope.
Local Open Scope list_scope.

Section Hint.
Context {V : Type}.
Variable ev : evaluator V.
Variable fv : bool.
Variable lindef : V.
Variable path_err : string -> option string.
Variable skip : bool.

Definition harmless (e : err) : Prop :=
  err_is e ErrValueNotALineage = true ->
  e_text e = "not a lineage, missing #Lineage.name" \/ e_text e = "not a lineage, missing #Lineage.schemas".

(** CUE does not use the errors of thema. *)
Definition foreign (bs : list (binst V)) : Prop :=
  forall b e, In b bs -> bi_err b = Some e -> err_is e ErrValueNotALineage = false.

Lemma loadone_harmless id b pp cp e :
  (forall e', bi_err b = Some e' -> err_is e' ErrValueNotALineage = false) ->
  loadone ev fv lindef path_err skip id b pp cp = Err e -> harmless e.
Proof.
  intros HF H. destruct (load_one ev fv lindef path_err skip id b pp cp) as (r & B & E). rewrite H in E.
  destruct r as [v|e'].
  - symmetry in E. intros M. exact (not_a_lineage_text ev _ _ _ _ _ _ E M).
  - injection E as <-. intros M. inversion B; subst; try discriminate M.
    match goal with K : bi_err b = Some _ |- _ => rewrite (HF _ K) in M end. discriminate M.
Qed.

Lemma load_all_harmless bs pp cp : foreign bs -> forall id,
  match load_all ev fv lindef path_err skip id bs pp cp with
  | Ok rets => forall b e, In (b, inr e) rets -> harmless e
  | Err _ => False
  | _ => True
  end.
Proof.
  induction bs as [|b bs IH]; intros HF id; cbn [load_all]; [intros ? ? []|].
  assert (HF' : foreign bs) by (intros b' e' I; apply HF; right; exact I).
  specialize (IH HF' (id + 1)%N).
  destruct (loadone ev fv lindef path_err skip id b (pp b) cp) as [l|e| |] eqn:E; try exact I;
    destruct (load_all ev fv lindef path_err skip (id + 1) bs pp cp) as [rets|e'| |]; cbn [bind]; try exact I; try exact IH.
  - intros b' e' [H|H]; [discriminate H|exact (IH _ _ H)].
  - intros b' e' [H|H]; [|exact (IH _ _ H)]. injection H as <- <-.
    eapply loadone_harmless; [|exact E]. intros e'' K. exact (HF b e'' (or_introl eq_refl) K).
Qed.

Lemma pick_harmless (rets : list (binst V * (lineage V + err))) : forall sel e, pick sel rets = Err e -> harmless e.
Proof.
  induction rets as [|[b [l|x]] rets IH]; intros sel e H; cbn [pick] in H; [discriminate| |].
  - destruct sel as [s|]; [injection H as <-; intros M; discriminate M|exact (IH _ _ H)].
  - exact (IH _ _ H).
Qed.

Lemma build_harmless bs pp cp e : foreign bs ->
  buildInsts ev fv lindef path_err skip bs pp cp = Err e -> harmless e.
Proof.
  intros HF H. unfold buildInsts in H. pose proof (load_all_harmless bs pp cp HF 0%N) as L.
  destruct (load_all ev fv lindef path_err skip 0 bs pp cp) as [rets|e'| |]; cbn [bind] in H; try discriminate; [|destruct L].
  destruct rets as [|[b0 r0] [|r1 rets]].
  - injection H as <-. intros M; discriminate M.
  - destruct r0 as [l|x]; cbn in H; [discriminate|]. injection H as <-. apply (L b0). left. reflexivity.
  - destruct (pick None ((b0, r0) :: r1 :: rets)) as [s|x| |] eqn:P; cbn [bind] in H; try discriminate.
    + destruct s as [s|]; [discriminate|]. cbn [snd] in H. destruct r0 as [l|x]; [discriminate|].
      injection H as <-. apply (L b0). left. reflexivity.
    + injection H as <-. exact (pick_harmless _ _ _ P).
Qed.

Lemma dynload_harmless fs mo instances input abs cp verstr e :
  (forall cfg, foreign (instances cfg)) ->
  dynLoad ev fv lindef path_err skip fs mo instances input abs cp verstr = Err e -> harmless e.
Proof.
  intros HF H. unfold dynLoad in H. destruct (String.eqb input ""); [injection H as <-; intros M; discriminate M|].
  destruct (load_config fs mo input abs) as [cfg|x| |] eqn:C; cbn [bind] in H; try discriminate.
  - destruct (buildInsts _ _ _ _ _ _ _ _) as [lb|x| |] eqn:B; cbn [bind] in H; try discriminate.
    + destruct (pick_schema (fst lb) verstr) as [s|x| |] eqn:P; cbn [bind] in H; try discriminate.
      injection H as <-. unfold pick_schema in P. destruct (String.eqb verstr "").
      * unfold latest, sch_at, index in P. destruct (Nat.eqb _ _); [discriminate|]. destruct (nth_error _ _); discriminate.
      * unfold parse_version in P. intros M.
        destruct (match split_on "."%char verstr with [_; _] => _ | _ => _ end) as [v [y|]] eqn:Q in P.
        -- injection P as <-.
           assert (Y : y = malformed).
           { destruct (split_on "."%char verstr) as [|p0 [|p1 [|p2 r]]]; try (injection Q as _ <-; reflexivity).
             destruct (parse_uint32 p0); [|injection Q as _ <-; reflexivity].
             destruct (parse_uint32 p1); [discriminate|injection Q as _ <-; reflexivity]. }
           subst y. discriminate M.
        -- destruct (lin_schema (fst lb) v); try discriminate. injection P as <-. discriminate M.
    + injection H as <-. exact (build_harmless _ _ _ _ (HF _) B).
  - injection H as <-. unfold load_config in C. intros M.
    destruct (fs_stat fs abs); try (injection C as <-; discriminate M);
      destruct (findCueMod fs mo abs); try discriminate C; injection C as <-; discriminate M.
Qed.
End Hint.

(** The command passes the error on as it is. *)
Lemma no_hint : forall (V : Type) (ev : evaluator V) fv lindef path_err skip fs mo instances input abs cp
    jd yd rm hyd dehyd concrete w fuel c f args e,
  (forall cfg, foreign (instances cfg)) ->
  dynLoad ev fv lindef path_err skip fs mo instances input abs cp (f_version f) = Err e ->
  exec ev jd yd rm hyd dehyd concrete
    (dynLoad ev fv lindef path_err skip fs mo instances input abs cp) w fuel c f args = Err e.
Proof.
  intros V ev fv lindef path_err skip fs mo instances input abs cp jd yd rm hyd dehyd concrete w fuel c f args e HF H.
  pose proof (dynload_harmless _ _ _ _ _ _ _ _ _ _ _ _ _ HF H) as HM.
  unfold exec. rewrite H.
  destruct (err_is e ErrValueNotALineage) eqn:M; cbn [andb bind]; [|reflexivity].
  destruct (HM M) as [-> | ->]; reflexivity.
Qed.

(** A package whose lineage is at [lin]. *)
Definition hidden : list (binst tv) :=
  [mkBinst None "p" (fun p => if String.eqb p "" then Some (Atom (TDat 3))
                              else if String.eqb p "lin" then Some (Atom (tlin ss4 [])) else None)].
Definition hidden_load (cp : string) : string -> outcome (dynamicLoader tv) :=
  dynLoad toy false TLinDef (fun _ => None) false ex_fs (fun _ => inr "") (fun _ => hidden) "d" ["d"] cp.
Definition hidden_data (cp : string) : process tv :=
  thema_data toy ex_json ex_yaml (fun _ _ _ => Panic) (fun i => i) (fun i => i) (fun _ => true)
    (hidden_load cp) (ex_world "1") 10 CValidate (mkFlags "0.0" "" false) [].

Lemma hint_missing :
  exists (V : Type) (ev : evaluator V) fv lindef path_err skip fs mo instances input abs jd yd rm hyd dehyd concrete w fuel f,
    let run cp := thema_data ev jd yd rm hyd dehyd concrete
      (dynLoad ev fv lindef path_err skip fs mo instances input abs cp) w fuel CValidate f [] in
    (forall cfg, foreign (instances cfg)) /\
    (exists e, dynLoad ev fv lindef path_err skip fs mo instances input abs "" (f_version f) = Err e /\
       err_is e ErrValueNotALineage = true) /\
    (exists o, run "lin" = Exited 0 o "") /\
    run "" = Exited 1 ONothing ("Error: not a lineage, missing #Lineage.name" ++ newline)%string.
Proof.
  exists tv, toy, false, TLinDef, (fun _ => None), false, ex_fs, (fun _ => inr ""), (fun _ => hidden), "d", ["d"],
    ex_json, ex_yaml, (fun _ _ _ => Panic), (fun i => i), (fun i => i), (fun _ => true), (ex_world "1"), 10, (mkFlags "0.0" "" false).
  cbv zeta. split; [intros _ b e [<-|[]] H; discriminate H|].
  split; [eexists; split; vm_compute; reflexivity|].
  split; [eexists; vm_compute; reflexivity|vm_compute; reflexivity].
Qed.
