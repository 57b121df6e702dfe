(** What the errors of [BindLineage] say ([bind.go:65-172, 330-352]), and that the
    advice they give helps. *)
From Verif Require Import Prelude Strings Version VersionProofs Search SearchProofs ValidateErr Native
  Split Lineage LineageProofs GoLensProofs BindFacts.
From Coq Require Import ZArith Lia.
Local Open Scope string_scope.
Local Open Scope list_scope.

Ltac injs := repeat match goal with H : Some _ = Some _ |- _ => injection H; clear H; intros; subst end.

Section B.
Context {V : Type}.
Variable ev : evaluator V.

(** What is wrong with the schema [e] that follows [prev], and the error that says
    so. [skip] is whether the checks of compatibility are skipped. *)
Inductive schema_fault (skip : bool) : option (schema_entry V) -> schema_entry V -> err -> Prop :=
| fault_version prev e : entry_v e = None ->
    schema_fault skip prev e
      (mkErr [ErrInvalidLineage] "#SchemaDef.version must have concrete major and minor versions")
| fault_order p e v w : entry_v p = Some v -> entry_v e = Some w -> vlt w v ->
    schema_fault skip (Some p) e
      (mkErr [ErrInvalidSchemasOrder]
         ("schema version " ++ vstring w ++ " is not greater than previous schema version " ++ vstring v)%string)
| fault_major p e a b c : entry_v p = Some (a, b) -> entry_v e = Some (c, 0%N) -> ~ vlt (c, 0%N) (a, b) ->
    skip = false -> ev_subsumes ev (ev_schdef ev (se_val e)) (ev_schdef ev (se_val p)) = true ->
    schema_fault skip (Some p) e
      (mkErr [ErrInvalidLineage]
         ("schema " ++ vstring (c, 0%N) ++ " must be backwards incompatible with schema " ++ vstring (a, b) ++
          ": introduce a breaking change, or redeclare as version " ++ vstring (a, b + 1)%N)%string)
| fault_minor p e v c d : entry_v p = Some v -> entry_v e = Some (c, d) -> ~ vlt (c, d) v -> d <> 0%N ->
    skip = false -> ev_subsumes ev (ev_schdef ev (se_val e)) (ev_schdef ev (se_val p)) = false ->
    schema_fault skip (Some p) e
      (mkErr [ErrInvalidLineage]
         ("schema " ++ vstring (c, d) ++ " is not backwards compatible with schema " ++ vstring v ++ ":"
          ++ newline)%string).

(** The schema before the place where the next one goes. *)
Definition before (pre : list (schema_entry V)) : option (schema_entry V) :=
  match rev pre with [] => None | p :: _ => Some p end.

Definition faultless (skip : bool) (es : list (schema_entry V)) : Prop :=
  forall pre e post x, es = pre ++ e :: post -> ~ schema_fault skip (before pre) e x.
(** The first fault of the list. *)
Definition first_fault (skip : bool) (es : list (schema_entry V)) (x : err) : Prop :=
  exists pre e post, es = pre ++ e :: post /\ faultless skip pre /\ schema_fault skip (before pre) e x.

Lemma check_one_fault cfg p e :
  match check_one ev cfg (option_map (fun q => mkSch (match entry_v q with Some v => v | None => synv0 end)
      (se_val q) (ev_schdef ev (se_val q))) p) e with
  | Ok s => (forall q, p = Some q -> entry_v q <> None) ->
      (forall x, ~ schema_fault (skipbuggychecks cfg) p e x) /\
      entry_v e = Some (sd_v s) /\ s = mkSch (sd_v s) (se_val e) (ev_schdef ev (se_val e))
  | Err x => (forall q, p = Some q -> entry_v q <> None) ->
      schema_fault (skipbuggychecks cfg) p e x /\ forall y, schema_fault (skipbuggychecks cfg) p e y -> y = x
  | Panic | OutOfFuel => False
  end.
Proof.
  unfold check_one. destruct (se_major e) as [c|] eqn:M, (se_minor e) as [d|] eqn:N.
  2,3,4: (intros _; split; [apply fault_version; unfold entry_v; rewrite M, ?N; reflexivity|];
    intros y F; inversion F as [? ? H|? ? ? ? ? H|? ? ? ? ? ? H|? ? ? ? ? ? H]; [reflexivity|..];
    exfalso; unfold entry_v in H; rewrite M, ?N in H; discriminate).
  assert (E : entry_v e = Some (c, d)) by (unfold entry_v; rewrite M, N; reflexivity).
  destruct p as [p|]; cbn [option_map checkSchemasOrder bind].
  2:{ intros _. split; [|split; [exact E|reflexivity]]. intros x F. inversion F as [? ? H| | |]. congruence. }
  cbn [sd_v sd_def].
  destruct (vless (c, d) _) eqn:O; cbn [bind].
  { intros HP. destruct (entry_v p) as [v|] eqn:P; [|destruct (HP p eq_refl P)].
    apply vless_spec in O. split; [exact (fault_order _ _ _ _ _ P E O)|].
    intros y F. inversion F; subst; try congruence; rewrite P in *; rewrite E in *;
      injs;
      try contradiction; reflexivity. }
  destruct (skipbuggychecks cfg) eqn:SK; cbn [negb].
  { intros HP. destruct (entry_v p) as [v|] eqn:P; [|destruct (HP p eq_refl P)].
    split; [|split; [exact E|reflexivity]]. intros x F.
    inversion F; subst; try congruence. rewrite P in *; rewrite E in *.
    injs.
    match goal with H : vlt _ _ |- _ => apply vless_spec in H end. congruence. }
  cbn [snd sd_v]. unfold themaCompatible.
  destruct (N.eqb_spec d 0) as [Hd|Hd]; cbn [andb negb];
    destruct (ev_subsumes ev (ev_schdef ev (se_val e)) (ev_schdef ev (se_val p))) eqn:SU; cbn [andb negb];
    intros HP; (destruct (entry_v p) as [[a b]|] eqn:P; [|destruct (HP p eq_refl P)]);
    assert (NO : ~ vlt (c, d) (a, b)) by (intros K; apply vless_spec in K; congruence).
  - subst d. split; [exact (fault_major _ _ _ _ _ _ P E NO eq_refl SU)|].
    intros y F. inversion F; subst; try congruence; rewrite P in *; rewrite E in *;
      injs;
      try contradiction; try reflexivity; congruence.
  - split; [|split; [exact E|reflexivity]]. intros y F. inversion F; subst; try congruence;
    rewrite P in *; rewrite E in *; injs; contradiction.
  - split; [|split; [exact E|reflexivity]]. intros y F. inversion F; subst; try congruence;
    rewrite P in *; rewrite E in *; injs; contradiction.
  - split; [exact (fault_minor _ _ _ _ _ _ P E NO Hd eq_refl SU)|].
    intros y F. inversion F; subst; try congruence; rewrite P in *; rewrite E in *;
      injs;
      try contradiction; try reflexivity; congruence.
Qed.

Lemma before_app pre e : before (pre ++ [e]) = Some e.
Proof. unfold before. rewrite rev_app_distr. reflexivity. Qed.

Definition as_def (q : schema_entry V) : schema_def V :=
  mkSch (match entry_v q with Some v => v | None => synv0 end) (se_val q) (ev_schdef ev (se_val q)).

(** [pre] are the schemas that were accepted before. *)
Lemma check_schemas_fault cfg es : forall pre,
  (forall q, before pre = Some q -> entry_v q <> None) ->
  match check_schemas ev cfg (option_map as_def (before pre)) es with
  | Ok ss => forall es1 e es2 x, es = es1 ++ e :: es2 ->
      ~ schema_fault (skipbuggychecks cfg) (before (pre ++ es1)) e x
  | Err x => exists es1 e es2, es = es1 ++ e :: es2 /\
      (forall f1 f f2 y, es1 = f1 ++ f :: f2 -> ~ schema_fault (skipbuggychecks cfg) (before (pre ++ f1)) f y) /\
      schema_fault (skipbuggychecks cfg) (before (pre ++ es1)) e x /\
      (forall y, schema_fault (skipbuggychecks cfg) (before (pre ++ es1)) e y -> y = x)
  | Panic | OutOfFuel => False
  end.
Proof.
  induction es as [|e es IH]; intros pre HP; cbn [check_schemas].
  - intros [|? ?] ? ? ? H; discriminate H.
  - pose proof (check_one_fault cfg (before pre) e) as C.
    change (fun q => mkSch _ (se_val q) (ev_schdef ev (se_val q))) with as_def in C.
    destruct (check_one ev cfg (option_map as_def (before pre)) e) as [s|x| |]; cbn [bind]; [| |exact C|exact C].
    + destruct (C HP) as [NF [Ee Es]]. specialize (IH (pre ++ [e])). rewrite before_app in IH.
      cbn [option_map] in IH.
      assert (AS : as_def e = s) by (unfold as_def; rewrite Ee; symmetry; exact Es). rewrite AS in IH.
      assert (HQ : forall q, Some e = Some q -> entry_v q <> None)
        by (intros q Q; injection Q as <-; rewrite Ee; discriminate).
      specialize (IH HQ).
      destruct (check_schemas ev cfg (Some s) es) as [ss|x| |]; cbn [bind]; [| |exact IH|exact IH].
      * intros es1 f es2 x Q. destruct es1 as [|g es1]; cbn in Q; injection Q as <- Q.
        -- rewrite app_nil_r. apply NF.
        -- specialize (IH es1 f es2 x Q). rewrite <- app_assoc in IH. exact IH.
      * destruct IH as (es1 & f & es2 & -> & K1 & K2 & K3). exists (e :: es1), f, es2.
        rewrite <- app_assoc in K2, K3. cbn [app] in K2, K3.
        split; [reflexivity|]. split; [|split; [exact K2|exact K3]].
        intros f1 g f2 y Q. destruct f1 as [|h f1]; cbn in Q; injection Q as <- Q.
        -- rewrite app_nil_r. apply NF.
        -- specialize (K1 f1 g f2 y Q). rewrite <- app_assoc in K1. exact K1.
    + destruct (C HP) as [F U]. exists [], e, es. rewrite app_nil_r. split; [reflexivity|].
      split; [|split; [exact F|exact U]]. intros [|? ?] ? ? ? Q; discriminate Q.
Qed.

Lemma check_schemas_first cfg es :
  (forall x, check_schemas ev cfg None es = Err x <-> first_fault (skipbuggychecks cfg) es x) /\
  ((exists ss, check_schemas ev cfg None es = Ok ss) <-> faultless (skipbuggychecks cfg) es).
Proof.
  pose proof (check_schemas_fault cfg es []) as C. cbn [before rev option_map app] in C.
  assert (HP : forall q : schema_entry V, @None (schema_entry V) = Some q -> entry_v q <> None) by discriminate.
  specialize (C HP). destruct (check_schemas ev cfg None es) as [ss|x| |]; [| |destruct C|destruct C].
  - split.
    + intros x. split; [discriminate|]. intros (pre & e & post & Q & _ & F). destruct (C _ _ _ _ Q F).
    + split; [|eauto]. intros _ pre e post x Q. exact (C _ _ _ _ Q).
  - destruct C as (es1 & e & es2 & Q & K1 & K2 & K3). split.
    + intros y. split.
      * intros H. injection H as <-. exists es1, e, es2. split; [exact Q|]. split; [|exact K2]. exact K1.
      * intros (pre & f & post & Q' & NF & F). f_equal.
        assert (D : es1 = pre).
        { rewrite Q in Q'. apply app_eq_app in Q' as [l [[-> A]|[-> A]]].
          - destruct l as [|g l]; [rewrite app_nil_r; reflexivity|]. cbn in A. injection A as <- _.
            destruct (K1 _ _ _ _ eq_refl F).
          - destruct l as [|g l]; [rewrite app_nil_r; reflexivity|]. cbn in A. injection A as <- _.
            destruct (NF _ _ _ _ eq_refl K2). }
        subst pre. rewrite Q in Q'. apply app_inv_head in Q'. injection Q' as <- _. symmetry. exact (K3 _ F).
    + split; [intros [ss H]; discriminate H|]. intros NF. destruct (NF _ _ _ _ Q K2).
Qed.
(** *** The lenses *)

Inductive lens_fault : option (cue_lens V) -> cue_lens V -> err -> Prop :=
| fault_decode prev l : cl_to l = None \/ cl_from l = None ->
    lens_fault prev l (mkErr [ErrInvalidLineage] "failed to decode lens version ")
| fault_lenses p l pt pf t f : cl_to p = Some pt -> cl_from p = Some pf ->
    cl_to l = Some t -> cl_from l = Some f -> vlt t pt \/ (t = pt /\ vlt f pf) ->
    lens_fault (Some p) l
      (mkErr [ErrInvalidLensesOrder]
         ("lens version [to: " ++ vstring t ++ ", from: " ++ vstring f ++
          "] is not greater than previous lens version [to: " ++ vstring pt ++ ", from: " ++ vstring pf ++ "]")%string).

Definition lens_before (pre : list (cue_lens V)) : option (cue_lens V) :=
  match rev pre with [] => None | p :: _ => Some p end.
Definition faultless_lenses (ls : list (cue_lens V)) : Prop :=
  forall pre l post x, ls = pre ++ l :: post -> ~ lens_fault (lens_before pre) l x.
Definition first_lens_fault (ls : list (cue_lens V)) (x : err) : Prop :=
  exists pre l post, ls = pre ++ l :: post /\ faultless_lenses pre /\ lens_fault (lens_before pre) l x.

Definition pair_of (l : cue_lens V) : version * version :=
  (match cl_to l with Some t => t | None => synv0 end, match cl_from l with Some f => f | None => synv0 end).

Lemma check_lens_fault p l :
  (forall q, p = Some q -> cl_to q <> None /\ cl_from q <> None) ->
  match (curr <- newLensVersionDef l ;; _ <- doCheck (option_map pair_of p) curr ;; Ok curr) with
  | Ok c => (forall x, ~ lens_fault p l x) /\ c = pair_of l /\ cl_to l <> None /\ cl_from l <> None
  | Err x => lens_fault p l x /\ forall y, lens_fault p l y -> y = x
  | Panic | OutOfFuel => False
  end.
Proof.
  intros HP. unfold newLensVersionDef, pair_of. destruct (cl_to l) as [t|] eqn:T, (cl_from l) as [f|] eqn:F; cbn [bind].
  2,3,4: (split; [apply fault_decode; auto|]; intros y K; inversion K; subst; [reflexivity|congruence]).
  destruct p as [p|]; cbn [option_map doCheck bind].
  2:{ split; [|repeat split; discriminate]. intros x K. inversion K as [? ? [H|H]|]; congruence. }
  destruct (HP p eq_refl) as [P1 P2].
  destruct (cl_to p) as [pt|] eqn:PT; [|congruence]. destruct (cl_from p) as [pf|] eqn:PF; [|congruence].
  destruct (vless t pt) eqn:O1; cbn [bind].
  { apply vless_spec in O1. split; [exact (fault_lenses _ _ _ _ _ _ PT PF T F (or_introl O1))|].
    intros y K. inversion K as [? ? [H|H]|]; subst; try congruence.
    rewrite PT, PF, T, F in *. injs. reflexivity. }
  destruct (veqb pt t && vless f pf) eqn:O2; cbn [bind].
  { apply andb_prop in O2 as [O2 O3]. apply veqb_spec in O2. apply vless_spec in O3. subst pt.
    split; [exact (fault_lenses _ _ _ _ _ _ PT PF T F (or_intror (conj eq_refl O3)))|].
    intros y K. inversion K as [? ? [H|H]|]; subst; try congruence.
    rewrite PT, PF, T, F in *. injs. reflexivity. }
  split; [|repeat split; discriminate]. intros x K. inversion K as [? ? [H|H]|? ? ? ? ? ? H1 H2 H3 H4 H5]; try congruence.
  rewrite PT, PF, T, F in *. injs. destruct H5 as [H5|[-> H5]]; apply vless_spec in H5; [congruence|].
  rewrite veqb_refl, H5 in O2. discriminate.
Qed.

Lemma lens_before_app pre l : lens_before (pre ++ [l]) = Some l.
Proof. unfold lens_before. rewrite rev_app_distr. reflexivity. Qed.

Lemma check_lenses_fault ls : forall pre,
  (forall q, lens_before pre = Some q -> cl_to q <> None /\ cl_from q <> None) ->
  match check_cue_lenses (option_map pair_of (lens_before pre)) ls with
  | Ok _ => forall es1 e es2 x, ls = es1 ++ e :: es2 -> ~ lens_fault (lens_before (pre ++ es1)) e x
  | Err x => exists es1 e es2, ls = es1 ++ e :: es2 /\
      (forall f1 f f2 y, es1 = f1 ++ f :: f2 -> ~ lens_fault (lens_before (pre ++ f1)) f y) /\
      lens_fault (lens_before (pre ++ es1)) e x /\
      (forall y, lens_fault (lens_before (pre ++ es1)) e y -> y = x)
  | Panic | OutOfFuel => False
  end.
Proof.
  induction ls as [|l ls IH]; intros pre HP; cbn [check_cue_lenses].
  - intros [|? ?] ? ? ? H; discriminate H.
  - pose proof (check_lens_fault (lens_before pre) l HP) as C.
    destruct (newLensVersionDef l) as [c|x| |]; cbn [bind] in C |- *; [| |exact C|exact C].
    2:{ destruct C as [F U]. exists [], l, ls. rewrite app_nil_r. split; [reflexivity|].
        split; [|split; [exact F|exact U]]. intros [|? ?] ? ? ? Q; discriminate Q. }
    destruct (doCheck (option_map pair_of (lens_before pre)) c) as [u|x| |]; cbn [bind] in C |- *; [| |exact C|exact C].
    2:{ destruct C as [F U]. exists [], l, ls. rewrite app_nil_r. split; [reflexivity|].
        split; [|split; [exact F|exact U]]. intros [|? ?] ? ? ? Q; discriminate Q. }
    destruct C as [NF [-> HL]]. specialize (IH (pre ++ [l])). rewrite lens_before_app in IH. cbn [option_map] in IH.
    assert (HQ : forall q, Some l = Some q -> cl_to q <> None /\ cl_from q <> None)
      by (intros q Q; injection Q as <-; exact HL).
    specialize (IH HQ). destruct (check_cue_lenses (Some (pair_of l)) ls) as [ss|x| |]; [| |exact IH|exact IH].
    + intros es1 f es2 x Q. destruct es1 as [|g es1]; cbn in Q; injection Q as <- Q.
      * rewrite app_nil_r. apply NF.
      * specialize (IH es1 f es2 x Q). rewrite <- app_assoc in IH. exact IH.
    + destruct IH as (es1 & f & es2 & -> & K1 & K2 & K3). exists (l :: es1), f, es2.
      rewrite <- app_assoc in K2, K3. cbn [app] in K2, K3.
      split; [reflexivity|]. split; [|split; [exact K2|exact K3]].
      intros f1 g f2 y Q. destruct f1 as [|h f1]; cbn in Q; injection Q as <- Q.
      * rewrite app_nil_r. apply NF.
      * specialize (K1 f1 g f2 y Q). rewrite <- app_assoc in K1. exact K1.
Qed.

Lemma check_lenses_first ls :
  (forall x, check_cue_lenses None ls = Err x <-> first_lens_fault ls x) /\
  (check_cue_lenses None ls = Ok tt <-> faultless_lenses ls).
Proof.
  pose proof (check_lenses_fault ls []) as C. cbn [lens_before rev option_map app] in C.
  assert (HP : forall q : cue_lens V, @None (cue_lens V) = Some q -> cl_to q <> None /\ cl_from q <> None) by discriminate.
  specialize (C HP). destruct (check_cue_lenses None ls) as [[]|x| |]; [| |destruct C|destruct C].
  - split.
    + intros x. split; [discriminate|]. intros (pre & e & post & Q & _ & F). destruct (C _ _ _ _ Q F).
    + split; [|reflexivity]. intros _ pre e post x Q. exact (C _ _ _ _ Q).
  - destruct C as (es1 & e & es2 & Q & K1 & K2 & K3). split.
    + intros y. split.
      * intros H. injection H as <-. exists es1, e, es2. split; [exact Q|]. split; [|exact K2]. exact K1.
      * intros (pre & f & post & Q' & NF & F). f_equal.
        assert (D : es1 = pre).
        { rewrite Q in Q'. apply app_eq_app in Q' as [l [[-> A]|[-> A]]].
          - destruct l as [|g l]; [rewrite app_nil_r; reflexivity|]. cbn in A. injection A as <- _.
            destruct (K1 _ _ _ _ eq_refl F).
          - destruct l as [|g l]; [rewrite app_nil_r; reflexivity|]. cbn in A. injection A as <- _.
            destruct (NF _ _ _ _ eq_refl K2). }
        subst pre. rewrite Q in Q'. apply app_inv_head in Q'. injection Q' as <- _. symmetry. exact (K3 _ F).
    + split; [intros H; discriminate H|]. intros NF. destruct (NF _ _ _ _ Q K2).
Qed.

(** *** [BindLineage] *)

Lemma bind_first_fault id fv lindef e opts raw uni es :
  shape_accepted ev lindef e raw uni -> ev_schemas ev uni = Some es ->
  let skip := negb fv && existsb is_skip opts in
  let bound := BindLineage ev id fv lindef e opts in
  (forall x, first_fault skip es x -> bound = Err x) /\
  (faultless skip es -> flat_map lenses_of opts = [] ->
     match ev_lenses ev uni with
     | None => exists l, bound = Ok l
     | Some ls => (forall x, bound = Err x <-> first_lens_fault ls x) /\
                  ((exists l, bound = Ok l) <-> faultless_lenses ls)
     end).
Proof.
  intros A Es skip bound. unfold bound. rewrite (bind_shape ev id fv lindef e opts raw uni A).
  rewrite make_cfg_spec. fold skip. cbv zeta. unfold checkGoValidity. rewrite Es.
  set (cfg := mkCfg skip (flat_map lenses_of opts)).
  destruct (check_schemas_first cfg es) as [K1 K2]. cbn [skipbuggychecks cfg] in K1, K2. split.
  - intros x F. apply K1 in F. rewrite F. reflexivity.
  - intros NF HL. apply K2 in NF as [ss ->]. cbn [bind].
    unfold checkLensesOrder. cbn [implenses cfg]. rewrite HL.
    destruct (ev_lenses ev uni) as [ls|]; cbn [bind]; [|eauto].
    destruct (check_lenses_first ls) as [L1 L2].
    destruct (check_cue_lenses None ls) as [[]|x| |] eqn:E; cbn [bind].
    + split; [|split; [intros _; apply L2; reflexivity|eauto]].
      intros x. split; [discriminate|]. intros F. apply L1 in F. discriminate.
    + split; [|split; [intros [l H]; discriminate H|intros H; apply L2 in H; discriminate H]].
      intros y. split; [intros H; injection H as <-; apply L1; reflexivity|].
      intros F. apply L1 in F. injection F as ->. reflexivity.
    + exfalso. pose proof (check_lenses_fault ls [] ltac:(discriminate)) as C. cbn in C. rewrite E in C. exact C.
    + exfalso. pose proof (check_lenses_fault ls [] ltac:(discriminate)) as C. cbn in C. rewrite E in C. exact C.
Qed.

(** The checks before. *)
Lemma bind_candidate id fv lindef e opts raw uni :
  raw_uni ev lindef e = Ok (raw, uni) ->
  let bound := BindLineage ev id fv lindef e opts in
  (ev_exists ev raw = false -> ev_path ev raw = "" ->
     bound = Err (mkErr [ErrValueNotExist] "cue value does not exist")) /\
  (ev_exists ev raw = false -> ev_path ev raw <> "" ->
     bound = Err (mkErr [ErrValueNotExist]
       ("not a lineage: no cue value at path """ ++ ev_path ev raw ++ """")%string)) /\
  (ev_exists ev raw = true -> forall f, f = "name" \/ (f = "schemas" /\ ev_field ev raw "name" = FConcrete) ->
     (ev_field ev raw f = FAbsent ->
        bound = Err (mkErr [ErrValueNotALineage] ("not a lineage, missing #Lineage." ++ f)%string)) /\
     (ev_field ev raw f = FNonConcrete ->
        bound = Err (mkErr [ErrInvalidLineage] ("invalid lineage, #Lineage." ++ f ++ " must be concrete")%string))) /\
  (ev_exists ev raw = true -> ev_field ev raw "name" = FConcrete -> ev_field ev raw "schemas" = FConcrete ->
     (ev_final ev uni && native_ok ev uni = false ->
        bound = Err (mkErr [ErrInvalidLineage] "not an instance of thema.#Lineage")) /\
     (ev_final ev uni && native_ok ev uni = true -> ev_valid ev raw && ev_valid ev uni = false ->
        bound = Err (mkErr [ErrInvalidLineage] "lineage is invalid"))).
Proof.
  intros R bound. unfold bound, BindLineage. rewrite R. cbn [bind]. unfold checkExists.
  split; [intros -> ->; reflexivity|].
  split; [intros -> H; apply String.eqb_neq in H; cbn [negb]; rewrite H; reflexivity|].
  split.
  - intros -> f Hf. cbn [negb bind]. unfold checkLineageShape, check_fields.
    destruct Hf as [->|[-> ->]]; cbn [bind]; (split; intros ->; reflexivity).
  - intros -> H1 H2. cbn [negb bind]. unfold checkLineageShape, check_fields. rewrite H1, H2. cbn [bind].
    split; [intros ->; reflexivity|]. intros ->. cbn [bind]. unfold checkNativeValidity.
    destruct (ev_valid ev raw), (ev_valid ev uni); cbn; intros H; try discriminate; reflexivity.
Qed.

(** Only one error is marked as "not a lineage". *)
Lemma split_no_err fuel by_ : forall e (a : list V) x, appendSplit (ev_subsumes_raw ev) fuel e by_ a <> Err x.
Proof.
  induction fuel as [|f IH]; intros e a x; cbn [appendSplit]; [discriminate|].
  destruct e as [v|v|v op args]; try discriminate.
  destruct (dedup (ev_subsumes_raw ev) args) as [|y [|z r]]; [discriminate| |].
  - destruct op; try discriminate; (destruct (cop_eqb _ by_); [apply IH|discriminate]).
  - destruct (cop_eqb op by_); [|discriminate].
    assert (G : forall l a, (fix go (l : list (cexpr V)) (a : list V) : outcome (list V) :=
                   match l with
                   | [] => Ok a
                   | y :: r => a' <- appendSplit (ev_subsumes_raw ev) f y by_ a ;; go r a'
                   end) l a <> Err x).
    { induction l as [|w l IHl]; intros a0; [discriminate|].
      destruct (appendSplit (ev_subsumes_raw ev) f w by_ a0) as [a'|e| |] eqn:E; cbn [bind]; try discriminate; [apply IHl|].
      destruct (IH _ _ _ E). }
    exact (G (y :: z :: r) a).
Qed.

Lemma raw_uni_no_err lindef e x : raw_uni ev lindef e <> Err x.
Proof.
  unfold raw_uni. destruct (AppendSplit (ev_subsumes_raw ev) e AndOp) as [vs|y| |] eqn:E; cbn [bind]; try discriminate.
  - destruct (Nat.ltb 1 (length vs)); [|discriminate].
    destruct (Nat.eqb _ _); [discriminate|].
    destruct (filter _ vs) as [|a [|b r]]; cbn [bind]; [discriminate| |];
      match goal with |- context [if ?c then _ else _] => destruct c end; discriminate.
  - destruct (split_no_err _ _ _ _ _ E).
Qed.

Lemma not_a_lineage_text id fv lindef e opts x :
  BindLineage ev id fv lindef e opts = Err x -> err_is x ErrValueNotALineage = true ->
  e_text x = "not a lineage, missing #Lineage.name" \/ e_text x = "not a lineage, missing #Lineage.schemas".
Proof.
  intros H M. unfold BindLineage in H. cbv zeta in H.
  destruct (raw_uni ev lindef e) as [[raw uni]|y| |] eqn:R; cbn [bind] in H; try discriminate.
  2:{ destruct (raw_uni_no_err _ _ _ R). }
  unfold checkExists in H. destruct (ev_exists ev raw); cbn [negb bind] in H.
  2:{ destruct (negb _); injection H as <-; discriminate M. }
  unfold checkLineageShape, check_fields in H.
  destruct (ev_field ev raw "name"); cbn [bind] in H; [injection H as <-; left; reflexivity|injection H as <-; discriminate M|].
  destruct (ev_field ev raw "schemas"); cbn [bind] in H; [injection H as <-; right; reflexivity|injection H as <-; discriminate M|].
  destruct (ev_final ev uni && native_ok ev uni); cbn [bind] in H; [|injection H as <-; discriminate M].
  unfold checkNativeValidity in H. destruct (ev_valid ev raw); cbn [negb bind] in H; [|injection H as <-; discriminate M].
  destruct (ev_valid ev uni); cbn [negb bind] in H; [|injection H as <-; discriminate M].
  unfold checkGoValidity in H. destruct (ev_schemas ev uni) as [es|]; cbn [bind] in H; [|discriminate].
  destruct (check_schemas ev (make_cfg fv opts) None es) as [sl|y| |] eqn:C; cbn [bind] in H; try discriminate.
  2:{ injection H as <-. apply check_schemas_first in C as (pre & f & post & _ & _ & F).
      inversion F; subst; discriminate M. }
  assert (SO : sorted_vs (map sd_v sl)).
  { apply check_schemas_ok in C as [_ [G _]]. apply sorted_of_steps. intros i a b Ha Hb.
    rewrite nth_error_map in Ha, Hb.
    destruct (nth_error sl i) as [s1|] eqn:E1; [|discriminate].
    destruct (nth_error sl (S i)) as [s2|] eqn:E2; [|discriminate].
    cbn in Ha, Hb. inversion Ha; inversion Hb; subst. exact (proj1 (G i s1 s2 E1 E2)). }
  exfalso. unfold checkLensesOrder in H. destruct (implenses (make_cfg fv opts)) as [|l0 ls].
  - destruct (ev_lenses ev uni) as [cl|]; cbn [bind] in H; [|discriminate].
    destruct (check_cue_lenses None cl) as [u|y| |] eqn:D; cbn [bind] in H; try discriminate.
    injection H as <-. apply check_lenses_first in D as (pre & f & post & _ & _ & F).
    inversion F; subst; discriminate M.
  - destruct (checkGoLensCompleteness (map sd_v sl) (l0 :: ls)) as [m|y| |] eqn:D; cbn [bind] in H; try discriminate.
    injection H as <-. unfold checkGoLensCompleteness in D.
    destruct (collect_cases (l0 :: ls) []) as [[r Hr]|[t Ht]].
    + rewrite Hr in D. cbn [bind] in D. destruct (map sd_v sl) as [|v0 rest]; [discriminate|].
      destruct (expect_lenses synv0 rest r []) as [missing all'].
      destruct missing as [|m ms]; [|injection D as <-; discriminate M].
      destruct all' as [|a as_]; [discriminate|].
      destruct (erroneous_total (v0 :: rest) (a :: as_) (l0 :: ls) SO) as [rs ER]. rewrite ER in D. cbn [bind] in D.
      injection D as <-. discriminate M.
    + rewrite Ht in D. cbn [bind] in D. injection D as <-. discriminate M.
Qed.

Lemma faults_decided skip es :
  ((exists x, first_fault skip es x) \/ faultless skip es) /\
  (forall x y, first_fault skip es x -> first_fault skip es y -> x = y) /\
  (forall x, first_fault skip es x -> ~ faultless skip es).
Proof.
  destruct (check_schemas_first (mkCfg skip []) es) as [K1 K2]. cbn [skipbuggychecks] in K1, K2.
  pose proof (check_schemas_fault (mkCfg skip []) es [] ltac:(discriminate)) as C. cbn [before rev option_map] in C.
  split; [|split].
  - destruct (check_schemas ev (mkCfg skip []) None es) as [ss|x| |]; [| |destruct C|destruct C].
    + right. apply K2. eauto.
    + left. exists x. apply K1. reflexivity.
  - intros x y Hx Hy. apply K1 in Hx, Hy. congruence.
  - intros x Hx NF. apply K1 in Hx. apply K2 in NF as [ss E]. congruence.
Qed.
End B.
