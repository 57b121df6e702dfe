(** What the exemplar lineages do with valid data. *)
From Verif Require Import Prelude Version VersionProofs Search ValidateErr Native Split Lineage LineageProofs WalkProofs Translate.
From Verif Require Import CueFrag CueSem CueProofs HydrateSem CueEval CueEvalSem CueEvalProofs CueEvalFacts Exemplars ExemplarProofs ExemplarExpand.
From Coq Require Import Sorting.Permutation.
Local Open Scope string_scope.
Local Open Scope list_scope.

Definition exemplars : list (string * cval) :=
  [("rename", rename); ("narrowing", narrowing); ("defaultchange", defaultchange); ("expand", expand); ("single", single); ("disjunct", disjunct)].

Lemma exemplars_bind errs id fv name x : In (name, x) exemplars ->
  exists l l', BindLineage (cue_fragment errs) id fv CLinDef (Atom x) (nameOpts name) = Ok l /\
    BindLineage (cue_fragment errs) id fv CLinDef (Atom x) (factoryOpts name []) = Ok l' /\ l_name l = name /\ l_name l' = name.
Proof.
  intros H. unfold exemplars in H. destruct fv.
  all: destruct H as [H|[H|[H|[H|[H|[H|[]]]]]]]; injection H as <- <-; do 2 eexists; (split; [lazy -[run_body run_lacunas]; reflexivity|]);
    (split; [lazy -[run_body run_lacunas]; reflexivity|]); split; reflexivity.
Qed.

Section F.
Variable errs : cval -> verr.
Notation ev := (cue_fragment errs).
Variable rm : N -> instance cval -> schema cval -> outcome (option (instance cval)).
Variable fuel : nat.

(** The instance [i] translates to an instance of [t] with data [d], or not at all. *)
Definition to_data (i : instance cval) (t : schema cval) (d : data) : Prop :=
  exists r, translate ev rm (S fuel) i (s_v t) = Ok (r, []) /\ i_sch r = t /\ i_valid r = true /\ denotes (i_raw r) d.
Definition to_error (i : instance cval) (t : schema cval) : Prop :=
  exists e, translate ev rm (S fuel) i (s_v t) = Err e.

(** The field [a] of [s] becomes [b] of [t], and [a] again on the way back. *)
Definition renames (s t : schema cval) (a b : string) : Prop :=
  forall d i, dwf d -> validate ev s (CV (embed d)) = Ok i ->
  exists df x y r, d = DStruct df /\ lookup a df = Some (txt x) /\ lookup "unchanged" df = Some (txt y) /\
    translate ev rm (S fuel) i (s_v t) = Ok (r, []) /\ i_sch r = t /\ i_valid r = true /\
    denotes (i_raw r) (DStruct [(b, txt x); ("unchanged", txt y)]) /\
    to_data r s (DStruct [(a, txt x); ("unchanged", txt y)]).
End F.

Ltac wfs := cbn; repeat split; repeat constructor; cbn; intuition discriminate.
Ltac inst_of H := match type of H with validate _ (sch ?x ?id ?j) (CV (embed ?d)) = Ok ?i =>
  eapply validated in H; [|lazy -[run_body run_lacunas]; reflexivity|wfs|assumption]; destruct H as [H ->] end.

Lemma renames_sch errs rm fuel id j k a b :
  (j = 0 /\ k = 1 /\ a = "before" /\ b = "after") \/ (j = 1 /\ k = 0 /\ a = "after" /\ b = "before") ->
  renames errs rm fuel (sch rename id j) (sch rename id k) a b.
Proof.
  intros C d i D H.
  assert (V : valid (VStruct [(a, false, strT); ("unchanged", false, strT)] None) d /\ i = mkInst (CV (embed d)) "" (sch rename id j) true).
  { destruct C as [[-> [-> [-> ->]]]|[-> [-> [-> ->]]]]; inst_of H; auto. }
  destruct V as [V ->]. destruct (rename_runs errs id rm fuel j k a b d C D V) as [df [x [y [-> [A [B [w [w' [T1 [E1 [T2 E2]]]]]]]]]]].
  exists df, x, y. eexists. do 3 (split; [assumption || reflexivity|]). split; [exact T1|]. do 2 (split; [reflexivity|]).
  split; [exists w; split; [reflexivity|exact E1]|]. eexists. split; [exact T2|]. do 2 (split; [reflexivity|]). exists w'. split; [reflexivity|exact E2].
Qed.

Lemma rename_exact errs l : of_exemplar errs rename l -> exists s t, all_schemas l = [s; t] /\ s_v s = (0, 0)%N /\ s_v t = (1, 0)%N /\
  forall rm fuel, renames errs rm fuel s t "before" "after" /\ renames errs rm fuel t s "after" "before".
Proof.
  intros H. apply rename_lin in H as [id ->]. exists (sch rename id 0), (sch rename id 1).
  split; [lazy -[run_body run_lacunas]; reflexivity|]. do 2 (split; [reflexivity|]). intros rm fuel. split; apply renames_sch; auto.
Qed.

Lemma narrowing_exact errs l : of_exemplar errs narrowing l -> exists s t, all_schemas l = [s; t] /\ s_v s = (0, 0)%N /\ s_v t = (1, 0)%N /\
  forall rm fuel,
  (forall d i, dwf d -> validate (cue_fragment errs) s (CV (embed d)) = Ok i ->
     (exists b, (d = DStruct [("boolish", DAtom (ABool b))] \/ d = DStruct [("boolish", txt (if b : bool then "true" else "false"))]) /\
        to_data errs rm fuel i t (DStruct [("properbool", DAtom (ABool b))])) \/
     (exists y, d = DStruct [("boolish", txt y)] /\ y <> "true" /\ y <> "false" /\ to_error errs rm fuel i t)) /\
  (forall d i, dwf d -> validate (cue_fragment errs) t (CV (embed d)) = Ok i ->
     exists b, d = DStruct [("properbool", DAtom (ABool b))] /\ to_data errs rm fuel i s (DStruct [("boolish", DAtom (ABool b))])).
Proof.
  intros H. apply narrowing_lin in H as [id ->]. exists (sch narrowing id 0), (sch narrowing id 1).
  split; [lazy -[run_body run_lacunas]; reflexivity|]. do 2 (split; [reflexivity|]). intros rm fuel. split; intros d i D H; inst_of H.
  - destruct (narrowing_runs errs id rm fuel d D H) as [[b [-> [w [T E]]]]|[[b [-> [w [T E]]]]|[y [-> [A [B T]]]]]].
    + left. exists b. split; [auto|]. eexists. split; [exact T|]. do 2 (split; [reflexivity|]). exists w. auto.
    + left. exists b. split; [auto|]. eexists. split; [exact T|]. do 2 (split; [reflexivity|]). exists w. auto.
    + right. exists y. auto.
  - destruct (narrowing_back errs id rm fuel d D H) as [b [-> [w [T E]]]]. exists b. split; [reflexivity|].
    eexists. split; [exact T|]. do 2 (split; [reflexivity|]). exists w. auto.
Qed.

Lemma defaultchange_exact errs l : of_exemplar errs defaultchange l ->
  exists s t, all_schemas l = [s; t] /\ s_v s = (0, 0)%N /\ s_v t = (1, 0)%N /\ forall rm fuel,
  (forall d i, dwf d -> validate (cue_fragment errs) s (CV (embed d)) = Ok i -> to_error errs rm fuel i t) /\
  (forall d i, dwf d -> validate (cue_fragment errs) t (CV (embed d)) = Ok i ->
     (d = DStruct [("aunion", txt "bar")] /\ to_data errs rm fuel i s (DStruct [("aunion", txt "foo")])) \/
     (d <> DStruct [("aunion", txt "bar")] /\ to_error errs rm fuel i s)).
Proof.
  intros H. apply defaultchange_lin in H as [id ->]. exists (sch defaultchange id 0), (sch defaultchange id 1).
  split; [lazy -[run_body run_lacunas]; reflexivity|]. do 2 (split; [reflexivity|]). intros rm fuel. split; intros d i D H; inst_of H.
  - exact (defaultchange_runs errs id rm fuel d D H).
  - destruct (defaultchange_back errs id rm fuel d D H) as [[-> [w [T E]]]|T]; [left|right; exact T]. split; [reflexivity|].
    eexists. split; [exact T|]. do 2 (split; [reflexivity|]). exists w. auto.
Qed.

Lemma expand_exact errs l : of_exemplar errs expand l ->
  map s_v (all_schemas l) = [(0, 0); (0, 1); (0, 2); (0, 3)]%N /\
  forall rm fuel j k s t d i, nth_error (all_schemas l) j = Some s -> nth_error (all_schemas l) k = Some t -> dwf d ->
    validate (cue_fragment errs) s (CV (embed d)) = Ok i ->
    exists df, d = DStruct df /\
      ((j = 3 /\ k < 3 /\ lookup "withDefault" df = Some (txt "baz") /\ to_error errs rm fuel i t) \/
       (~ (j = 3 /\ k < 3 /\ lookup "withDefault" df = Some (txt "baz")) /\
        exists df', to_data errs rm fuel i t (DStruct df') /\
        forall f, lookup f df' = if existsb (String.eqb f) (firstn (S k) ["init"; "optional"; "withDefault"]) then lookup f df else None)).
Proof.
  intros H. apply expand_lin in H as [id ->]. split; [reflexivity|]. intros rm fuel j k s t d i Hs Ht D H.
  assert (A : all_schemas (ex_lin expand id) = map (sch expand id) [0; 1; 2; 3]) by (lazy -[run_body run_lacunas]; reflexivity). rewrite A in Hs, Ht. clear A.
  assert (J : j <= 3 /\ s = sch expand id j).
  { destruct j as [|[|[|[|j]]]]; cbn [map nth_error] in Hs; try (injection Hs as <-; split; [lia|reflexivity]). destruct j; discriminate. }
  assert (K : k <= 3 /\ t = sch expand id k).
  { destruct k as [|[|[|[|k]]]]; cbn [map nth_error] in Ht; try (injection Ht as <-; split; [lia|reflexivity]). destruct k; discriminate. }
  destruct J as [J ->], K as [K ->]. clear Hs Ht.
  assert (V : valid (expand_schema j) d /\ i = mkInst (CV (embed d)) "" (sch expand id j) true).
  { destruct j as [|[|[|[|j]]]]; [inst_of H..|lia]; auto. }
  destruct V as [V ->]. destruct (expand_runs errs rm fuel id j k d J K D V) as [df [-> X]]. exists df. split; [reflexivity|].
  unfold expanded in X. destruct (_ && _ && _)%bool eqn:E.
  - apply andb_true_iff in E as [E E3]. apply andb_true_iff in E as [E1 E2]. apply Nat.eqb_eq in E1. apply Nat.ltb_lt in E2.
    left. split; [exact E1|]. split; [exact E2|]. split; [|exact X]. destruct (lookup "withDefault" df) as [[[ | | | |q| ]| |]|]; try discriminate.
    apply String.eqb_eq in E3 as ->. reflexivity.
  - right. split.
    { intros [E1 [E2 E3]]. rewrite E3 in E. subst j. apply Nat.ltb_lt in E2. rewrite E2 in E. cbn in E. discriminate. }
    destruct X as [w [df' [T [G L]]]]. exists df'. split; [|exact L]. eexists. split; [exact T|]. do 2 (split; [reflexivity|]). exists w. auto.
Qed.

(** The branch may be left to the schema. *)
Definition branch_data (n : Z) (f x : string) : list (list (string * data)) :=
  [[("branch", DAtom (AInt n)); (f, txt x)]; [(f, txt x); ("branch", DAtom (AInt n))]; [(f, txt x)]].
Definition branches := [(1%Z, "branchone"); (2%Z, "branchtwo")].

Lemma branch_valid n f x : f <> "branch" -> dwf x -> valid (snd (branch n f strT)) x -> exists y df, In df (branch_data n f y) /\ x = DStruct df.
Proof.
  intros N D V. cbn [snd branch] in V. assert (M : NoDup (map flabel [("branch", false, VAtom (AInt n)); (f, false, strT)])).
  { cbn. constructor; [intros [E|[]]; apply N; exact E|]. constructor; [intros []|constructor]. }
  destruct (closed_data _ x D M V) as [df [-> [P F]]].
  pose proof (F _ (or_introl eq_refl)) as A. pose proof (F _ (or_intror (or_introl eq_refl))) as B. cbn in A, B. cbn in P.
  destruct (lookup f df) as [y|]; [|destruct B as [B|[r B]]; discriminate]. apply valid_str in B as [s ->]. exists s, df. split; [|reflexivity].
  destruct (lookup "branch" df) as [b|].
  - assert (Eb : b = DAtom (AInt n)).
    { destruct A as [r A]. destruct b as [b| |]; try discriminate. cbn [eval] in A. destruct (atom_eqb (AInt n) b) eqn:E; [|discriminate]. apply atom_eqb_eq in E as <-. reflexivity. }
    subst b. apply Permutation_sym, Permutation_length_2_inv in P as [->| ->]; [left|right; left]; reflexivity.
  - apply Permutation_sym, Permutation_length_1_inv in P as ->. right. right. left. reflexivity.
Qed.
Lemma disjunct_valid d : dwf d -> valid disjunct00 d -> exists n f x df, In (n, f) branches /\ In df (branch_data n f x) /\ d = DStruct [("rootfield", DStruct df)].
Proof.
  intros D V. apply one_field in V as [[_ [r V]]|[x [-> V]]]; [vm_compute in V; discriminate| |exact D].
  assert (Dx : dwf x) by (destruct D as [_ [D _]]; exact D).
  destruct V as [r V]. cbn [eval map fst snd] in V. apply pick_con in V as [m V]. destruct V as [V|[V|[]]]; injection V as _ V.
  - destruct (branch_valid 1 "branchone" x) as [y [df [I ->]]]; [discriminate|exact Dx|exists r; exact V|]. exists 1%Z, "branchone", y, df. split; [left; reflexivity|]. auto.
  - destruct (branch_valid 2 "branchtwo" x) as [y [df [I ->]]]; [discriminate|exact Dx|exists r; exact V|]. exists 2%Z, "branchtwo", y, df. split; [right; left; reflexivity|]. auto.
Qed.

Lemma disjunct_forward errs id n f x df : In (n, f) branches -> In df (branch_data n f x) ->
  let i := mkInst (CV (embed (DStruct [("rootfield", DStruct df)]))) "" (sch disjunct id 0) true in
  validate (cue_fragment errs) (sch disjunct id 0) (i_raw i) = Ok i /\
  forall rm fuel,
    (lookup "branch" df <> None -> to_data errs rm fuel i (sch disjunct id 1) (DStruct [("rootfield", DStruct df)])) /\
    (lookup "branch" df = None -> to_error errs rm fuel i (sch disjunct id 1)).
Proof.
  intros H K i. assert (F : fits_in disjunct id 0 1 disjunct01) by fit. subst i.
  destruct H as [E|[E|[]]]; injection E as <- <-; destruct K as [<-|[<-|[<-|[]]]].
  all: split; [apply validate_ok; split; [vm_compute|]; reflexivity|]; intros rm fuel; unfold to_data, to_error; (split; intros C; [|try discriminate C]).
  all: try (exfalso; apply C; reflexivity).
  all: try (eexists; split; [go F|]; split; [reflexivity|]; split; [reflexivity|]; eexists; split; [reflexivity|vm_compute; reflexivity]).
  all: stop F.
Qed.

Lemma disjunct_exact errs l : of_exemplar errs disjunct l ->
  exists s t, all_schemas l = [s; t] /\ s_v s = (0, 0)%N /\ s_v t = (0, 1)%N /\
  (forall d, dwf d ->
    (exists i, validate (cue_fragment errs) s (CV (embed d)) = Ok i) <->
    (exists n f x df, In (n, f) branches /\ In df (branch_data n f x) /\ d = DStruct [("rootfield", DStruct df)])) /\
  (forall rm fuel df i, dwf (DStruct df) ->
    validate (cue_fragment errs) s (CV (embed (DStruct [("rootfield", DStruct df)]))) = Ok i ->
    (lookup "branch" df <> None -> to_data errs rm fuel i t (DStruct [("rootfield", DStruct df)])) /\
    (lookup "branch" df = None -> to_error errs rm fuel i t)) /\
  forall rm fuel d i, validate (cue_fragment errs) t (CV (embed d)) = Ok i -> to_error errs rm fuel i s.
Proof.
  intros H. apply disjunct_lin in H as [id ->]. exists (sch disjunct id 0), (sch disjunct id 1).
  assert (V0 : forall d, dwf d -> (exists i, validate (cue_fragment errs) (sch disjunct id 0) (CV (embed d)) = Ok i) <->
    (exists n f x df, In (n, f) branches /\ In df (branch_data n f x) /\ d = DStruct [("rootfield", DStruct df)])).
  { intros d D. split.
    - intros [i H]. apply disjunct_valid; [exact D|].
      apply (validated errs (sch disjunct id 0) disjunct00 d i) in H as [V _]; [exact V|lazy -[run_body run_lacunas]; reflexivity| |exact D].
      cbn. repeat split; repeat constructor; cbn; intuition discriminate.
    - intros [n [f [x [df [A [B ->]]]]]]. eexists. apply (disjunct_forward errs id n f x df A B). }
  split; [lazy -[run_body run_lacunas]; reflexivity|]. do 2 (split; [reflexivity|]). split; [|split].
  - exact V0.
  - intros rm fuel df i D H. destruct (proj1 (V0 (DStruct [("rootfield", DStruct df)]) ltac:(split; [repeat constructor; intros []|split; [exact D|exact I]]))) as [n [f [x [df' [A [B E]]]]]]; [exists i; exact H|].
    injection E as <-. destruct (disjunct_forward errs id n f x df A B) as [G K]. cbn [i_raw] in G. rewrite G in H. injection H as <-. apply K.
  - intros rm fuel d i H. destruct d as [a|m|m].
    1, 2: exfalso; apply validate_ok in H as [H _]; apply (conforms_con errs _ disjunct01) in H as [r H]; [discriminate H|lazy -[run_body run_lacunas]; reflexivity].
    apply validate_ok in H as [_ ->]. apply disjunct_back. reflexivity.
Qed.

(** *** Witnesses *)
Lemma ex_of errs x id : BindLineage (cue_fragment errs) id false CLinDef (Atom x) [] = Ok (ex_lin x id) -> of_exemplar errs x (ex_lin x id).
Proof. intros H. exists id, false, []. auto. Qed.

Lemma exemplars_fail : exists errs,
  (exists l s t i, of_exemplar errs narrowing l /\ all_schemas l = [s; t] /\
     validate (cue_fragment errs) s (CV (embed (DStruct [("boolish", txt "yes")]))) = Ok i /\ forall rm fuel, to_error errs rm fuel i t) /\
  (exists l s t i, of_exemplar errs defaultchange l /\ all_schemas l = [s; t] /\
     validate (cue_fragment errs) s (CV (embed (DStruct [("aunion", txt "baz")]))) = Ok i /\ forall rm fuel, to_error errs rm fuel i t) /\
  (exists l s t i, of_exemplar errs expand l /\ nth_error (all_schemas l) 2 = Some s /\ nth_error (all_schemas l) 3 = Some t /\
     validate (cue_fragment errs) t (CV (embed (DStruct [("init", txt "x"); ("withDefault", txt "baz")]))) = Ok i /\
     forall rm fuel, to_error errs rm fuel i s) /\
  (exists l s t i, of_exemplar errs disjunct l /\ all_schemas l = [s; t] /\
     validate (cue_fragment errs) t (CV (embed (DStruct [("rootfield", DStruct [("branch", DAtom (AInt 1)); ("branchone", txt "x")])]))) = Ok i /\
     forall rm fuel, to_error errs rm fuel i s).
Proof.
  exists (fun _ => VCue []). split; [|split; [|split]].
  - exists (ex_lin narrowing 0), (sch narrowing 0 0), (sch narrowing 0 1). eexists. split; [apply ex_of; lazy -[run_body run_lacunas]; reflexivity|].
    split; [lazy -[run_body run_lacunas]; reflexivity|]. split; [apply validate_ok; split; [vm_compute|]; reflexivity|]. intros rm fuel.
    assert (F : fits_in narrowing 0 0 1 narrowing10) by fit. unfold to_error. stop F.
  - exists (ex_lin defaultchange 0), (sch defaultchange 0 0), (sch defaultchange 0 1). eexists. split; [apply ex_of; lazy -[run_body run_lacunas]; reflexivity|].
    split; [lazy -[run_body run_lacunas]; reflexivity|]. split; [apply validate_ok; split; [vm_compute|]; reflexivity|]. intros rm fuel.
    assert (F : fits_in defaultchange 0 0 1 defaultchange10) by fit. unfold to_error. stop F.
  - exists (ex_lin expand 0), (sch expand 0 2), (sch expand 0 3). eexists. split; [apply ex_of; lazy -[run_body run_lacunas]; reflexivity|].
    do 2 (split; [lazy -[run_body run_lacunas]; reflexivity|]). split; [apply validate_ok; split; [vm_compute|]; reflexivity|]. intros rm fuel.
    assert (F : fits_in expand 0 3 2 expand02) by fit. unfold to_error. stop F.
  - exists (ex_lin disjunct 0), (sch disjunct 0 0), (sch disjunct 0 1). eexists. split; [apply ex_of; lazy -[run_body run_lacunas]; reflexivity|].
    split; [lazy -[run_body run_lacunas]; reflexivity|]. split; [apply validate_ok; split; [vm_compute|]; reflexivity|]. intros rm fuel.
    assert (F : fits_in disjunct 0 1 0 disjunct00) by fit. unfold to_error. stop F.
Qed.
