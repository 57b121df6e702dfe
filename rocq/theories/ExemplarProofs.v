(** Translations in the exemplar lineages. *)
From Verif Require Import Prelude Version VersionProofs Search ValidateErr Native Split Lineage LineageProofs WalkProofs Translate.
From Verif Require Import CueFrag CueSem CueProofs HydrateSem CueEval CueEvalSem CueEvalProofs CueOrderProofs CueEvalFacts Exemplars.
From Coq Require Import Sorting.Permutation.
Local Open Scope string_scope.
Local Open Scope list_scope.

(** The exemplar is bound, as [All] or as its factory does it. *)
Definition of_exemplar (errs : cval -> verr) (x : cval) (l : lineage cval) : Prop :=
  exists id fv opts, (opts = [] \/ opts = [OSkipBuggyChecks]) /\
    BindLineage (cue_fragment errs) id fv CLinDef (Atom x) opts = Ok l.

Definition txt (s : string) : data := DAtom (AString s).

(** *** The shape of data of a closed struct *)
Definition present (df : list (string * data)) (ls : list string) : list (string * data) :=
  flat_map (fun l => match lookup l df with Some x => [(l, x)] | None => [] end) ls.

Lemma lookup_nodup df k x : NoDup (map fst df) -> In (k, x) df -> lookup k df = Some x.
Proof.
  induction df as [|[l y] df IH]; intros N I; [destruct I|]. inversion N as [|? ? N1 N2]; subst. cbn. destruct I as [E|I].
  - injection E as -> ->. rewrite String.eqb_refl. reflexivity.
  - destruct (String.eqb_spec k l) as [->|D]; [|apply IH; assumption]. exfalso. apply N1. change l with (fst (l, x)). apply in_map, I.
Qed.

Lemma present_perm df ls : NoDup (map fst df) -> NoDup ls -> (forall k x, In (k, x) df -> In k ls) -> Permutation df (present df ls).
Proof.
  intros N M A. apply NoDup_Permutation.
  - apply NoDup_map_inv with (f := fst). exact N.
  - clear A. induction ls as [|l ls IH]; [constructor|]. inversion M as [|? ? M1 M2]; subst. unfold present. cbn [flat_map].
    destruct (lookup l df) as [x|]; [|exact (IH M2)]. constructor; [|exact (IH M2)]. intros I. apply in_flat_map in I as [k [I J]].
    destruct (lookup k df) as [y|]; [|destruct J]. destruct J as [J|[]]. injection J as -> ->. contradiction.
  - intros [k x]. split.
    + intros I. apply in_flat_map. exists k. split; [exact (A k x I)|]. rewrite (lookup_nodup df k x N I). left. reflexivity.
    + intros I. apply in_flat_map in I as [l [_ J]]. destruct (lookup l df) as [y|] eqn:E; [|destruct J]. destruct J as [J|[]].
      injection J as -> ->. apply lookup_some_in. exact E.
Qed.

Lemma has_label_lookup k df : has_label k df = match lookup k df with Some _ => true | None => false end.
Proof. induction df as [|[l y] df IH]; [reflexivity|]. cbn. destruct (String.eqb k l); [reflexivity|exact IH]. Qed.

(** Valid data of a closed struct, field by field. *)
Lemma closed_data fs d : dwf d -> NoDup (map flabel fs) -> valid (VStruct fs None) d ->
  exists df, d = DStruct df /\ Permutation df (present df (map flabel fs)) /\
    forall f, In f fs -> match lookup (flabel f) df with
      | Some x => valid (fval f) x
      | None => fopt f = true \/ exists r, eval (fval f) None = Con r
      end.
Proof.
  intros D N V. destruct d as [a|x|df]; try (destruct V as [r V]; discriminate). exists df. split; [reflexivity|].
  apply con_struct_data in V as [V1 V2]. assert (ND : NoDup (map fst df)) by (destruct D as [D _]; exact D).
  assert (EA : forall k x, In (k, x) df -> In k (map flabel fs)).
  { intros k x I. specialize (V1 k x I). unfold eval_at in V1. destruct (field_of k fs) as [f|] eqn:E.
    - destruct (field_of_some _ _ _ E) as [J <-]. apply in_map, J.
    - destruct V1 as [r V1]. discriminate. }
  split; [apply present_perm; assumption|]. intros f I. destruct (lookup (flabel f) df) as [x|] eqn:E.
  - specialize (V1 _ _ (lookup_some_in _ _ _ E)). unfold eval_at in V1. rewrite (field_of_in _ _ N I) in V1. exact V1.
  - destruct (fopt f) eqn:O; [left; reflexivity|]. right. apply (V2 f I O). rewrite has_label_lookup, E. reflexivity.
Qed.

Lemma validated errs (s : schema cval) v d i : sd_def (s_sd s) = CV v -> CueSem.wf v -> dwf d ->
  validate (cue_fragment errs) s (CV (embed d)) = Ok i -> valid v d /\ i = mkInst (CV (embed d)) "" s true.
Proof.
  intros E W D K. apply validate_ok in K as [K1 K2]. split; [|exact K2].
  apply (data_right_all v W d D), (conforms_con errs s v (embed d) E), K1.
Qed.

Section Run.
Variable errs : cval -> verr.
Notation ev := (cue_fragment errs).
Variable rm : N -> instance cval -> schema cval -> outcome (option (instance cval)).
Variable fuel : nat.

(** Translations from the steps of [#Translate]. *)
Lemma run_gives i t steps v w d :
  i_valid i = true -> l_lensmap (s_lin (i_sch i)) = [] -> lin_schema (s_lin (i_sch i)) (s_v t) = Ok t ->
  ev_struct ev (i_raw i) = true -> sd_def (s_sd t) = CV v ->
  cue_steps ev (s_lin (i_sch i)) (i_raw i) (s_v (i_sch i)) (s_v t) = Some steps ->
  ev_default ev (cue_result (i_raw i) steps) = CV w -> eval w None = Con d -> con (eval (unify v w) None) ->
  translate ev rm (S fuel) i (s_v t) = Ok (mkInst (CV w) "" t true, []).
Proof.
  intros V L T S D R W E C. cbn [translate]. rewrite V, L. cbn [negb]. unfold translateCUE. rewrite T, S. cbn [negb].
  rewrite R, W. assert (J : ev_json_ok ev (CV w) = true) by (cbn; rewrite E; reflexivity). rewrite J. cbn [negb].
  assert (K : validate ev t (CV w) = Ok (mkInst (CV w) "" t true)).
  { apply validate_ok. split; [|reflexivity]. apply (conforms_con errs t v w D). exact C. }
  rewrite K. reflexivity.
Qed.

Lemma run_fails i t :
  i_valid i = true -> l_lensmap (s_lin (i_sch i)) = [] -> lin_schema (s_lin (i_sch i)) (s_v t) = Ok t ->
  ev_struct ev (i_raw i) = true ->
  (cue_steps ev (s_lin (i_sch i)) (i_raw i) (s_v (i_sch i)) (s_v t) = None \/
   exists steps, cue_steps ev (s_lin (i_sch i)) (i_raw i) (s_v (i_sch i)) (s_v t) = Some steps /\
     ev_json_ok ev (ev_default ev (cue_result (i_raw i) steps)) = false) ->
  exists e, translate ev rm (S fuel) i (s_v t) = Err e.
Proof.
  intros V L T S R. cbn [translate]. rewrite V, L. cbn [negb]. unfold translateCUE. rewrite T, S. cbn [negb].
  destruct R as [->|[steps [-> ->]]]; eexists; reflexivity.
Qed.
End Run.

(** The options do not matter. *)
Ltac one_bind := intros id; lazy -[run_body run_lacunas]; reflexivity.
Lemma one_lineage errs x L : (forall id, BindLineage (cue_fragment errs) id false CLinDef (Atom x) [] = Ok (L id)) ->
  (forall id, BindLineage (cue_fragment errs) id false CLinDef (Atom x) [OSkipBuggyChecks] = Ok (L id)) ->
  (forall id, BindLineage (cue_fragment errs) id true CLinDef (Atom x) [] = Ok (L id)) ->
  (forall id, BindLineage (cue_fragment errs) id true CLinDef (Atom x) [OSkipBuggyChecks] = Ok (L id)) ->
  forall l, of_exemplar errs x l -> exists id, l = L id.
Proof.
  intros A B C D l [id [fv [opts [[->| ->] E]]]]; exists id; destruct fv; rewrite ?A, ?B, ?C, ?D in E; injection E as <-; reflexivity.
Qed.
Definition ex_lin (x : cval) (id : N) : lineage cval :=
  match BindLineage (cue_fragment (fun _ => VCue [])) id false CLinDef (Atom x) [] with
  | Ok l => l
  | _ => mkLin 0 "" CBot CBot [] [] [] []
  end.


Ltac lins := intros l; revert l; apply one_lineage; intros id; lazy -[run_body run_lacunas]; reflexivity.
Lemma rename_lin errs : forall l, of_exemplar errs rename l -> exists id, l = ex_lin rename id.
Proof. lins. Qed.
Lemma narrowing_lin errs : forall l, of_exemplar errs narrowing l -> exists id, l = ex_lin narrowing id.
Proof. lins. Qed.
Lemma defaultchange_lin errs : forall l, of_exemplar errs defaultchange l -> exists id, l = ex_lin defaultchange id.
Proof. lins. Qed.
Lemma expand_lin errs : forall l, of_exemplar errs expand l -> exists id, l = ex_lin expand id.
Proof. lins. Qed.
Lemma disjunct_lin errs : forall l, of_exemplar errs disjunct l -> exists id, l = ex_lin disjunct id.
Proof. lins. Qed.

(** The schemas of an exemplar. *)
Definition sch (x : cval) (id : N) (k : nat) : schema cval :=
  mkSchema (ex_lin x id) k (nth k (l_sch (ex_lin x id)) (mkSch (0, 0)%N CBot CBot)).

(** What does not depend on the data. *)
Record fits_in (x : cval) (id : N) (j k : nat) (v : val) : Prop := {
  fi_map : l_lensmap (s_lin (sch x id j)) = [];
  fi_lin : s_lin (sch x id j) = ex_lin x id;
  fi_to : lin_schema (ex_lin x id) (s_v (sch x id k)) = Ok (sch x id k);
  fi_def : sd_def (s_sd (sch x id k)) = CV v
}.
Ltac fit := constructor; lazy -[run_body run_lacunas]; reflexivity.

Section Between.
Variable errs : cval -> verr.
Notation ev := (cue_fragment errs).
Variable rm : N -> instance cval -> schema cval -> outcome (option (instance cval)).
Variable fuel : nat.

Definition outcome_of (x : cval) (id : N) (j k : nat) (raw : cval) : option (cval * bool) :=
  match cue_steps ev (ex_lin x id) raw (s_v (sch x id j)) (s_v (sch x id k)) with
  | Some steps => let w := ev_default ev (cue_result raw steps) in Some (w, ev_json_ok ev w)
  | None => None
  end.

Lemma between_gives x id j k v raw w d : fits_in x id j k v -> ev_struct ev raw = true ->
  outcome_of x id j k raw = Some (CV w, true) -> eval w None = Con d -> con (eval (unify v w) None) ->
  translate ev rm (S fuel) (mkInst raw "" (sch x id j) true) (s_v (sch x id k)) = Ok (mkInst (CV w) "" (sch x id k) true, []).
Proof.
  intros [A B C D] S O E F. unfold outcome_of in O.
  destruct (cue_steps ev (ex_lin x id) raw (s_v (sch x id j)) (s_v (sch x id k))) as [steps|] eqn:G; [|discriminate].
  injection O as O _. apply (run_gives errs rm fuel (mkInst raw "" (sch x id j) true) (sch x id k) steps v w d); cbn [i_valid i_sch i_raw];
    auto; rewrite B; assumption.
Qed.
Lemma between_fails x id j k v raw : fits_in x id j k v -> ev_struct ev raw = true ->
  (outcome_of x id j k raw = None \/ exists w, outcome_of x id j k raw = Some (w, false)) ->
  exists e, translate ev rm (S fuel) (mkInst raw "" (sch x id j) true) (s_v (sch x id k)) = Err e.
Proof.
  intros [A B C D] S O. apply run_fails; cbn [i_valid i_sch i_raw]; auto; rewrite ?B; auto. unfold outcome_of in O.
  destruct (cue_steps ev (ex_lin x id) raw (s_v (sch x id j)) (s_v (sch x id k))) as [steps|]; [|left; reflexivity]. right. exists steps.
  split; [reflexivity|]. destruct O as [O|[w O]]; [discriminate|]. injection O as <- O. exact O.
Qed.
End Between.

Ltac go F := eapply (between_gives _ _ _ _ _ _ _ _ _ _ _ F); [reflexivity|vm_compute; reflexivity|vm_compute; reflexivity|eexists; vm_compute; reflexivity].
Ltac stop F := eapply (between_fails _ _ _ _ _ _ _ _ _ F); [reflexivity|vm_compute; first [left; reflexivity|right; eexists; reflexivity]].

Lemma valid_str x : valid strT x -> exists s, x = txt s.
Proof. intros [r V]. destruct x as [[ | | | | | ]| |]; cbn in V; try discriminate. eexists. reflexivity. Qed.

(** *** rename *)
Lemma two_strings a b d : a <> b -> dwf d -> valid (VStruct [(a, false, strT); (b, false, strT)] None) d ->
  exists df x y, d = DStruct df /\ lookup a df = Some (txt x) /\ lookup b df = Some (txt y) /\
    (df = [(a, txt x); (b, txt y)] \/ df = [(b, txt y); (a, txt x)]).
Proof.
  intros N D V. assert (M : NoDup (map flabel [(a, false, strT); (b, false, strT)])).
  { cbn. constructor; [|repeat constructor; intros []]. intros [E|[]]. apply N. symmetry. exact E. }
  destruct (closed_data _ d D M V) as [df [-> [P F]]]. exists df.
  pose proof (F _ (or_introl eq_refl)) as A. pose proof (F _ (or_intror (or_introl eq_refl))) as B. cbn in A, B. cbn in P.
  destruct (lookup a df) as [x|]; [|destruct A as [A|[r A]]; discriminate]. destruct (lookup b df) as [y|]; [|destruct B as [B|[r B]]; discriminate].
  apply valid_str in A as [s ->]. apply valid_str in B as [t ->]. exists s, t. do 3 (split; [reflexivity|]).
  apply Permutation_sym, Permutation_length_2_inv in P as [->| ->]; auto.
Qed.

Lemma rename_runs errs id rm fuel j k a b d : (j = 0 /\ k = 1 /\ a = "before" /\ b = "after") \/ (j = 1 /\ k = 0 /\ a = "after" /\ b = "before") ->
  dwf d -> valid (VStruct [(a, false, strT); ("unchanged", false, strT)] None) d ->
  exists df x y, d = DStruct df /\ lookup a df = Some (txt x) /\ lookup "unchanged" df = Some (txt y) /\ exists w w',
    translate (cue_fragment errs) rm (S fuel) (mkInst (CV (embed d)) "" (sch rename id j) true) (s_v (sch rename id k))
      = Ok (mkInst (CV w) "" (sch rename id k) true, []) /\
    eval w None = Con (DStruct [(b, txt x); ("unchanged", txt y)]) /\
    translate (cue_fragment errs) rm (S fuel) (mkInst (CV w) "" (sch rename id k) true) (s_v (sch rename id j))
      = Ok (mkInst (CV w') "" (sch rename id j) true, []) /\
    eval w' None = Con (DStruct [(a, txt x); ("unchanged", txt y)]).
Proof.
  intros H D V. assert (F : fits_in rename id 0 1 rename10) by fit. assert (G : fits_in rename id 1 0 rename00) by fit.
  assert (N : a <> "unchanged") by (destruct H as [[_ [_ [-> _]]]|[_ [_ [-> _]]]]; discriminate).
  destruct (two_strings _ _ d N D V) as [df [x [y [-> [A [B C]]]]]]. exists df, x, y. do 3 (split; [assumption || reflexivity|]).
  destruct H as [[-> [-> [-> ->]]]|[-> [-> [-> ->]]]]; destruct C as [->| ->]; do 2 eexists.
  1, 2: (split; [go F|]); (split; [vm_compute; reflexivity|]); (split; [go G|vm_compute; reflexivity]).
  all: (split; [go G|]); (split; [vm_compute; reflexivity|]); (split; [go F|vm_compute; reflexivity]).
Qed.

(** *** One field *)
Lemma one_field a v d : dwf d -> valid (VStruct [(a, false, v)] None) d ->
  (d = DStruct [] /\ exists r, eval v None = Con r) \/ exists x, d = DStruct [(a, x)] /\ valid v x.
Proof.
  intros D V. assert (M : NoDup (map flabel [(a, false, v)])) by (constructor; [intros []|constructor]).
  destruct (closed_data _ d D M V) as [df [-> [P F]]].
  specialize (F _ (or_introl eq_refl)). cbn in P, F. destruct (lookup a df) as [x|].
  - right. exists x. apply Permutation_sym, Permutation_length_1_inv in P as ->. auto.
  - left. apply Permutation_sym, Permutation_nil in P as ->. split; [reflexivity|]. destruct F as [F|F]; [discriminate|exact F].
Qed.

(** *** narrowing *)
Lemma boolish_valid x : valid (VOr [(false, lit "true"); (false, lit "false"); (false, VType TBool); (false, strT)]) x ->
  (exists b, x = DAtom (ABool b)) \/ exists s, x = txt s.
Proof.
  intros [r V]. destruct x as [[ |b| | |s| ]| |]; try (vm_compute in V; discriminate).
  - left. exists b. reflexivity.
  - right. exists s. reflexivity.
Qed.

Lemma other_string y fs : y <> "true" -> y <> "false" ->
  run_lacunas [[GIs "boolish" strT; GIsNot "boolish" (VOr [(false, lit "true"); (false, lit "false")])]]
    (VStruct [("boolish", false, VAtom (AString y))] fs) = [0%N].
Proof.
  intros A B. unfold run_lacunas. cbn [flat_map hold holds].
  assert (E : fits (VStruct [("boolish", false, VAtom (AString y))] fs) "boolish" strT = true) by (vm_compute; reflexivity). rewrite E.
  assert (G : fits (VStruct [("boolish", false, VAtom (AString y))] fs) "boolish" (VOr [(false, lit "true"); (false, lit "false")]) = false).
  { unfold fits. cbn [in_field field_of find]. change (String.eqb "boolish" (flabel ("boolish", false, VAtom (AString y)))) with true. cbn [fopt snd fst fval].
    unfold lit, unify. cbn [map fst snd unify_scalar atom_eqb]. apply String.eqb_neq in A, B. rewrite A, B. reflexivity. }
  rewrite G. reflexivity.
Qed.

Lemma narrowing_runs errs id rm fuel d : dwf d -> valid narrowing00 d ->
  (exists b, d = DStruct [("boolish", DAtom (ABool b))] /\ exists w,
     translate (cue_fragment errs) rm (S fuel) (mkInst (CV (embed d)) "" (sch narrowing id 0) true) (s_v (sch narrowing id 1))
       = Ok (mkInst (CV w) "" (sch narrowing id 1) true, []) /\ eval w None = Con (DStruct [("properbool", DAtom (ABool b))])) \/
  (exists b, d = DStruct [("boolish", txt (if b : bool then "true" else "false"))] /\ exists w,
     translate (cue_fragment errs) rm (S fuel) (mkInst (CV (embed d)) "" (sch narrowing id 0) true) (s_v (sch narrowing id 1))
       = Ok (mkInst (CV w) "" (sch narrowing id 1) true, []) /\ eval w None = Con (DStruct [("properbool", DAtom (ABool b))])) \/
  (exists y, d = DStruct [("boolish", txt y)] /\ y <> "true" /\ y <> "false" /\ exists e,
     translate (cue_fragment errs) rm (S fuel) (mkInst (CV (embed d)) "" (sch narrowing id 0) true) (s_v (sch narrowing id 1)) = Err e).
Proof.
  intros D V. assert (F : fits_in narrowing id 0 1 narrowing10) by fit.
  apply one_field in V as [[_ [r V]]|[x [-> V]]]; [vm_compute in V; discriminate| |exact D].
  apply boolish_valid in V as [[b ->]|[y ->]].
  - left. exists b. split; [reflexivity|]. eexists. split; [go F|vm_compute; reflexivity].
  - right. destruct (string_dec y "true") as [->|A]; [left; exists true; split; [reflexivity|]; eexists; split; [go F|vm_compute; reflexivity]|].
    destruct (string_dec y "false") as [->|B]; [left; exists false; split; [reflexivity|]; eexists; split; [go F|vm_compute; reflexivity]|].
    right. exists y. do 3 (split; [assumption || reflexivity|]).
    eapply (between_fails _ _ _ _ _ _ _ _ _ F); [reflexivity|]. left. unfold outcome_of.
    unfold cue_steps.
    assert (C1 : cmpSV (s_v (sch narrowing id 0)) (s_v (sch narrowing id 1)) = Some (-1)%Z) by (vm_compute; reflexivity). rewrite C1.
    assert (C2 : flatidx (l_allv (ex_lin narrowing id)) (s_v (sch narrowing id 0)) = Some 0%Z) by (vm_compute; reflexivity). rewrite C2.
    assert (C3 : flatidx (l_allv (ex_lin narrowing id)) (s_v (sch narrowing id 1)) = Some 1%Z) by (vm_compute; reflexivity). rewrite C3.
    assert (C4 : list_slice (l_sch (ex_lin narrowing id)) (0 + 1) (1 + 1) = Some [s_sd (sch narrowing id 1)])
      by (lazy -[run_body run_lacunas]; reflexivity). rewrite C4.
    cbn [run_steps]. unfold fwd_step.
    assert (C5 : (fst (s_v (sch narrowing id 0)) =? fst (sd_v (s_sd (sch narrowing id 1))))%N = false) by (vm_compute; reflexivity). rewrite C5.
    assert (C6 : (fst (s_v (sch narrowing id 0)) <? fst (sd_v (s_sd (sch narrowing id 1))))%N = true) by (vm_compute; reflexivity). rewrite C6.
    assert (C7 : exists g, list_at (forwardLenses (ex_lin narrowing id)) (Z.of_N (fst (sd_v (s_sd (sch narrowing id 1)))) - 1)
      = Some (mkLens (Some (1, 0)%N) (Some (0, 0)%N) (CLens g (run_lacunas
          [[GIs "boolish" strT; GIsNot "boolish" (VOr [(false, lit "true"); (false, lit "false")])]]))))
      by (eexists; lazy -[run_body run_lacunas]; reflexivity). destruct C7 as [g ->].
    assert (G : apply_lens (cue_fragment errs) (mkLens (Some (1, 0)%N) (Some (0, 0)%N) (CLens g (run_lacunas
          [[GIs "boolish" strT; GIsNot "boolish" (VOr [(false, lit "true"); (false, lit "false")])]]))) (CV (embed (DStruct [("boolish", txt y)])))
       (s_v (sch narrowing id 0)) (sd_v (s_sd (sch narrowing id 1))) (sd_def (s_sd (sch narrowing id 1))) = None).
    { unfold apply_lens. cbn [cl_from cl_to cl_val]. destruct (_ && _); [|reflexivity].
      destruct (ev_bottom _ _); [reflexivity|]. cbn [ev_lacunas cue_fragment]. change (embed (DStruct [("boolish", txt y)]))
        with (VStruct [("boolish", false, VAtom (AString y))] (Some VTop)). rewrite (other_string y _ A B). reflexivity. }
    rewrite G. reflexivity.
Qed.

Lemma narrowing_back errs id rm fuel d : dwf d -> valid narrowing10 d ->
  exists b, d = DStruct [("properbool", DAtom (ABool b))] /\ exists w,
     translate (cue_fragment errs) rm (S fuel) (mkInst (CV (embed d)) "" (sch narrowing id 1) true) (s_v (sch narrowing id 0))
       = Ok (mkInst (CV w) "" (sch narrowing id 0) true, []) /\ eval w None = Con (DStruct [("boolish", DAtom (ABool b))]).
Proof.
  intros D V. assert (F : fits_in narrowing id 1 0 narrowing00) by fit.
  apply one_field in V as [[_ [r V]]|[x [-> V]]]; [vm_compute in V; discriminate| |exact D].
  destruct V as [r V]. destruct x as [[ |b| | | | ]| |]; try (vm_compute in V; discriminate). exists b. split; [reflexivity|].
  eexists. split; [go F|vm_compute; reflexivity].
Qed.

(** *** defaultchange *)
Lemma three_valid m1 m2 m3 x : valid (VOr [(m1, lit "foo"); (m2, lit "bar"); (m3, lit "baz")]) x -> x = txt "foo" \/ x = txt "bar" \/ x = txt "baz".
Proof.
  intros [r V]. destruct x as [[ | | | |s| ]| |]; try (destruct m1, m2, m3; vm_compute in V; discriminate).
  cbn [eval map fst snd lit atom_eqb] in V.
  destruct (String.eqb_spec "foo" s) as [<-|A]; [auto|]. destruct (String.eqb_spec "bar" s) as [<-|B]; [auto|].
  destruct (String.eqb_spec "baz" s) as [<-|C]; [auto|]. cbn in V. discriminate.
Qed.

Lemma defaultchange_runs errs id rm fuel d : dwf d -> valid defaultchange00 d ->
  exists e, translate (cue_fragment errs) rm (S fuel) (mkInst (CV (embed d)) "" (sch defaultchange id 0) true) (s_v (sch defaultchange id 1)) = Err e.
Proof.
  intros D V. assert (F : fits_in defaultchange id 0 1 defaultchange10) by fit.
  apply one_field in V as [[-> _]|[x [-> V]]]; [stop F| |exact D]. apply three_valid in V as [->|[->| ->]]; stop F.
Qed.
Lemma defaultchange_back errs id rm fuel d : dwf d -> valid defaultchange10 d ->
  (d = DStruct [("aunion", txt "bar")] /\ exists w,
     translate (cue_fragment errs) rm (S fuel) (mkInst (CV (embed d)) "" (sch defaultchange id 1) true) (s_v (sch defaultchange id 0))
       = Ok (mkInst (CV w) "" (sch defaultchange id 0) true, []) /\ eval w None = Con (DStruct [("aunion", txt "foo")])) \/
  (d <> DStruct [("aunion", txt "bar")] /\
   exists e, translate (cue_fragment errs) rm (S fuel) (mkInst (CV (embed d)) "" (sch defaultchange id 1) true) (s_v (sch defaultchange id 0)) = Err e).
Proof.
  intros D V. assert (F : fits_in defaultchange id 1 0 defaultchange00) by fit.
  apply one_field in V as [[-> _]|[x [-> V]]]; [right; split; [discriminate|stop F]| |exact D].
  apply three_valid in V as [->|[->| ->]].
  - right. split; [discriminate|stop F].
  - left. split; [reflexivity|]. eexists. split; [go F|vm_compute; reflexivity].
  - right. split; [discriminate|stop F].
Qed.

(** *** disjunct *)
Lemma disjunct_back errs id rm fuel v : is_struct v = true ->
  exists e, translate (cue_fragment errs) rm (S fuel) (mkInst (CV v) "" (sch disjunct id 1) true) (s_v (sch disjunct id 0)) = Err e.
Proof.
  intros S. assert (F : fits_in disjunct id 1 0 disjunct00) by fit. destruct v; try discriminate. stop F.
Qed.
