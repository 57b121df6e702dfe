(** Closing lemmas for C59. *)
From Verif Require Import Prelude Version Search ValidateErr Native Split Lineage LineageProofs WalkProofs
  Translate Vmux VmuxProofs Toy.
Local Open Scope string_scope.
Local Open Scope list_scope.

Lemma schemaIs_same (V : Type) (l : lineage V) a b :
  In a (all_schemas l) -> In b (all_schemas l) -> (schemaIs a b = true <-> a = b).
Proof.
  intros Ha Hb. split; [|intros ->; apply schemaIs_refl].
  apply In_nth_error in Ha as [i Ha]. apply In_nth_error in Hb as [j Hb].
  rewrite all_schemas_nth in Ha, Hb.
  destruct (nth_error (l_sch l) i) as [sa|] eqn:Ea; [|discriminate].
  destruct (nth_error (l_sch l) j) as [sb|] eqn:Eb; [|discriminate].
  cbn in Ha, Hb. injection Ha as <-. injection Hb as <-. unfold schemaIs. cbn.
  intros H. apply andb_prop in H as [_ H]. apply Nat.eqb_eq in H. subst j. congruence.
Qed.

Lemma schemaIs_foreign (V : Type) (l l' : lineage V) a b :
  l_id l <> l_id l' -> In a (all_schemas l) -> In b (all_schemas l') -> schemaIs a b = false.
Proof.
  intros N Ha Hb. apply In_nth_error in Ha as [i Ha]. apply In_nth_error in Hb as [j Hb].
  rewrite all_schemas_nth in Ha, Hb.
  destruct (nth_error (l_sch l) i) as [sa|] eqn:Ea; [|discriminate].
  destruct (nth_error (l_sch l') j) as [sb|] eqn:Eb; [|discriminate].
  cbn in Ha, Hb. injection Ha as <-. injection Hb as <-. unfold schemaIs. cbn.
  apply N.eqb_neq in N. rewrite N. reflexivity.
Qed.

Lemma bind_instance_type (V T : Type) (l : lineage V) (ts : tschema V T) i :
  In (ts_schema ts) (all_schemas l) -> i_valid i = true ->
  (In (i_sch i) (all_schemas l) \/
   exists l', l_id l' <> l_id l /\ In (i_sch i) (all_schemas l')) ->
  (i_sch i = ts_schema ts /\ bindInstanceType i ts = Ok (mkTInst i ts)) \/
  (i_sch i <> ts_schema ts /\
   bindInstanceType i ts = Err (new_err "typed schema is not derived from instance's schema")).
Proof.
  intros Ht Hv Hs. unfold bindInstanceType. rewrite Hv. cbn [negb].
  destruct Hs as [Hs|[l' [N Hs]]].
  - pose proof (schemaIs_same V l _ _ Ht Hs) as S. destruct (schemaIs (ts_schema ts) (i_sch i)); cbn [negb].
    + left. split; [|reflexivity]. symmetry. apply S. reflexivity.
    + right. split; [|reflexivity]. intros E. symmetry in E. apply S in E. discriminate.
  - rewrite (schemaIs_foreign V l l' _ _ (not_eq_sym N) Ht Hs). cbn. right. split; [|reflexivity].
    intros E. rewrite E in Hs. pose proof (schemaIs_foreign V l l' _ _ (not_eq_sym N) Ht Hs) as K.
    rewrite schemaIs_refl in K. discriminate.
Qed.

Lemma validate_typed (V T : Type) (ev : evaluator V) (ts : tschema V T) v :
  (forall i, validate ev (ts_schema ts) v = Ok i ->
     validateTyped ev ts v = Ok (mkTInst i ts) /\ i_sch i = ts_schema ts /\ i_raw i = v) /\
  (forall e, validate ev (ts_schema ts) v = Err e -> validateTyped ev ts v = Err e) /\
  (validate ev (ts_schema ts) v = Panic -> validateTyped ev ts v = Panic) /\
  (forall t, validateTyped ev ts v = Ok t ->
     ti_tsch t = ts /\ validate ev (ts_schema ts) v = Ok (ti_inst t)).
Proof.
  unfold validateTyped. split; [|split; [|split]].
  - intros i H. rewrite H. split; [reflexivity|]. apply validate_ok in H as [_ ->]. split; reflexivity.
  - intros e ->. reflexivity.
  - intros ->. reflexivity.
  - intros t H. destruct (validate ev (ts_schema ts) v); try discriminate. cbn in H. injection H as <-. auto.
Qed.
