(** Binding a lineage of the CUE fragment: which values the schemas get. *)
From Verif Require Import Prelude Version VersionProofs ValidateErr Split Lineage LineageProofs BindFacts.
From Verif Require Import CueFrag CueSem HydrateSem CueEval CueEvalSem CueEvalProofs CueEvalFacts.
Local Open Scope string_scope.
Local Open Scope list_scope.

Lemma Forall2_len : forall {A B} (P : A -> B -> Prop) l1 l2, Forall2 P l1 l2 -> List.length l1 = List.length l2.
Proof. intros A B P l1 l2 H. induction H; cbn; congruence. Qed.

Section D.
Variable errs : cval -> verr.
Notation ev := (cue_fragment errs).

Lemma bound_declared : forall id fv name ss ls opts l,
  BindLineage ev id fv CLinDef (Atom (CLin name ss ls)) opts = Ok l ->
  List.length (all_schemas l) = List.length ss /\
  forall i s, nth_error (all_schemas l) i = Some s ->
    exists a b def body, nth_error ss i = Some ((Some a, Some b), (def, body)) /\
      s_v s = (a, b) /\ sd_def (s_sd s) = CV def /\
      (CueSem.wf def -> forall d, dwf d ->
         ((exists r, validate ev s (CV (embed d)) = Ok r) <-> valid def d)) /\
      forall a' b' def' body', negb fv && existsb is_skip opts = false ->
        nth_error ss (S i) = Some ((Some a', Some b'), (def', body')) ->
        subs def' def = negb (b' =? 0)%N.
Proof.
  intros id fv name ss ls opts l B. pose proof (bind_shape_inv ev _ _ _ _ _ _ B) as A.
  assert (U : l_uni l = CLin name ss ls).
  { destruct A as [A _]. cbn in A. injection A as _ A. symmetry. exact A. }
  rewrite U in A.
  destruct (bind_schemas_rule ev id fv CLinDef (Atom (CLin name ss ls)) opts _ _
    (map (fun s => mkEntry (fst (fst s)) (snd (fst s)) (CEntry (fst (snd s)) (snd (snd s)))) ss) A eq_refl)
    as [R _].
  destruct (R l B) as [[R1 R2] F]. split.
  { rewrite all_schemas_length. clear - F. apply Forall2_len in F. rewrite map_length in F. symmetry. exact F. }
  intros i s Hs. rewrite all_schemas_nth in Hs.
  destruct (nth_error (l_sch l) i) as [sd|] eqn:Hd; [|discriminate]. injection Hs as <-. cbn [s_sd].
  pose proof (forall2_nth _ _ _ F i) as Fi. rewrite nth_error_map, Hd in Fi.
  destruct (nth_error ss i) as [[[ma mb] [def body]]|] eqn:Hi; cbn in Fi; [|contradiction].
  destruct Fi as [F1 [F2 F3]]. unfold entry_v in F1. cbn in F1, F3.
  destruct ma as [a|], mb as [b|]; try discriminate. exists a, b, def, body.
  split; [reflexivity|]. split; [unfold s_v; cbn; congruence|]. split; [exact F3|]. split.
  - intros W d D. destruct (validate_exact errs (mkSchema l i sd) def d F3 W D) as [V1 V2]. split.
    + intros [r Hr]. assert (Q : valid def d \/ ~ valid def d).
      { unfold valid. destruct (eval def (Some d)); [right|right|left]; try (intros [x Hx]; discriminate); eauto. }
      destruct Q as [Q|Q]; [exact Q|]. exfalso. exact (V2 Q r Hr).
    + intros Q. eexists. exact (V1 Q).
  - intros a' b' def' body' Sk Hn.
    specialize (R2 i (mkEntry (Some a) (Some b) (CEntry def body)) (mkEntry (Some a') (Some b') (CEntry def' body'))
      (a, b) (a', b')).
    rewrite !nth_error_map, Hi, Hn in R2.
    specialize (R2 eq_refl eq_refl eq_refl eq_refl) as [_ R2]. specialize (R2 Sk). cbn in R2.
    destruct R2 as [R3 R4]. destruct (N.eqb_spec b' 0) as [->|Hb]; cbn [negb]; auto.
Qed.
End D.
