(** C111: the guarantee. *)
From Verif Require Import Prelude Version VersionProofs Search SearchProofs
  ValidateErr Native Split Lineage LineageProofs WalkProofs GoLensProofs BindFacts WalkFacts
  NativeProofs Translate TranslateGoProofs TranslateCueProofs TranslateFacts Vmux VmuxProofs Toy.
From Verif Require Import CueFrag CueSem CueProofs HydrateSem CueEval CueEvalSem CueEvalProofs CuePinProofs
  CueEvalFacts CueEvalWitness GuaranteeProofs GuaranteeWitness.
From Coq Require Import Sorting.Sorted.
Local Open Scope string_scope.
Local Open Scope list_scope.

(** *** C111 *)

(** Refuted twice: in a lineage with one major and checks on, valid data relying
    on a default does not reach the next minor version; and in a lineage with four
    majors whose lenses are all right, data does not reach the last. *)
Theorem C111_guarantee_refuted :
  (exists errs l i t v,
    bound (cue_fragment errs) l /\ l_lensmap l = [] /\ dense (map s_v (all_schemas l)) /\
    exact_cue_lenses l /\ fragment_lineage l /\
    nth_error (all_schemas l) 0 = Some (i_sch i) /\ nth_error (all_schemas l) 1 = Some t /\
    fst (s_v (i_sch i)) = fst (s_v t) /\ sd_def (s_sd (i_sch i)) = CV v /\
    valid v (DStruct []) /\ validate (cue_fragment errs) (i_sch i) (CV (embed (DStruct []))) = Ok i /\
    forall rm fuel, exists x, translate (cue_fragment errs) rm (S fuel) i (s_v t) = Err x /\
      e_marks x = [ErrLensIncomplete]) /\
  (exists (V : Type) (ev : evaluator V) l i t,
    bound ev l /\ dense (map s_v (all_schemas l)) /\ exact_cue_lenses l /\
    In (i_sch i) (all_schemas l) /\ validate ev (i_sch i) (i_raw i) = Ok i /\ In t (all_schemas l) /\
    (exists n k o, nth_error (all_schemas l) n = Some t /\ nth_error (all_schemas l) k = Some (i_sch i) /\
       cue_trans ev l n k (i_raw i) (Some o) /\ (exists r, validate ev t o = Ok r)) /\
    l_lensmap l = [] /\ ev_struct ev (i_raw i) = true /\ (fst (s_v (i_sch i)) <= 2)%N /\ (3 <= fst (s_v t))%N /\
    forall rm fuel, exists x, translate ev rm (S fuel) i (s_v t) = Err x).
Proof. exact (conj default_gone four_majors_fail). Qed.
Print Assumptions C111_guarantee_refuted.

(** With Go lenses that turn valid instances into valid instances, and the
    compatibility checks on and sound, every valid instance reaches every schema,
    and a mux takes whatever some schema of the lineage takes. *)
Theorem C111_go_partial :
  forall (V : Type) (ev : evaluator V) rm id fv lindef e opts l,
    BindLineage ev id fv lindef e opts = Ok l -> strict_from_zero l -> flat_map lenses_of opts <> [] ->
    negb fv && existsb is_skip opts = false ->
    (forall data a b, In a (all_schemas l) -> In b (all_schemas l) ->
       ev_subsumes ev (sd_def (s_sd b)) (sd_def (s_sd a)) = true ->
       conforms ev a data -> conforms ev b data) ->
    total_go ev rm l (flat_map lenses_of opts) ->
    (forall i t fuel, i_valid i = true -> In (i_sch i) (all_schemas l) -> In t (all_schemas l) ->
       conforms ev (i_sch i) (i_raw i) -> length (all_schemas l) < fuel ->
       exists x, translate ev rm fuel i (s_v t) = Ok (x, []) /\ i_sch x = t /\ i_valid x = true /\
         conforms ev t (i_raw x)) /\
    (forall (B : Type) (dec : B -> outcome V) t fuel, In t (all_schemas l) -> length (all_schemas l) < fuel ->
       exists mux, newUntypedMux ev rm dec fuel t = Ok mux /\
       forall b v s, dec b = Ok v -> In s (all_schemas l) -> conforms ev s v ->
         (forall s', In s' (all_schemas l) -> validate ev s' v <> Panic) ->
         exists x, mux b = Ok (x, []) /\ i_sch x = t /\ i_valid x = true /\ conforms ev t (i_raw x)).
Proof. exact @go_guarantee. Qed.
Print Assumptions C111_go_partial.

Example C111_go_case :
  exists l, tbind (tlin ss4 []) [OImperativeLenses exact4] = Ok l /\ strict_from_zero l /\
    (forall data a b, In a (all_schemas l) -> In b (all_schemas l) ->
       ev_subsumes toy (sd_def (s_sd b)) (sd_def (s_sd a)) = true ->
       conforms toy a data -> conforms toy b data) /\
    total_go toy toy_mapper l exact4.
Proof. exact toy_go_lineage. Qed.

(** With CUE lenses, between majors 0-2: what the steps keep up is kept up to the
    end. *)
Theorem C111_cue_partial :
  forall (V : Type) (ev : evaluator V) rm l good,
    bound ev l -> l_lensmap l = [] -> dense (map s_v (all_schemas l)) -> exact_cue_lenses l -> upheld ev l good ->
    forall i t fuel,
      i_valid i = true -> ev_struct ev (i_raw i) = true -> In (i_sch i) (all_schemas l) -> In t (all_schemas l) ->
      (fst (s_v (i_sch i)) <= 2)%N -> (fst (s_v t) <= 2)%N -> good (i_sch i) (i_raw i) ->
      exists d, good t d /\
        translate ev rm (S fuel) i (s_v t) = Ok (mkInst (ev_default ev d) "" t true, []) /\
        conforms ev t (ev_default ev d).
Proof. exact @cue_guarantee. Qed.
Print Assumptions C111_cue_partial.

(** In the CUE fragment it is enough that the lenses turn complete data of their
    source into complete data of their target. *)
Theorem C111_fragment_partial :
  forall errs rm id fv lindef e opts l,
    BindLineage (cue_fragment errs) id fv lindef e opts = Ok l -> negb fv && existsb is_skip opts = false ->
    l_lensmap l = [] -> dense (map s_v (all_schemas l)) -> exact_cue_lenses l -> fragment_lineage l -> total_cue l ->
    forall i t fuel df v vt,
      i_valid i = true -> i_raw i = CV (embed (DStruct df)) -> dwf (DStruct df) ->
      In (i_sch i) (all_schemas l) -> In t (all_schemas l) ->
      (fst (s_v (i_sch i)) <= 2)%N -> (fst (s_v t) <= 2)%N ->
      sd_def (s_sd (i_sch i)) = CV v -> sd_def (s_sd t) = CV vt -> inst v (DStruct df) = true ->
      exists r d', translate (cue_fragment errs) rm (S fuel) i (s_v t) = Ok (r, []) /\ i_sch r = t /\
        i_valid r = true /\ denotes (i_raw r) d' /\ inst vt d' = true /\
        validate (cue_fragment errs) t (i_raw r) = Ok r.
Proof. exact fragment_guarantee. Qed.
Print Assumptions C111_fragment_partial.

(** [name] becomes [title] in 1.0. *)
Example C111_fragment_case :
  exists l s0 s2, BindLineage (cue_fragment ferrs) 7 false CLinDef (Atom lin_ren) [] = Ok l /\
    l_lensmap l = [] /\ dense (map s_v (all_schemas l)) /\ exact_cue_lenses l /\ fragment_lineage l /\ total_cue l /\
    nth_error (all_schemas l) 0 = Some s0 /\ nth_error (all_schemas l) 2 = Some s2 /\
    sd_def (s_sd s0) = CV ren00 /\ sd_def (s_sd s2) = CV ren10 /\
    exists r, translate (cue_fragment ferrs) (fun _ _ _ => Ok None) 1 (mkInst (CV (embed only_name)) "" s0 true) (1, 0)%N
      = Ok (r, []) /\ i_sch r = s2 /\ denotes (i_raw r) (DStruct [("title", DAtom (AString "x"))]).
Proof. exact ren_lineage. Qed.
