(** Lemmas closing the theorems of [PropertiesVersion.v]. *)
From Verif Require Import Prelude Version VersionProofs Search SearchProofs
  ValidateErr Native Split Lineage LineageProofs WalkProofs Toy.
From Coq Require Import Sorting.Sorted ZifyBool ZifyN ZifyNat.
Local Open Scope N_scope.

Lemma version_order :
  (forall a1 a2 b1 b2, vless (a1, a2) (b1, b2) = true <-> a1 < b1 \/ (a1 = b1 /\ a2 < b2)) /\
  (forall a, vless a a = false) /\
  (forall a b c, vless a b = true -> vless b c = true -> vless a c = true) /\
  (forall a b, (vless a b = true /\ a <> b /\ vless b a = false) \/
               (vless a b = false /\ a = b /\ vless b a = false) \/
               (vless a b = false /\ a <> b /\ vless b a = true)) /\
  (forall a b, (cmpSV a b = Some (-1)%Z <-> vless a b = true) /\
               (cmpSV a b = Some 0%Z <-> a = b) /\
               (cmpSV a b = Some 1%Z <-> vless b a = true) /\
               cmpSV a b <> None) /\
  (forall a b, veqb a b = true <-> a = b).
Proof.
  assert (Irr : forall a, vless a a = false).
  { intros a. apply vless_false. right; reflexivity. }
  assert (Asym : forall a b, vless a b = true -> vless b a = false /\ a <> b).
  { intros a b H. apply vless_spec in H. split.
    - apply vless_false. left; exact H.
    - apply vlt_neq; exact H. }
  split; [intros; apply vless_spec|]. split; [exact Irr|]. split.
  { intros a b c. rewrite !vless_spec. apply vlt_trans. }
  split.
  { intros a b. destruct (vless a b) eqn:E1; [left|].
    - destruct (Asym _ _ E1). auto.
    - destruct (vless b a) eqn:E2; [right; right|right; left].
      + destruct (Asym _ _ E2). auto.
      + rewrite (vless_total _ _ E1 E2). auto. }
  split; [|apply veqb_spec].
  intros a b. rewrite cmpSV_spec.
  destruct (vless a b) eqn:E1; [destruct (Asym _ _ E1) as [E2 N]; rewrite E2|destruct (vless b a) eqn:E2;
    [destruct (Asym _ _ E2) as [_ N]|pose proof (vless_total _ _ E1 E2)]];
    (split; [split; congruence|]); (split; [split; congruence|]); (split; [split; congruence|discriminate]).
Qed.

Lemma version_strings :
  (forall s v, parse_version s = (v, None) <->
     (exists a b, s = (a ++ "." ++ b)%string /\ numeral a /\ numeral b /\
        v = (denote a, denote b)) /\ fst v < 2 ^ 32 /\ snd v < 2 ^ 32) /\
  (forall s, (forall v, parse_version s <> (v, None)) ->
     exists e, parse_version s = ((0, 0), Some e) /\ err_is e ErrMalformedSyntacticVersion = true) /\
  (forall v, fst v < 2 ^ 32 -> snd v < 2 ^ 32 -> parse_version (vstring v) = (v, None)) /\
  (forall v, exists a b, vstring v = (a ++ "." ++ b)%string /\ numeral a /\ numeral b /\
     v = (denote a, denote b)) /\
  (forall a b, vstring a = vstring b -> a = b).
Proof.
  split; [exact parse_version_ok|]. split.
  { intros s H. exists malformed. destruct (parse_version_cases s) as [[v K]|K]; [|auto].
    exfalso. exact (H v K). }
  split; [exact parse_vstring|]. split; [|exact vstring_inj].
  intros v. exists (show_N (fst v)), (show_N (snd v)). split; [reflexivity|].
  split; [apply show_N_numeral|]. split; [apply show_N_numeral|].
  rewrite !show_N_denote. destruct v; reflexivity.
Qed.

Definition big_lin : outcome (lineage tv) := tbind (tlin [(0, 0, [1]); (2 ^ 32, 0, [2])] []) [].

Lemma big_version_lineage :
  exists (V : Type) (ev : evaluator V) (l : lineage V) (s : schema V),
    bound ev l /\ In s (all_schemas l) /\ fst (s_v s) < 2 ^ 64 /\ snd (s_v s) < 2 ^ 64 /\
    exists e, parse_version (vstring (s_v s)) = ((0, 0), Some e).
Proof.
  destruct big_lin as [l|e| |] eqn:E; try (vm_compute in E; discriminate).
  exists tv, toy, l.
  assert (B : bound toy l) by (unfold bound; do 5 eexists; exact E).
  vm_compute in E. injection E as E. subst l.
  eexists. split; [exact B|]. split; [right; left; reflexivity|].
  split; [vm_compute; reflexivity|]. split; [vm_compute; reflexivity|].
  exists malformed. vm_compute. reflexivity.
Qed.

Lemma nameable_iff v :
  parse_version (vstring v) = (v, None) <-> fst v < 2 ^ 32 /\ snd v < 2 ^ 32.
Proof.
  split.
  - intros H. apply parse_version_ok in H. tauto.
  - intros [H1 H2]. apply parse_vstring; assumption.
Qed.

Lemma search_spec :
  forall l x, StronglySorted vle l ->
    searchSynv l x = Ok (count (fun a => vless a x) l) /\
    (synvExists l x = Ok true <-> In x l) /\
    (synvExists l x = Ok false <-> ~ In x l).
Proof.
  intros l x H. split; [apply searchSynv_rank; exact H|].
  split; [apply synvExists_true; exact H|apply synvExists_false; exact H].
Qed.
