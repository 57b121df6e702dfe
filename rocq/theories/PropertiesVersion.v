(** C01-C04: versions and version search. *)
From Verif Require Import Prelude Version VersionProofs Search SearchProofs
  ValidateErr Native Split Lineage LineageProofs WalkProofs Toy VersionFacts.
From Coq Require Import Sorting.Sorted ZifyBool ZifyN ZifyNat.
Local Open Scope N_scope.

(** *** C01 *)
Theorem C01_version_order :
  (* lexicographic, major number first *)
  (forall a1 a2 b1 b2, vless (a1, a2) (b1, b2) = true <-> a1 < b1 \/ (a1 = b1 /\ a2 < b2)) /\
  (* irreflexive, transitive *)
  (forall a, vless a a = false) /\
  (forall a b c, vless a b = true -> vless b c = true -> vless a c = true) /\
  (* exactly one of a<b, a=b, b<a *)
  (forall a b, (vless a b = true /\ a <> b /\ vless b a = false) \/
               (vless a b = false /\ a = b /\ vless b a = false) \/
               (vless a b = false /\ a <> b /\ vless b a = true)) /\
  (* the CUE comparison agrees *)
  (forall a b, (cmpSV a b = Some (-1)%Z <-> vless a b = true) /\
               (cmpSV a b = Some 0%Z <-> a = b) /\
               (cmpSV a b = Some 1%Z <-> vless b a = true) /\
               cmpSV a b <> None) /\
  (* Go equality of versions is equality *)
  (forall a b, veqb a b = true <-> a = b).
Proof. exact version_order. Qed.
Print Assumptions C01_version_order.

Example C01_cases :
  vless (1, 9) (2, 0) = true /\ vless (2, 0) (2, 1) = true /\ vless (2, 1) (1, 9) = false /\
  cmpSV (2, 1) (1, 9) = Some 1%Z.
Proof. vm_compute. auto. Qed.

(** *** C02 *)
Theorem C02_version_strings :
  (* accepted exactly: two runs of digits around one dot, each below 2^32 *)
  (forall s v, parse_version s = (v, None) <->
     (exists a b, s = (a ++ "." ++ b)%string /\ numeral a /\ numeral b /\
        v = (denote a, denote b)) /\ fst v < 2 ^ 32 /\ snd v < 2 ^ 32) /\
  (* everything else: zero version, ErrMalformedSyntacticVersion *)
  (forall s, (forall v, parse_version s <> (v, None)) ->
     exists e, parse_version s = ((0, 0), Some e) /\ err_is e ErrMalformedSyntacticVersion = true) /\
  (* round trip *)
  (forall v, fst v < 2 ^ 32 -> snd v < 2 ^ 32 -> parse_version (vstring v) = (v, None)) /\
  (* what is printed denotes the version, for all sizes *)
  (forall v, exists a b, vstring v = (a ++ "." ++ b)%string /\ numeral a /\ numeral b /\
     v = (denote a, denote b)) /\
  (* printing is injective *)
  (forall a b, vstring a = vstring b -> a = b).
Proof. exact version_strings. Qed.
Print Assumptions C02_version_strings.

Example C02_cases :
  parse_version "12.345" = ((12, 345), None) /\
  parse_version "01.0" = ((1, 0), None) /\
  parse_version "1.2.3" = (synv0, Some malformed) /\
  parse_version "1." = (synv0, Some malformed) /\
  parse_version "-1.0" = (synv0, Some malformed) /\
  vstring (12, 345) = "12.345"%string /\
  numeral "345" /\ denote "345" = 345.
Proof. vm_compute. repeat split; congruence. Qed.

(** *** C03: refuted. A lineage whose second schema has a major number of 2^32
    binds, and that schema's version cannot be parsed back. *)
Theorem C03_every_version_nameable_refuted :
  exists (V : Type) (ev : evaluator V) (l : lineage V) (s : schema V),
    bound ev l /\ In s (all_schemas l) /\ fst (s_v s) < 2 ^ 64 /\ snd (s_v s) < 2 ^ 64 /\
    exists e, parse_version (vstring (s_v s)) = ((0, 0), Some e).
Proof. exact big_version_lineage. Qed.
Print Assumptions C03_every_version_nameable_refuted.

(** Missing from the full claim: versions with a number of 2^32 or more, for
    which parsing always fails. *)
Theorem C03_every_version_nameable_partial :
  forall (V : Type) (ev : evaluator V) (l : lineage V) (s : schema V),
    bound ev l -> In s (all_schemas l) ->
    (parse_version (vstring (s_v s)) = (s_v s, None) <->
     fst (s_v s) < 2 ^ 32 /\ snd (s_v s) < 2 ^ 32).
Proof. intros V ev l s _ _. exact (nameable_iff (s_v s)). Qed.
Print Assumptions C03_every_version_nameable_partial.

Example C03_case : exists l, tbind (tlin [(0, 0, [1]); (3, 0, [2])] []) [] = Ok l /\
  map (fun s => parse_version (vstring (s_v s))) (all_schemas l) = [((0, 0), None); ((3, 0), None)].
Proof. eexists. split; vm_compute; reflexivity. Qed.

(** *** C04 *)
Theorem C04_version_search :
  forall l x, StronglySorted vle l ->
    searchSynv l x = Ok (count (fun a => vless a x) l) /\
    (synvExists l x = Ok true <-> In x l) /\
    (synvExists l x = Ok false <-> ~ In x l).
Proof. exact search_spec. Qed.
Print Assumptions C04_version_search.

Example C04_case :
  StronglySorted vle [(0, 0); (0, 1); (0, 1); (2, 0)] /\
  searchSynv [(0, 0); (0, 1); (0, 1); (2, 0)] (1, 5) = Ok 3%nat /\
  synvExists [(0, 0); (0, 1); (0, 1); (2, 0)] (1, 5) = Ok false.
Proof.
  split; [solve_sorted|vm_compute; auto].
Qed.
