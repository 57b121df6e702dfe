(** C40, C41, C66: rewriting legacy lineages. *)
From Verif Require Import Prelude Version VersionProofs Search SearchProofs ValidateErr Native Split
  Lineage LineageProofs GoLensProofs BindFacts Rewrite RewriteProofs.
From Coq Require Import Sorting.Sorted.
Local Open Scope string_scope.
Local Open Scope list_scope.

(** Two sequences with two and one schemas. *)
Definition st (n : string) : sch_src := SrcStruct [(n, AIdent "string")].
Definition two_seqs : list lseq :=
  [mkSeq (Some [st "a"; st "b"]) LAbsent LAbsent LAbsent LAbsent;
   mkSeq (Some [st "c"]) (LField (AStruct [("c", ASel (AIdent "from") "b")])) LAbsent
     (LField (AStruct [("b", ASel (AIdent "from") "c")])) (LField (AOp "[]" []))].

(** *** C40 *)

(** [numbers 0 ls] numbers the schemas by sequence and position; [entailed] are
    the lenses that C17 demands, [lens_order] the order of C22. *)
Theorem C40_parts :
  forall seqs ls, seqs_are seqs ls -> go_sizes ls -> Forall (fun l => l <> []) ls ->
    exists schs lens, extractParts (Some seqs) = Ok (schs, lens) /\
      map ls_raw schs = concat ls /\ map ls_v schs = numbers 0 ls /\
      (forall id, In id (map ll_id lens) <-> entailed (map ls_v schs) id) /\
      NoDup (map ll_id lens) /\ StronglySorted lens_order (map ll_order lens) /\
      (forall x, In x lens -> body_origin seqs 0 x).
Proof. exact rewrite_exact. Qed.
Print Assumptions C40_parts.

Theorem C40_dense :
  forall ls, Forall (fun l => l <> []) ls -> ls <> [] -> dense (numbers 0 ls).
Proof. exact numbers_dense. Qed.
Print Assumptions C40_dense.

(** What is emitted: every part as it was, with renamed references. *)
Theorem C40_output :
  forall seqs ns nl,
    rewrite_legacy (Some seqs) = Ok (ns, nl) <->
    exists schs lens, extractParts (Some seqs) = Ok (schs, lens) /\
      Forall2 becomes_schema schs ns /\ Forall2 becomes_lens lens nl.
Proof. exact rewrite_output. Qed.
Print Assumptions C40_output.

Example C40_parts_ex :
  seqs_are two_seqs [[st "a"; st "b"]; [st "c"]] /\ go_sizes [[st "a"; st "b"]; [st "c"]] /\
  Forall (fun l : list sch_src => l <> []) [[st "a"; st "b"]; [st "c"]] /\
  numbers 0 [[st "a"; st "b"]; [st "c"]] = [(0, 0); (0, 1); (1, 0)]%N /\
  rewrite_legacy (Some two_seqs) =
  Ok ([mkNewSch (0, 0)%N [("a", AIdent "string")]; mkNewSch (0, 1)%N [("b", AIdent "string")];
       mkNewSch (1, 0)%N [("c", AIdent "string")]],
      [mkNewLens (0, 0)%N (0, 1)%N BTodo [];
       mkNewLens (0, 1)%N (1, 0)%N (BFields [("b", ASel (ABasic "input") "c")]) [];
       mkNewLens (1, 0)%N (0, 1)%N (BFields [("c", ASel (ABasic "input") "b")]) []]).
Proof.
  split; [reflexivity|]. split; [|split; [|split; reflexivity]].
  - split; [reflexivity|]. repeat constructor; reflexivity.
  - repeat constructor; discriminate.
Qed.

(** *** C41 *)

Theorem C41_no_dangling_refuted :
  exists seqs schs lens, extractParts (Some seqs) = Ok (schs, lens) /\
    exists x, In x lens /\ ~ In (ll_to x) (map ls_v schs) /\ ll_to x = (0, two64 - 1)%N.
Proof. exact dangling_witness. Qed.
Print Assumptions C41_no_dangling_refuted.

(** Exactly when no sequence is empty, or there is at most one. *)
Theorem C41_no_dangling_partial :
  forall seqs ls, seqs_are seqs ls -> go_sizes ls ->
    exists schs lens, extractParts (Some seqs) = Ok (schs, lens) /\
      (no_dangling schs lens <-> Forall (fun l => l <> []) ls \/ length ls <= 1).
Proof. exact dangling_exact. Qed.
Print Assumptions C41_no_dangling_partial.

Example C41_no_dangling_ex :
  exists schs lens, extractParts (Some two_seqs) = Ok (schs, lens) /\ no_dangling schs lens /\ length lens = 3.
Proof.
  eexists. eexists. split; [reflexivity|]. split; [|reflexivity].
  intros x [<-|[<-|[<-|[]]]]; cbn; auto.
Qed.

(** *** C66 *)

Theorem C66_references_refuted :
  exists e, (forall n, mentions n e -> n = "from") /\ mentions "from" (rewriteFromTo e).
Proof. exact rewrite_misses_chain. Qed.
Print Assumptions C66_references_refuted.

(** Every body: nothing but references changes, and a name is still mentioned
    exactly where [survives] says. *)
Theorem C66_exact_partial :
  forall e, partly_renamed e (rewriteFromTo e) /\ forall n, mentions n (rewriteFromTo e) <-> survives n e.
Proof. exact rewrite_any. Qed.
Print Assumptions C66_exact_partial.

Example C66_exact_ex :
  let e := AStruct [("x", ASel (AIdent "from") "a"); ("y", ASel (ASel (AIdent "to") "c") "d")] in
  rewriteFromTo e = AStruct [("x", ASel (ABasic "input") "a"); ("y", ASel (ASel (AIdent "to") "c") "d")] /\
  survives "to" e /\ ~ survives "from" e.
Proof.
  split; [reflexivity|]. split.
  - eapply su_field; [right; left; reflexivity|]. apply su_deep; [discriminate|]. repeat constructor.
  - intros C. apply (proj2 (rewrite_any _)) in C. cbn in C. inversion C as [| |l v fs K1 K2|]; subst.
    destruct K1 as [K1|[K1|[]]]; injection K1 as <- <-; inversion K2 as [|? ? K3| |]; subst; inversion K3 as [|? ? K4| |]; subst.
    inversion K4.
Qed.

(** Bodies in which selectors are applied to identifiers only. *)
Theorem C66_references_partial :
  forall e, direct e ->
    renamed e (rewriteFromTo e) /\ ~ mentions "from" (rewriteFromTo e) /\ ~ mentions "to" (rewriteFromTo e).
Proof. exact (fun e D => conj (rewrite_direct e D) (rewrite_no_mention e D)). Qed.
Print Assumptions C66_references_partial.

Example C66_references_ex :
  let e := AStruct [("x", AOp "+" [ASel (AIdent "from") "a"; ASel (AIdent "other") "b"]); ("y", ASel (AIdent "to") "c")] in
  direct e /\
  rewriteFromTo e = AStruct [("x", AOp "+" [ASel (ABasic "input") "a"; ASel (AIdent "other") "b"]);
                             ("y", ASel (ABasic "result") "c")].
Proof.
  split; [|reflexivity]. constructor. intros l v [E|[E|[]]]; injection E as <- <-; constructor.
  intros a [<-|[<-|[]]]; constructor.
Qed.
