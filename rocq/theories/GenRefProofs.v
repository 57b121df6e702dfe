(** References of all shapes: which are named, refused and written out. *)
From Verif Require Gocode.
From Verif Require Import Prelude Strings Version Util UtilProofs CliProofs GenName GenNameProofs GenSpellProofs
  GenCommentProofs GenType GenTypeSpec GenTypeProofs GenMergeProofs GenEmbedProofs.
Local Open Scope string_scope.
Local Open Scope list_scope.

Lemma prefix_hash r : has_prefix r hash = true <-> exists rest, r = ("#" ++ rest)%string.
Proof.
  unfold has_prefix, hash. destruct r as [|c r]; [split; [discriminate|intros [x E]; discriminate E]|].
  cbn [String.prefix]. destruct (ascii_dec "#" c) as [<-|D].
  - split; [exists r; reflexivity|]. intros _. destruct r; reflexivity.
  - split; [discriminate|]. intros [x E]. injection E as E _. congruence.
Qed.

Lemma hash_in r : isGoTypeReference r = true <-> exists a b, r = (a ++ "#" ++ b)%string.
Proof.
  unfold isGoTypeReference, hash. rewrite andb_true_iff, contains_iff. split; [tauto|]. intros H. split; [|exact H].
  destruct H as (a & b & ->). destruct a; reflexivity.
Qed.

Lemma reference_refused u r : ~ (exists n, local_ref r n) ->
  (exists rest ps, r = ("#" ++ rest)%string /\ ps <> [] /\ Forall (free "/") ps /\ String.concat "/" ps = r /\
     refPathToGoType u r = Err (new_err ("unexpected reference depth: " ++ itoa (length ps) ++ " for ref: " ++ r ++ " local: true"))) \/
  (exists a b, a <> "" /\ free "#" a /\ free "#" b /\ r = (a ++ "#" ++ b)%string /\
     refPathToGoType u r = Err (new_err ("unrecognized external reference '" ++ a
        ++ "'; please provide the known import for this reference using option --import-mapping"))) \/
  ((forall rest, r <> ("#" ++ rest)%string) /\ (forall a b, free "#" a -> free "#" b -> r <> (a ++ "#" ++ b)%string) /\
     refPathToGoType u r = Err (new_err ("unsupported reference: " ++ r))).
Proof.
  intros N. assert (K := reference_named u r). unfold refPathToGoType in *. destruct (has_prefix r hash) eqn:P.
  - left. destruct (proj1 (prefix_hash r) P) as (rest & E). destruct (Nat.eqb_spec (length (split_str r "/")) 4) as [L|L].
    + exfalso. destruct (proj1 (K _) eq_refl) as (n & H & _). apply N. exists n. exact H.
    + destruct (split_parts "/" r) as [F J]. exists rest, (split_str r "/"). split; [exact E|]. split; [apply split_some|]. split; [exact F|]. split; [exact J|reflexivity].
  - right. destruct (split_parts "#" r) as [F J]. change (String "#" "") with hash in *. clear K.
    destruct (Nat.eqb_spec (length (split_str r hash)) 2) as [L|L].
    + left. destruct (split_str r hash) as [|a [|b [|]]]; try discriminate L. inversion F as [|? ? F1 F']; subst. inversion F' as [|? ? F2 _]; subst.
      exists a, b. split; [|repeat split; assumption]. intros ->. rewrite (proj2 (prefix_hash _)) in P; [discriminate P|]. exists b. reflexivity.
    + right. split; [|split; [|reflexivity]].
      * intros rest E. rewrite (proj2 (prefix_hash r)) in P; [discriminate P|]. exists rest. exact E.
      * intros a b Fa Fb E. apply L. assert (Sp := split_joined "#" [a; b]). cbn [String.concat] in Sp. change (String "#" "") with hash in Sp.
        change ("#" ++ b)%string with (hash ++ b)%string in E. rewrite <- E in Sp. rewrite Sp; [reflexivity|discriminate|repeat constructor; assumption].
Qed.

(** A schema that is a reference. *)
Lemma schema_referred u env f r path : (exists a b, r = (a ++ "#" ++ b)%string) ->
  (exists n, local_ref r n /\
     generateGoSchema u env (S f) (Some (Ref r)) path = Ok (plain (schemaNameToTypeName u n) (b_desc (s_base (env r))) true None)) \/
  (~ (exists n, local_ref r n) /\ exists e, refPathToGoType u r = Err e /\
     generateGoSchema u env (S f) (Some (Ref r)) path = Err (new_err (("error turning reference (" ++ r ++ ") into a Go type: ") ++ e_text e)%string)).
Proof.
  intros H. cbn [generateGoSchema ref_of value]. rewrite (proj2 (hash_in r) H).
  destruct (refPathToGoType u r) as [t|e| |] eqn:E.
  - left. destruct (proj1 (reference_named u r t) E) as (n & L & ->). exists n. split; [exact L|reflexivity].
  - right. split; [|exists e; split; reflexivity]. intros (n & L).
    rewrite (proj2 (reference_named u r _) (ex_intro _ n (conj L eq_refl))) in E. discriminate E.
  - exfalso. destruct (reference_total u r) as (t & [X|[e X]]); congruence.
  - exfalso. destruct (reference_total u r) as (t & [X|[e X]]); congruence.
Qed.

(** A reference to a whole document is written out. *)
Lemma schema_whole u env f r path : ~ (exists a b, r = (a ++ "#" ++ b)%string) ->
  generateGoSchema u env (S f) (Some (Ref r)) path = generateGoSchema u env (S f) (Some (Inl (env r))) path.
Proof.
  intros H. cbn [generateGoSchema ref_of value]. destruct (isGoTypeReference r) eqn:E; [|reflexivity].
  destruct H. apply hash_in, E.
Qed.
