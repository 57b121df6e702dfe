(** C97, for references of any shape. *)
From Verif Require Gocode.
From Verif Require Import Prelude Strings Version Util GenName GenNameProofs GenSpellProofs GenType GenTypeSpec GenTypeProofs
  GenEmbedProofs GenRefProofs.
Local Open Scope string_scope.
Local Open Scope list_scope.

(** A reference with a [#] in it is never written out. It is the type named by
    its last part when it is local and has four parts, described as what it refers
    to is; any other is an error that tells the reference. *)
Theorem C97_referred : forall u env f r path, (exists a b, r = (a ++ "#" ++ b)%string) ->
  (exists n, local_ref r n /\
     generateGoSchema u env (S f) (Some (Ref r)) path = Ok (plain (schemaNameToTypeName u n) (b_desc (s_base (env r))) true None)) \/
  (~ (exists n, local_ref r n) /\ exists e, refPathToGoType u r = Err e /\
     generateGoSchema u env (S f) (Some (Ref r)) path
     = Err (new_err (("error turning reference (" ++ r ++ ") into a Go type: ") ++ e_text e)%string)).
Proof. exact schema_referred. Qed.
Print Assumptions C97_referred.

(** The error of a reference: a local one tells how many parts it has, one to a
    place in another file tells the file, and one with more than one [#] is told
    as it is. *)
Theorem C97_refused : forall u r, ~ (exists n, local_ref r n) ->
  (exists rest ps, r = ("#" ++ rest)%string /\ ps <> [] /\ Forall (free "/") ps /\ String.concat "/" ps = r /\
     refPathToGoType u r = Err (new_err ("unexpected reference depth: " ++ itoa (length ps) ++ " for ref: " ++ r ++ " local: true"))) \/
  (exists a b, a <> "" /\ free "#" a /\ free "#" b /\ r = (a ++ "#" ++ b)%string /\
     refPathToGoType u r = Err (new_err ("unrecognized external reference '" ++ a
        ++ "'; please provide the known import for this reference using option --import-mapping"))) \/
  ((forall rest, r <> ("#" ++ rest)%string) /\ (forall a b, free "#" a -> free "#" b -> r <> (a ++ "#" ++ b)%string) /\
     refPathToGoType u r = Err (new_err ("unsupported reference: " ++ r))).
Proof. exact reference_refused. Qed.
Print Assumptions C97_refused.

(** A reference without a [#], to a whole document, is written out: it gives what
    the document itself would give in its place. *)
Theorem C97_whole : forall u env f r path, ~ (exists a b, r = (a ++ "#" ++ b)%string) ->
  generateGoSchema u env (S f) (Some (Ref r)) path = generateGoSchema u env (S f) (Some (Inl (env r))) path.
Proof. exact schema_whole. Qed.
Print Assumptions C97_whole.

(** References of all these shapes. *)
Example C97_refused_cases : forall u,
  (exists a b, "other.json#/components/schemas/foo" = (a ++ "#" ++ b)%string) /\
  ~ (exists a b, "other.json" = (a ++ "#" ++ b)%string) /\
  refPathToGoType u "other.json#/components/schemas/foo"
  = Err (new_err "unrecognized external reference 'other.json'; please provide the known import for this reference using option --import-mapping") /\
  refPathToGoType u "#/foo" = Err (new_err "unexpected reference depth: 2 for ref: #/foo local: true") /\
  refPathToGoType u "a#b#c" = Err (new_err "unsupported reference: a#b#c").
Proof.
  intros u. split; [exists "other.json", "/components/schemas/foo"; reflexivity|]. split; [|repeat split; reflexivity].
  intros H. apply hash_in in H. discriminate H.
Qed.
