(** Properties of compositions of compositions, and of the file of types: C98, C99. *)
From Verif Require Import Prelude Strings Version Util UtilProofs GenName GenNameProofs GenSpellProofs
  GenCommentProofs GenType GenTypeSpec GenTypeProofs GenDeclProofs GenMergeProofs GenTypeFacts GenMergeDeep.
Local Open Scope string_scope.
Local Open Scope list_scope.

(** [leaves env l ts]: the schemas that the parts [l] consist of are [ts]; for a
    part that is a composition itself these are its parts, however deep. A
    composition that can be merged has the properties (the last one of a name
    winning), required names and enums of all of them, and is no composition any
    more; elements of [oneOf] are taken from the parts themselves only. What is
    missing for C98: the own properties of parts that are compositions. *)
Theorem C98_leaves_partial : forall env n l acc m,
  s_allOf acc = None -> merge_loop env (mergeAllOf env n) acc l = Ok m ->
  exists ts, leaves env l ts /\ has_all acc m ts /\ s_oneOf m = all_oneOf (s_oneOf acc) (parts_of env l).
Proof. exact merge_deep. Qed.
Print Assumptions C98_leaves_partial.
Theorem C98_leaves_unique : forall env l ts us, leaves env l ts -> leaves env l us -> ts = us.
Proof. exact leaves_one. Qed.
Print Assumptions C98_leaves_unique.

Example C98_leaves_case : forall env,
  let a := object_of [("a", strs); ("b", strs)] in
  let c := object_of [("c", strs)] in
  let deep := Sch (plain_base "object") [("lost", strs)] None None (Some [Inl a; Inl c]) None None in
  let d := object_of [("b", Inl a)] in
  leaves env [Inl deep; Inl d] [a; c; d] /\
  (exists m, merge_loop env (mergeAllOf env 2) (object_of [("x", strs)]) [Inl deep; Inl d] = Ok m /\
     map fst (s_props m) = ["x"; "a"; "b"; "c"] /\ lookup "b" (s_props m) = Some (Inl a)).
Proof.
  intros env a c deep d. split.
  - apply (leaves_deep env (Inl deep) [Inl a; Inl c] [Inl d] [a; c] [d]); [reflexivity| |].
    + repeat (apply (leaves_own env (Inl _)); [reflexivity|]). constructor.
    + apply (leaves_own env (Inl d)); [reflexivity|constructor].
  - eexists. split; [reflexivity|]. split; reflexivity.
Qed.

(** *** C99 *)

(** The file of types has one declaration for each name and no other ones, or it
    is refused because different schemas have the same name. *)
Theorem C99_written_partial : forall same ts s, generateTypes same ts = Ok s ->
  exists us, NoDup (tnames us) /\ (forall d, In d us -> In d ts) /\ (forall n, In n (tnames ts) -> In n (tnames us)) /\
    s = (String.concat "" (map typedef_text us) ++ newline)%string.
Proof. exact types_written. Qed.
Print Assumptions C99_written_partial.
Theorem C99_file_refused_partial : forall same ts e, generateTypes same ts = Err e ->
  exists a d b f, ts = a ++ d :: b /\ In f a /\ fst (fst f) = fst (fst d) /\
    same (g_oapi (snd f)) (g_oapi (snd d)) = false /\
    e_text e = ("duplicate typename '" ++ fst (fst d) ++ "' detected, can't auto-rename, please use x-go-name to specify your own name for one of them")%string.
Proof. exact types_refused. Qed.
Print Assumptions C99_file_refused_partial.
Example C99_written_case :
  let g t := plain t "" true None in
  let pet := ("Pet", "pet", g "string") in
  generateTypes (fun _ _ => true) [pet; ("Id", "id", g "int"); pet]
  = Ok (typedef_text pet ++ typedef_text ("Id", "id", g "int") ++ newline)%string /\
  is_ok (generateTypes (fun _ _ => false) [pet; pet]) = false.
Proof. split; reflexivity. Qed.
