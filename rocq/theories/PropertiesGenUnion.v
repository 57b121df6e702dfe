(** Unions in generated Go code (GenFile.v). *)
From Verif Require Import Prelude Strings Gocode GocodeProofs GocodeFacts Version Util UtilProofs GenName GenNameProofs GenSpellProofs
  GenCommentProofs GenType GenTypeSpec GenTypeProofs GenDeclProofs GenEnumProofs GenTypeFacts GoJson GoJsonSpec GoJsonProofs GoJsonFacts
  GenFile GenUnionSpec GenUnionProofs GenUnionDocProofs GenUnionFacts.
Local Open Scope string_scope.
Local Open Scope list_scope.
Local Notation decl := GenTypeSpec.decl.

(** *** C106 *)

(** Claimed: where a schema may be one of several, Go code has [any], and the
    types generated for the alternatives are gone. Not so for unions in maps in
    lists and for unions in structs in maps: the name of the union stays although
    its declaration is gone, and the file does not compile. *)
Theorem C106_deep_refuted : forall np,
  dangles plain_unicode np maps_doc "U" /\ dangles plain_unicode np structs_doc "U".
Proof. exact (fun np => conj (proj1 (all_dangle np)) (proj1 (proj2 (all_dangle np)))). Qed.
Print Assumptions C106_deep_refuted.

(** Nor for components that are another name of a union, nor for alternatives
    that are enums: their constants stay. *)
Theorem C106_alias_refuted : forall np, dangles plain_unicode np alias_doc "U".
Proof. exact (fun np => proj1 (proj2 (proj2 (all_dangle np)))). Qed.
Print Assumptions C106_alias_refuted.
Theorem C106_enum_refuted : forall np, dangles plain_unicode np enum_doc "A0".
Proof. exact (fun np => proj1 (proj2 (proj2 (proj2 (all_dangle np))))). Qed.
Print Assumptions C106_enum_refuted.

(** Where an alternative is a union, the declaration that follows it is removed
    as well: here [C], which [A] uses. *)
Theorem C106_neighbour_refuted : forall np, dangles plain_unicode np nested_doc "C".
Proof. exact (fun np => proj2 (proj2 (proj2 (proj2 (all_dangle np))))). Qed.
Print Assumptions C106_neighbour_refuted.

(** An object with alternatives and properties keeps the field for the
    alternatives, without the methods that fill it. *)
Theorem C106_mixed_refuted : exists c t, final plain_unicode true mixed_doc =
  Ok [DGen c [SType "A" (TStruct [(["P"], t); (["union"], TSel "json" "RawMessage")])]].
Proof. exact mixed_left. Qed.
Print Assumptions C106_mixed_refuted.

(** Before the passes, whatever the types: each is declared once, and methods are
    those of declared types, with a pointer for receiver where they change it. *)
Theorem C106_file_partial : forall u parse same imports l f, generated u parse same imports l = Ok f ->
  NoDup (types_of f) /\ (forall n, In n (types_of f) <-> In n (tnames l)) /\
  (forall c r n sig, In (DFunc c r n sig) f -> exists t, In t (tnames l) /\
     r = Some [(["t"], if stores n then TStar (TIdent t) else TIdent t)]).
Proof. exact generated_file. Qed.
Print Assumptions C106_file_partial.

(** What holds, for documents without the above ([fits_component]) whose
    declarations are complete: the file that is left has exactly the declarations
    of the document in which every union is a schema that allows anything, in
    which names with underscores are still to be replaced. *)
Theorem C106_left_partial : forall u env parse np l,
  doc_ok l -> (forall p, In p l -> fits_component env p) ->
  (forall n r, In (n, r) l -> env (ref_to n) = value env r) ->
  (forall p q, In p l -> In q (refs_ref (snd p)) -> exists n, q = ref_to n /\ In n (map fst l)) ->
  NoDup (dnames (doc_decls u env l)) ->
  (forall d, In d (doc_decls u env l) -> go_name (dname d) /\ comment_ok d /\ good_consts (snd (fst d)) /\
     parse (render (dty d)) = go_of (dty d)) ->
  forall same imports k, doc_depth l <= k ->
  exists ts f, generateTypesForSchemas u env k l = Ok ts /\ generated u parse same imports ts = Ok f /\
    let rest := doc_decls u (blur_env env) (blur_doc env l) in
    let left := import_rows imports ++ flat_map const_row rest ++ map (type_row np) rest in
    passes np f = fixUnderscoreInTypeName left /\
    ((forall d, In d (doc_decls u env l) -> contains (dname d) "_" = false) -> passes np f = Ok left).
Proof. exact left_file. Qed.
Print Assumptions C106_left_partial.

(** Nothing that is gone is used, *)
Theorem C106_complete_partial : forall u env l,
  doc_ok l -> (forall p, In p l -> fits_component env p) ->
  (forall n r, In (n, r) l -> env (ref_to n) = value env r) ->
  (forall p q, In p l -> In q (refs_ref (snd p)) -> exists n, q = ref_to n /\ In n (map fst l)) ->
  forall d id, In d (doc_decls u (blur_env env) (blur_doc env l)) -> In id (ids (dty d)) ->
  In id builtins \/ In id (dnames (doc_decls u (blur_env env) (blur_doc env l))).
Proof. exact left_resolved. Qed.
Print Assumptions C106_complete_partial.

(** and data comes back unchanged through the types that are left, where C101 has
    it so for the document without unions. *)
Theorem C106_data_partial : forall u env np l,
  doc_ok l -> (forall p, In p l -> fits_component env p) ->
  (forall n r, In (n, r) l -> env (ref_to n) = value env r) ->
  (forall p q, In p l -> In q (refs_ref (snd p)) -> exists n, q = ref_to n /\ In n (map fst l)) ->
  NoDup (dnames (doc_decls u env l)) -> (forall d, In d (doc_decls u env l) -> go_name (dname d)) ->
  forall n s j, In (n, Inl s) l -> is_union s = false ->
  keeps (blur_env env) (blur_doc env l) np (Inl (blur env s)) j ->
  exists m, forall k, m <= k ->
    through (doc_types u (blur_env env) np (blur_doc env l)) k (GId (schemaNameToTypeName u n)) j = Ok j.
Proof. exact left_data. Qed.
Print Assumptions C106_data_partial.

(** The document of [testdata/lineage/union.txtar], without some of its fields. *)
Definition union_obj : schema :=
  Sch (base_of "object" ["theUnion"; "mapUnion"; "listUnion"; "mapList"; "mapChained"; "doubleList"; "nestedStruct"] false false)
    [("theUnion", to "UnionDef"); ("optionalUnion", to "UnionDef"); ("mapUnion", map_of (to "UnionDef"));
     ("listUnion", list_of (to "UnionDef")); ("mapList", map_of (list_of (to "UnionDef")));
     ("mapChained", map_of (map_of (to "UnionDef"))); ("doubleList", list_of (list_of (to "UnionDef")));
     ("nestedStruct", Inl (required [("structUnion", to "UnionDef"); ("mapUnion", map_of (to "UnionDef")); ("listUnion", list_of (to "UnionDef"))]))]
    None None None None None.
Definition union_doc : list (string * sref) :=
  [("UnionDef", Inl (union_schema [strs; bools])); ("union", Inl union_obj)].

Example C106_cases :
  let u := plain_unicode in let l := union_doc in let env := env_of l in let parse := parse_in (planned u l) in
  doc_ok l /\ (forall p, In p l -> fits_component env p) /\
  (forall n r, In (n, r) l -> env (ref_to n) = value env r) /\
  (forall p q, In p l -> In q (refs_ref (snd p)) -> exists n, q = ref_to n /\ In n (map fst l)) /\
  NoDup (dnames (doc_decls u env l)) /\
  (forall d, In d (doc_decls u env l) -> go_name (dname d) /\ comment_ok d /\ good_consts (snd (fst d)) /\
     parse (render (dty d)) = go_of (dty d)) /\
  (forall d, In d (doc_decls u env l) -> contains (dname d) "_" = false) /\
  map dname (planned u l) = ["UnionDef"; "UnionDef0"; "UnionDef1"; "Union"] /\
  exists c, final u false l = Ok
    [DGen c [SType "Union" (TStruct
      [(["DoubleList"], TArray (TArray (TIdent "any"))); (["ListUnion"], TArray (TIdent "any"));
       (["MapChained"], TMap (TIdent "string") (TMap (TIdent "string") (TIdent "any")));
       (["MapList"], TMap (TIdent "string") (TArray (TIdent "any"))); (["MapUnion"], TMap (TIdent "string") (TIdent "any"));
       (["NestedStruct"], TStruct [(["ListUnion"], TArray (TIdent "any")); (["MapUnion"], TMap (TIdent "string") (TIdent "any")); (["StructUnion"], TIdent "any")]);
       (["OptionalUnion"], TStar (TIdent "any")); (["TheUnion"], TIdent "any")])]].
Proof.
  cbv zeta.
  assert (DS : forall P : decl -> Prop, Forall P (planned plain_unicode union_doc) -> forall d, In d (doc_decls plain_unicode (env_of union_doc) union_doc) -> P d)
    by (intros P H d J; exact (proj1 (Forall_forall _ _) H d J)).
  split; [|split; [|split; [|split; [|split; [|split; [|split; [|split]]]]]]].
  - intros p [<-|[<-|[]]]; (split; [reflexivity|]); clear DS; cbn; intuition auto. 1,2: right; right; discriminate. all: exists "UnionDef"; repeat split.
  - clear DS. intros p [<-|[<-|[]]]; cbn; intuition (try discriminate); repeat match goal with H : _ \/ _ |- _ => destruct H as [<-|H] end; cbn; auto; try contradiction. all: subst; repeat split.
  - intros n r [E|[E|[]]]; injection E as <- <-; reflexivity.
  - intros p q [<-|[<-|[]]] J; cbn in J; repeat (destruct J as [<-|J]; [eexists; split; [reflexivity|cbn; auto]|]); destruct J.
  - apply nodup_b_sound. vm_compute. reflexivity.
  - apply DS. let ds := eval vm_compute in (planned plain_unicode union_doc) in
      assert (E : planned plain_unicode union_doc = ds) by (vm_compute; reflexivity); pattern (planned plain_unicode union_doc) at 1; rewrite E; clear E.
    cbv beta. repeat apply Forall_cons; try apply Forall_nil.
    all: split; [split; [reflexivity|intros J; apply mem_in in J; vm_compute in J; discriminate]|].
    all: split; [|split; [split; [apply Forall_nil|apply NoDup_nil]|vm_compute; reflexivity]].
    all: intros H c cs J; vm_compute in J; injection J as <- <-; first [reflexivity|destruct H as [H|H]; exfalso; apply H; reflexivity].
  - apply DS. vm_compute. repeat apply Forall_cons; try apply Forall_nil; reflexivity.
  - vm_compute. reflexivity.
  - eexists. vm_compute. reflexivity.
Qed.

Example C106_file_case : let u := plain_unicode in
  exists ts f, generateTypesForSchemas u (env_of union_doc) 20 union_doc = Ok ts /\
  generated u (parse_in (planned u union_doc)) (fun _ _ => true) [] (ts ++ ts) = Ok f /\
  types_of f = ["UnionDef"; "UnionDef0"; "UnionDef1"; "Union"] /\
  exists c sig, In (DFunc c (Some [(["t"], TStar (TIdent "UnionDef"))]) "FromUnionDef0" sig) f.
Proof. eexists. eexists. split; [vm_compute; reflexivity|]. split; [vm_compute; reflexivity|]. split; [vm_compute; reflexivity|]. do 2 eexists. vm_compute. auto 20. Qed.

Definition small_doc : list (string * sref) := [the_union; ("A", Inl (required [("p", to "U")]))].
Example C106_data_cases :
  keeps (blur_env (env_of small_doc)) (blur_doc (env_of small_doc) small_doc) false
    (Inl (blur (env_of small_doc) (required [("p", to "U")]))) (JObj [("p", JBool true)]) /\
  through (doc_types plain_unicode (blur_env (env_of small_doc)) false (blur_doc (env_of small_doc) small_doc)) 8 (GId "A")
    (JObj [("p", JBool true)]) = Ok (JObj [("p", JBool true)]).
Proof.
  split; [|vm_compute; reflexivity].
  assert (E : blur (env_of small_doc) (required [("p", to "U")])
    = Sch (base_of "object" ["p"] false false) [("p", Inl (any_of (base_of "" [] false false)))] None None None None None) by (vm_compute; reflexivity).
  rewrite E. apply keeps_struct; try reflexivity; try discriminate.
  - repeat constructor. intros [].
  - intros p [<-|[]]. split; [split; reflexivity|exact I].
  - cbn. auto. split; [intros b []|exact I].
  - intros k x [J|[]]. injection J as <- <-. eexists. split; [left; reflexivity|]. cbv zeta. right. split; [discriminate|].
    split; [|auto]. apply keeps_all; [reflexivity|constructor].
  - intros k r [J|[]] N. exfalso. apply N. injection J as <- <-. left. reflexivity.
Qed.
