(** C53, C68, C69: OpenAPI generation. *)
From Verif Require Import Prelude Version Strings Paths Util UtilProofs Oapi OapiProofs.
Local Open Scope string_scope.
Local Open Scope list_scope.

Definition reg (s : string) : sel := mkSel s false.
Definition plain_config (p : cpath) : config := mkConfig false "" p false None None.

(** { a: b: string, c?: string }, recursively closed, without a join schema *)
Definition ex_def : shape := Struct true [("a", (false, Struct true [("b", (false, Leaf))])); ("c", (true, Leaf))].
Definition ex_sch : schinfo :=
  mkSch "my-lin" (SV 1 2) [reg "_sortedSchemas"; reg "[3]"] ex_def ex_def (Struct false []).

(** *** C53 *)
Section C53.
Context {decl : Type}.
Variable generate : string -> option shape -> name_func -> string * string -> outcome (list decl).

Theorem C53_one_selector_partial :
  forall sch c s,
    c_group c = false -> c_split c = false -> c_subpath c = [s] ->
    closed_struct (s_def sch) -> open_struct (s_join sch) ->
    (~ declares (s_def sch) (sel_label s) ->
       fst (generateSchema generate sch c) =
       Err (new_err ("subpath """ ++ sel_string s ++ """ not present in schema")%string)) /\
    (declares (s_def sch) (sel_label s) ->
       fst (generateSchema generate sch c) =
       (ds <- encoded generate sch c (lookupPath (s_def sch) [s]) ;;
        Ok (mkDoc (rootName c sch) (vstring (s_version sch)) ds))).
Proof. exact (subpath_one generate). Qed.

(** Longer paths are checked selector by selector against the root only. *)
Theorem C53_any_depth_partial :
  forall sch c,
    c_group c = false -> c_split c = false -> c_subpath c <> [] ->
    (forall i, first_bad (s_def sch) (c_subpath c) i ->
       fst (generateSchema generate sch c) =
       Err (new_err ("subpath """ ++ shown (c_subpath c) (S i) ++ """ not present in schema")%string)) /\
    (forall i, (forall s, In s (c_subpath c) -> allows (s_def sch) s = true) ->
       first_bad (s_join sch) (c_subpath c) i ->
       fst (generateSchema generate sch c) =
       Err (new_err ("subpath """ ++ shown (c_subpath c) (S i) ++ """ not present in schema")%string)) /\
    ((forall s, In s (c_subpath c) -> allows (s_def sch) s = true /\ allows (s_join sch) s = true) ->
       fst (generateSchema generate sch c) =
       (ds <- encoded generate sch c (lookupPath (s_def sch) (c_subpath c)) ;;
        Ok (mkDoc (rootName c sch) (vstring (s_version sch)) ds))).
Proof. exact (subpath_any generate). Qed.

(** What is encoded is the value the path reaches, optional fields being reached
    by optional selectors only, or nothing. *)
Theorem C53_value_partial :
  forall sch c,
    c_group c = false -> c_split c = false -> c_subpath c <> [] ->
    (forall s, In s (c_subpath c) -> allows (s_def sch) s = true /\ allows (s_join sch) s = true) ->
    (forall v, reaches (s_def sch) (c_subpath c) v ->
       fst (generateSchema generate sch c) =
       (ds <- encoded generate sch c (Some v) ;;
        Ok (mkDoc (rootName c sch) (vstring (s_version sch)) ds))) /\
    ((forall v, ~ reaches (s_def sch) (c_subpath c) v) ->
       fst (generateSchema generate sch c) =
       (ds <- encoded generate sch c None ;;
        Ok (mkDoc (rootName c sch) (vstring (s_version sch)) ds))).
Proof. exact (subpath_value generate). Qed.

(** A subpath that exists is refused, and one that does not exist is passed on
    to the encoder (without a value). *)
Theorem C53_subpath_refuted :
  (exists sch c v, c_group c = false /\ c_split c = false /\ closed_struct (s_def sch) /\ open_struct (s_join sch) /\
     lookupPath (s_def sch) (c_subpath c) = Some v /\
     fst (generateSchema generate sch c) = Err (new_err "subpath ""a.b"" not present in schema")) /\
  (exists sch c, c_group c = false /\ c_split c = false /\ closed_struct (s_def sch) /\ open_struct (s_join sch) /\
     lookupPath (s_def sch) (c_subpath c) = None /\
     fst (generateSchema generate sch c) =
     (ds <- encoded generate sch c None ;; Ok (mkDoc "a" "1.2" ds))).
Proof.
  split.
  - exists ex_sch, (plain_config [reg "a"; reg "b"]), Leaf. repeat split.
  - exists ex_sch, (plain_config [reg "a"; reg "a"]).
    repeat split.
    pose proof (single_subpath generate ex_sch (plain_config [reg "a"; reg "a"]) eq_refl eq_refl ltac:(discriminate)) as H.
    exact H.
Qed.
End C53.
Print Assumptions C53_one_selector_partial.
Print Assumptions C53_any_depth_partial.
Print Assumptions C53_value_partial.
Print Assumptions C53_subpath_refuted.

Example C53_ex :
  closed_struct (s_def ex_sch) /\ open_struct (s_join ex_sch) /\
  declares (s_def ex_sch) "a" /\ ~ declares (s_def ex_sch) "b" /\
  first_bad (s_def ex_sch) [reg "a"; reg "b"] 1.
Proof.
  split; [exact I|]. split; [exact I|]. split; [eexists; reflexivity|].
  split; [intros [w H]; discriminate|]. split; [exists (reg "b"); split; reflexivity|].
  intros [|j] s L N; [injection N as <-; reflexivity|lia].
Qed.

Example C53_value_ex :
  reaches (s_def ex_sch) [reg "a"; reg "b"] Leaf /\ reaches (s_def ex_sch) [mkSel "c" true] Leaf /\
  (forall v, ~ reaches (s_def ex_sch) [reg "c"] v) /\
  (forall s, In s [reg "c"] -> allows (s_def ex_sch) s = true /\ allows (s_join ex_sch) s = true).
Proof.
  split; [apply lookupPath_reaches; reflexivity|]. split; [apply lookupPath_reaches; reflexivity|]. split.
  - intros v H. apply lookupPath_reaches in H. discriminate.
  - intros s [<-|[]]. split; reflexivity.
Qed.

(** *** C68 *)
Section C68.
Context {decl : Type}.
Variable generate : string -> option shape -> name_func -> string * string -> outcome (list decl).

Theorem C68_single :
  forall sch c,
    c_group c = false -> c_split c = false -> c_subpath c = [] ->
    fst (generateSchema generate sch c) =
    (ds <- encoded generate sch c (Some (s_def sch)) ;;
     Ok (mkDoc (if String.eqb (c_rootName c) "" then keep_label (s_lineage sch) else c_rootName c)
               (vstring (s_version sch)) ds)).
Proof.
  intros sch c G S P. rewrite (single_root generate sch c G S P).
  unfold rootName. rewrite P. cbn [rev]. rewrite sanitize_keep. destruct (String.eqb (c_rootName c) ""); reflexivity.
Qed.

Theorem C68_group_noop :
  forall sch c rn sp spl, c_group c = true ->
    fst (generateSchema generate sch (mkConfig true rn sp spl (c_nameFunc c) (c_info c))) =
    fst (generateSchema generate sch c).
Proof. exact (group_noop generate). Qed.

(** One generation per declared field, in order; all must succeed. *)
Theorem C68_group_document :
  forall sch c closed fs doc, c_group c = true -> s_def sch = Struct closed fs ->
    (fst (generateSchema generate sch c) = Ok doc <->
     d_title doc = keep_label (s_lineage sch) /\ d_version doc = vstring (s_version sch) /\
     exists parts, Forall2 (fun f p => group_field generate sch c f = Ok p) fs parts /\ d_schemas doc = concat parts).
Proof.
  intros sch c closed fs doc G S. rewrite <- sanitize_keep. exact (group_document generate sch c closed fs doc G S).
Qed.

Theorem C68_split_document :
  forall sch c doc, c_group c = false -> c_split c = true -> c_subpath c = [] ->
    (fst (generateSchema generate sch c) = Ok doc <->
     d_title doc = rootName c sch /\ d_version doc = vstring (s_version sch) /\
     exists a b, encoded generate sch c (Some (s_raw sch)) = Ok a /\
                 encoded generate sch c (Some (s_join sch)) = Ok b /\ d_schemas doc = a ++ b).
Proof. exact (split_document generate). Qed.
End C68.
Print Assumptions C68_single.
Print Assumptions C68_group_noop.
Print Assumptions C68_group_document.
Print Assumptions C68_split_document.

(** An encoder that emits one component, with the name, what the value is and
    the title it was given. *)
Definition toy_gen (name : string) (v : option shape) (nf : name_func) (hd : string * string)
  : outcome (list (string * option shape * string)) := Ok [(name, v, fst hd)].

Example C68_ex :
  fst (generateSchema toy_gen ex_sch (plain_config [])) =
    Ok (mkDoc "mylin" "1.2" [("mylin", Some ex_def, "mylin")]) /\
  fst (generateSchema toy_gen ex_sch (mkConfig false "Root" [] true None None)) =
    Ok (mkDoc "Root" "1.2" [("Root", Some ex_def, "Root"); ("Root", Some (Struct false []), "Root")]) /\
  fst (generateSchema toy_gen ex_sch (mkConfig true "Root" [reg "zz"] true None None)) =
    Ok (mkDoc "mylin" "1.2" [("a", Some (Struct true [("b", (false, Leaf))]), "a"); ("c", Some Leaf, "c")]) /\
  fst (generateSchema toy_gen ex_sch (plain_config [reg "a"])) =
    Ok (mkDoc "a" "1.2" [("a", Some (Struct true [("b", (false, Leaf))]), "a")]).
Proof. repeat split; vm_compute; reflexivity. Qed.

(** *** C69 *)

(** References inside the schema are named by their path below the schema,
    without definition and optional marks. *)
Theorem C69_names_partial :
  forall bpath b' w s rest i name,
    same_labels b' bpath -> In (sel_string w) wrappers ->
    sel_label s <> ("#" ++ name)%string -> path_string (s :: rest) <> ("#" ++ name)%string ->
    nfSingle None bpath (VOther i) (b' ++ w :: s :: rest) [mkSel ("#" ++ name)%string false] name =
      trim (path_string (s :: rest)) /\
    (forall f, nfSingle (Some f) bpath (VOther i) (b' ++ w :: s :: rest) [mkSel ("#" ++ name)%string false] name =
      f (VOther i) (s :: rest)).
Proof.
  intros bpath b' w s rest i name S W N1 N2. split.
  - exact (name_inside bpath b' w s rest i name S W N1 N2).
  - intro f. exact (name_user f bpath b' w s rest i name S W N1 N2).
Qed.
Print Assumptions C69_names_partial.

Theorem C69_root_name :
  forall onf bpath val path defpath name,
    path = [] \/ val = VDef -> nfSingle onf bpath val path defpath name = name.
Proof. exact name_root. Qed.
Print Assumptions C69_root_name.

(** The raw schema and the join schema are inlined, whatever the configuration. *)
Theorem C69_inlined :
  forall onf bpath b' w val defpath name,
    same_labels b' bpath -> b' <> [] -> In (sel_string w) wrappers -> path_string defpath <> "" ->
    val = VRaw \/ val = VJoin ->
    nfSingle onf bpath val (b' ++ [w]) defpath name = "".
Proof. exact name_inlined. Qed.
Print Assumptions C69_inlined.

Example C69_names_ex :
  let b := [reg "_sortedSchemas"; reg "[3]"] in
  nfSingle None b (VOther 0) (b ++ [reg "_#schema"; reg "#Inner"]) [reg "#Foo"] "Foo" = "Inner" /\
  nfSingle None b (VOther 0) (b ++ [reg "schema"; mkSel "x" true; reg "#In"]) [reg "#Foo"] "Foo" = "x?.#In" /\
  nfSingle None b VRaw (b ++ [reg "schema"]) [reg "#Foo"] "Foo" = "" /\
  nfSingle None b VDef (b ++ [reg "_#schema"]) [reg "#Foo"] "Foo" = "Foo".
Proof. repeat split; vm_compute; reflexivity. Qed.

(** Two values get one name: a definition inside the schema called like the
    schema itself is given the name of the whole schema. *)
Theorem C69_unique_names_refuted :
  exists bpath name p, p <> [] /\
    nfSingle None bpath VDef (bpath ++ [reg "_#schema"]) [reg ("#" ++ name)%string] name = name /\
    nfSingle None bpath (VOther 0) (bpath ++ [reg "_#schema"] ++ p) [reg ("#" ++ name)%string] name = name.
Proof.
  exists [reg "_sortedSchemas"; reg "[3]"], "Foo", [reg "#Foo"].
  split; [discriminate|]. split; vm_compute; reflexivity.
Qed.
Print Assumptions C69_unique_names_refuted.

(** Generation writes into the caller's configuration, and a later generation
    with the same configuration names things differently. *)
Theorem C69_config_refuted :
  exists (sch1 sch2 : schinfo) (c : config),
    c_nameFunc c = None /\
    let c1 := snd (generateSchema toy_gen sch1 c) in
    c_nameFunc c1 <> None /\ c_info c1 <> c_info c /\
    exists f g val path,
      c_nameFunc (snd (generateSchema toy_gen sch2 c1)) = Some f /\
      c_nameFunc (snd (generateSchema toy_gen sch2 c)) = Some g /\
      f val path = "mylin" /\ g val path = "".
Proof.
  exists ex_sch, (mkSch "other" (SV 0 0) [reg "_sortedSchemas"; reg "[0]"] ex_def ex_def (Struct false [])), (plain_config []).
  split; [reflexivity|]. cbv zeta. split; [discriminate|]. split; [discriminate|].
  eexists. eexists. exists (VOther 0), [reg "_sortedSchemas"; reg "[0]"].
  split; [reflexivity|]. split; [reflexivity|]. split; vm_compute; reflexivity.
Qed.
Print Assumptions C69_config_refuted.
