(** C91, C92: editing syntax trees of lineages. *)
From Verif Require Import Prelude Version Rewrite RewriteProofs CueAst CueAstProofs CueAstFacts.
Local Open Scope string_scope.
Local Open Scope list_scope.

(** *** C91 *)

(** [all_seqs]: the list values of fields labelled seqs, in the order in which
    the tree is written. *)
Theorem C91_find_seqs : forall n, findSeqs n = hd_error (all_seqs n).
Proof. exact findSeqs_first. Qed.
Print Assumptions C91_find_seqs.

(** [table lin ss]: [ss] are the schemas of the lineage by sequence.
    [list_changed]: of the whole tree, one list has other elements. *)
Theorem C91_insert_major :
  forall lin ss sch v,
    NoDup (ids lin) -> table lin ss -> fst v = N.of_nat (length ss) ->
    exists lin', insertSchemaNodeAs lin sch v = Ok lin' /\ table lin' (ss ++ [[commented v sch]]) /\
      exists es q, list_changed lin lin' es (es ++ [q]).
Proof. exact insert_new_sequence. Qed.
Print Assumptions C91_insert_major.

Theorem C91_insert_minor :
  forall lin ss s sch v,
    NoDup (ids lin) -> table lin ss -> nth_error ss (N.to_nat (fst v)) = Some s ->
    (snd v <= N.of_nat (length s))%N ->
    exists lin' b a, insertSchemaNodeAs lin sch v = Ok lin' /\
      ss = b ++ s :: a /\ length b = N.to_nat (fst v) /\
      let s' := firstn (N.to_nat (snd v)) s ++ commented v sch :: skipn (S (N.to_nat (snd v))) s in
      table lin' (b ++ s' :: a) /\ list_changed lin lin' s s'.
Proof. exact insert_existing. Qed.
Print Assumptions C91_insert_minor.

Theorem C91_insert_errors :
  forall lin ss sch v,
    NoDup (ids lin) -> table lin ss ->
    ((N.of_nat (length ss) < fst v)%N ->
       insertSchemaNodeAs lin sch v = Err (new_err ("major version " ++ show_N (fst v) ++ " not present in lineage"))) /\
    (forall s, nth_error ss (N.to_nat (fst v)) = Some s -> (N.of_nat (length s) < snd v)%N ->
       insertSchemaNodeAs lin sch v =
       Err (new_err ("cannot insert version " ++ vstring v ++ ", previous version does not exist in lineage"))).
Proof. exact insert_errors. Qed.
Print Assumptions C91_insert_errors.

Theorem C91_insert_no_seqs :
  forall lin sch v, all_seqs lin = [] ->
    insertSchemaNodeAs lin sch v = Err (new_err "could not find seqs list in input - invalid lineage ast?").
Proof. exact insert_no_list. Qed.
Print Assumptions C91_insert_no_seqs.

Theorem C91_append_minor :
  forall lin b s sch,
    NoDup (ids lin) -> table lin (b ++ [s]) -> s <> [] ->
    let lv := (N.of_nat (length b), N.of_nat (length s - 1)) in
    let new := commented (N.of_nat (length b), N.of_nat (length s)) sch in
    exists lin', appendlin lin sch lv true = Ok lin' /\ table lin' (b ++ [s ++ [new]]) /\
      list_changed lin lin' s (s ++ [new]).
Proof. exact append_compatible. Qed.
Print Assumptions C91_append_minor.

Theorem C91_append_major :
  forall lin ss sch lv,
    NoDup (ids lin) -> table lin ss -> (fst lv + 1 = N.of_nat (length ss))%N ->
    let new := commented (N.of_nat (length ss), 0%N) sch in
    exists lin' es, appendlin lin sch lv false = Ok lin' /\ table lin' (ss ++ [[new]]) /\
      exists q, list_changed lin lin' es (es ++ [q]).
Proof. exact append_incompatible. Qed.
Print Assumptions C91_append_major.

(** Package and import clauses at the beginning of the file are dropped, with
    the comments and attributes between them. *)
Theorem C91_to_expr :
  forall pre p cm rest,
    Forall (fun n => clause n \/ remark n) pre -> clause p -> Forall remark cm ->
    (forall d, hd_error rest = Some d -> ~ clause d /\ ~ remark d) ->
    as_expr (cm ++ rest) (toExpr (pre ++ p :: cm ++ rest)).
Proof. exact toExpr_spec. Qed.
Print Assumptions C91_to_expr.
Theorem C91_to_expr_plain :
  forall cm rest, Forall remark cm ->
    (forall d, hd_error rest = Some d -> ~ clause d /\ ~ remark d) ->
    as_expr (cm ++ rest) (toExpr (cm ++ rest)).
Proof. exact toExpr_plain. Qed.
Print Assumptions C91_to_expr_plain.

(** A lineage in the old form: 0.0, 0.1. *)
Definition sch_a : node := Node 7 KStruct [].
Definition sch_b : node := Node 8 KStruct [].
Definition old_lin : node :=
  Node 1 (KFile "lin.cue")
    [Node 2 (KField (LIdent "name")) [Node 3 (KOther """x""") []];
     Node 4 (KField (LIdent "seqs"))
       [Node 5 KList [Node 6 KStruct [Node 9 (KField (LIdent "schemas")) [Node 10 KList [sch_a; sch_b]]]]]].
Definition sch_c : node := Node 20 KStruct [].

Lemma old_nodup : NoDup (ids old_lin).
Proof. cbn. repeat constructor; cbn; intuition discriminate. Qed.
Lemma old_table : table old_lin [[sch_a; sch_b]].
Proof.
  exists (Node 5 KList [Node 6 KStruct [Node 9 (KField (LIdent "schemas")) [Node 10 KList [sch_a; sch_b]]]]).
  split; [reflexivity|]. constructor; [|constructor].
  exists 6%N, KStruct, [], 9%N, (LIdent "schemas"), 10%N, [], []. repeat split; auto.
Qed.
Example C91_case :
  NoDup (ids old_lin) /\ table old_lin [[sch_a; sch_b]] /\
  insertSchemaNodeAs old_lin sch_c (0, 2)%N =
  Ok (Node 1 (KFile "lin.cue")
    [Node 2 (KField (LIdent "name")) [Node 3 (KOther """x""") []];
     Node 4 (KField (LIdent "seqs"))
       [Node 5 KList [Node 6 KStruct [Node 9 (KField (LIdent "schemas"))
          [Node 10 KList [sch_a; sch_b; Node 20 KStruct [mk (KComment "// v0.2") []]]]]]]]).
Proof. split; [exact old_nodup|]. split; [exact old_table|]. reflexivity. Qed.

(** The claim "at the position corresponding to the provided version": a
    version with the next major number is accepted with every minor number and
    ends up as the first of its sequence. *)
Theorem C91_version_refuted :
  exists lin ss sch v lin',
    NoDup (ids lin) /\ table lin ss /\ insertSchemaNodeAs lin sch v = Ok lin' /\
    v = (1, 5)%N /\ table lin' (ss ++ [[commented v sch]]) /\ length ss = 1%nat.
Proof.
  destruct (insert_new_sequence old_lin _ sch_c (1, 5)%N old_nodup old_table eq_refl) as (l & E & T & _).
  exists old_lin, [[sch_a; sch_b]], sch_c, (1, 5)%N, l. split; [exact old_nodup|]. split; [exact old_table|]. auto.
Qed.
Print Assumptions C91_version_refuted.

(** The claim "adds the provided value as a new schema to the provided
    lineage": a lineage in the current form has no seqs, and appending to it
    always fails. *)
Theorem C91_append_refuted :
  exists lin, (forall m, In m (preorder lin) -> ~ seqs_field m) /\
    (exists m, In m (preorder lin) /\ node_kind m = KField (LIdent "schemas")) /\
    (forall sch lv compatible, is_ok (appendlin lin sch lv compatible) = false).
Proof.
  exists (Node 1 (KFile "l.cue") [Node 2 (KField (LIdent "schemas")) [Node 3 KList []]]). split; [|split].
  - cbn. intros m [<-|[<-|[<-|[]]]] (i & l & cs & E & [-> | ->]); discriminate.
  - eexists. split; [right; left; reflexivity|reflexivity].
  - intros sch lv [|]; reflexivity.
Qed.
Print Assumptions C91_append_refuted.

Theorem C91_append_no_seqs :
  forall lin sch lv, all_seqs lin = [] ->
    appendlin lin sch lv true =
      Err (new_err "could not get lineage's latest seq's schema list: could not find seqs list in input") /\
    appendlin lin sch lv false = Err (new_err "could not find seqs list in lineage input").
Proof. exact append_no_list. Qed.
Print Assumptions C91_append_no_seqs.

(** [flawed q m]: the sequence [q] has no list of schemas, for the reason [m].
    It is reported, whatever else the lineage has. *)
Theorem C91_flawed :
  forall lin l, hd_error (all_seqs lin) = Some l ->
    (forall q m sch v, nth_error (children l) (N.to_nat (fst v)) = Some q -> flawed q m ->
       insertSchemaNodeAs lin sch v = Err (new_err m)) /\
    (forall b q m sch lv, children l = b ++ [q] -> flawed q m ->
       appendlin lin sch lv true = Err (new_err ("could not get lineage's latest seq's schema list: " ++ m))) /\
    (forall sch lv, children l = [] -> appendlin lin sch lv true = Panic).
Proof. exact sequences_flawed. Qed.
Print Assumptions C91_flawed.
Example C91_flawed_case :
  let seqs q := Node 1 KStruct [Node 2 (KField (LIdent "seqs")) [Node 3 KList [q]]] in
  let q1 := Node 4 KList [Node 5 (KField (LIdent "schemas")) [Node 6 KList []]] in
  let q2 := Node 4 KStruct [Node 5 (KField (LIdent "schemas")) [Node 6 KStruct []]] in
  flawed q1 "not an *ast.File or *ast.StructLit" /\
  flawed q2 "expected ""schemas"" field to be an ast.ListLit, got *ast.Field" /\
  hd_error (all_seqs (seqs q1)) = Some (Node 3 KList [q1]) /\
  hd_error (all_seqs (seqs q2)) = Some (Node 3 KList [q2]).
Proof. exact flawed_case. Qed.

(** *** C92 *)

Theorem C92_errors :
  forall inst path pt,
    (i_files inst = None ->
       rewriteLegacyLineage inst path pt = Err (new_err "provided cue.Value must be the root of a CUE package instance")) /\
    (forall files, i_files inst = Some files ->
       let v := i_lookup inst path in
       (v_exists v = false ->
          rewriteLegacyLineage inst path pt = Err (new_err ("no value exists at CUE path """ ++ pt ++ """"))) /\
       (v_exists v = true -> v_seqs v = None ->
          rewriteLegacyLineage inst path pt = Err (new_err "value does not contain a 'seqs' field")) /\
       (v_exists v = true -> v_seqs v <> None -> lits v [] -> path <> [] ->
          rewriteLegacyLineage inst path pt = Err (new_err "could not find parent of seqs field in AST"))).
Proof. exact rewrite_errors. Qed.
Print Assumptions C92_errors.

(** Beyond these errors there is a [target]: the first literal reached through
    unifications, or the root. *)
Theorem C92_target :
  forall v, exists ls, lits v ls /\ findSeqsVal v = hd_error ls.
Proof. intros v. destruct (lits_total v) as [ls H]. exists ls. split; [exact H|]. now apply findSeqsVal_lits. Qed.
Print Assumptions C92_target.

Theorem C92_parts_errors :
  forall inst path pt files v,
    i_files inst = Some files -> target inst path v ->
    forall e, rewrite_legacy (parsed v) = Err e -> rewriteLegacyLineage inst path pt = Err e.
Proof. exact rewrite_parts_fail. Qed.
Print Assumptions C92_parts_errors.

(** If one field below the literal is labelled seqs, the file with the literal
    is returned with this field replaced by the new ones; nothing else in it
    changes. *)
Theorem C92_edit_partial :
  forall inst path pt files f v src n p,
    i_files inst = Some files -> NoDup (flat_map ids files) -> In f files -> In src (preorder f) ->
    target inst path v -> v_src v = Some src -> rewrite_legacy (parsed v) = Ok p ->
    In n (preorder src) -> seqs_field n -> ~ seqs_field src ->
    (forall m, In m (preorder src) -> seqs_field m -> m = n) ->
    (forall m, In m (flat_map preorder (new_fields p)) -> ~ seqs_field m) ->
    exists c1 c2 f', rewriteLegacyLineage inst path pt = Ok f' /\
      [f] = plug c1 [src] /\ [src] = plug c2 [n] /\ [f'] = plug c1 (plug c2 (new_fields p)).
Proof. exact rewrite_one. Qed.
Print Assumptions C92_edit_partial.

(** The new fields: what C40 and C66 speak about. *)
Theorem C92_fields :
  forall p, exists s l, new_fields p = [s; l] /\
    node_kind s = KField (LIdent "schemas") /\ node_kind l = KField (LIdent "lenses") /\
    (exists i es, children s = [Node i KList es] /\
       Forall2 (fun x q => is_version (n_version x) (read ["version"] q) /\
                           read ["schema"] q = Some (of_aexpr (AStruct (n_schema x))) /\
                           length (children q) = 2%nat) (fst p) es) /\
    (exists i es, children l = [Node i KList es] /\
       Forall2 (fun x q => is_version (nl_to x) (read ["to"] q) /\ is_version (nl_from x) (read ["from"] q) /\
                           kind_in (KOther "_") (read ["input"] q) /\
                           (forall fs, nl_result x = BFields fs -> read ["result"] q = Some (of_aexpr (AStruct fs))) /\
                           (nl_result x = BTodo -> exists r, read ["result"] q = Some r /\
                               exists m, In m (preorder r) /\ node_kind m = KOther "_|_") /\
                           (exists i, read ["lacunas"] q = Some (Node i KList (map of_aexpr (nl_lacunas x)))) /\
                           length (children q) = 5%nat) (snd p) es).
Proof. exact new_fields_read. Qed.
Print Assumptions C92_fields.

(** Where a lens has to be written by hand, a comment says so. *)
Theorem C92_todo :
  forall p, exists s l i es, new_fields p = [s; l] /\ children l = [Node i KList es] /\
    Forall2 (fun x q => nl_result x = BTodo -> exists r, read ["result"] q = Some r /\ to_write r) (snd p) es.
Proof. exact lenses_said. Qed.
Print Assumptions C92_todo.

(** thema lineage fix writes the edited file over the original. *)
Theorem C92_fix_partial :
  forall fmt inst path pt files f v src n p,
    i_files inst = Some files -> NoDup (flat_map ids files) -> In f files -> In src (preorder f) ->
    target inst path v -> v_src v = Some src -> rewrite_legacy (parsed v) = Ok p ->
    In n (preorder src) -> seqs_field n -> ~ seqs_field src ->
    (forall m, In m (preorder src) -> seqs_field m -> m = n) ->
    (forall m, In m (flat_map preorder (new_fields p)) -> ~ seqs_field m) ->
    exists c1 c2 f', [f] = plug c1 [src] /\ [src] = plug c2 [n] /\ [f'] = plug c1 (plug c2 (new_fields p)) /\
      (forall bytes name, node_kind f = KFile name -> fmt f' = Ok bytes -> fix_do fmt inst path pt = Ok (name, bytes)) /\
      (forall e, fmt f' = Err e -> fix_do fmt inst path pt = Err e).
Proof. exact fix_one. Qed.
Print Assumptions C92_fix_partial.

(** Nothing is written unless the rewriting succeeds. *)
Theorem C92_fix_writes :
  forall fmt inst path pt name bytes,
    fix_do fmt inst path pt = Ok (name, bytes) <->
    exists f, rewriteLegacyLineage inst path pt = Ok f /\ fmt f = Ok bytes /\
      name = match node_kind f with KFile n => n | _ => "" end.
Proof. exact fix_spec. Qed.
Print Assumptions C92_fix_writes.

(** An example: a field lin with a literal, whose second conjunct is used. *)
Definition body_x : list (string * aexpr) := [("x", AIdent "string")].
Definition ex_seqs : list lseq := [mkSeq (Some [SrcStruct body_x]) LAbsent LAbsent LAbsent LAbsent].
Definition ex_seqs_field : node := Node 6 (KField (LIdent "seqs")) [Node 7 KList []].
Definition ex_src (extra : list node) : node :=
  Node 4 (KField (LIdent "lin")) [Node 5 KStruct (extra ++ [ex_seqs_field])].
Definition ex_file (extra : list node) : node :=
  Node 1 (KFile "lin.cue") [Node 2 (KPackage "p") []; ex_src extra; Node 3 (KField (LIdent "other")) []].
Definition ex_inst (extra : list node) : instance :=
  mkInst (Some [Node 30 (KFile "a.cue") []; ex_file extra])
         (fun _ => Val true None (Some (Some ex_seqs))
                     [Val true None None []; Val true (Some (ex_src extra)) (Some (Some ex_seqs)) []]).
Definition ex_parts : list new_schema * list new_lens := ([mkNewSch (0, 0)%N body_x], []).

Lemma ex_target extra :
  target (ex_inst extra) ["lin"] (Val true (Some (ex_src extra)) (Some (Some ex_seqs)) []).
Proof.
  split; [reflexivity|]. split; [discriminate|]. left. exists []. cbn.
  apply lits_and. { intros (n & H & _). discriminate. }
  cbn. apply ll_skip; [reflexivity|].
  change [Val true (Some (ex_src extra)) (Some (Some ex_seqs)) []]
    with ([Val true (Some (ex_src extra)) (Some (Some ex_seqs)) []] ++ @nil value) at 2.
  apply ll_in; [discriminate| |constructor]. apply lits_here. eexists. split; [reflexivity|]. right.
  eexists _, _, _. repeat split.
Qed.

Example C92_case :
  NoDup (flat_map ids [Node 30 (KFile "a.cue") []; ex_file []]) /\
  In (ex_src []) (preorder (ex_file [])) /\
  rewrite_legacy (Some ex_seqs) = Ok ex_parts /\
  In ex_seqs_field (preorder (ex_src [])) /\ seqs_field ex_seqs_field /\
  (forall m, In m (preorder (ex_src [])) -> seqs_field m -> m = ex_seqs_field) /\
  (forall m, In m (flat_map preorder (new_fields ex_parts)) -> ~ seqs_field m) /\
  rewriteLegacyLineage (ex_inst []) ["lin"] "lin" =
  Ok (Node 1 (KFile "lin.cue") [Node 2 (KPackage "p") [];
        Node 4 (KField (LIdent "lin")) [Node 5 KStruct (new_fields ex_parts)];
        Node 3 (KField (LIdent "other")) []]).
Proof.
  split. { cbn. repeat constructor; cbn; intuition discriminate. }
  split. { cbn. auto. }
  split; [reflexivity|]. split. { cbn. auto. }
  split. { repeat eexists. auto. }
  split. { cbn. intros m [<-|[<-|[<-|[<-|[]]]]] (i & l & cs & E & [-> | ->]); try discriminate. reflexivity. }
  split; [|reflexivity].
  cbn. intros m H (i & l & cs & E & [-> | ->]); subst m; repeat destruct H as [H|H]; discriminate || contradiction.
Qed.

(** The claim "rewrites the lineage": every field labelled seqs below the
    literal is replaced, not only the one of the lineage. Here the lineage has a
    joinSchema with a field of that name. *)
Definition join_with_seqs : node :=
  Node 10 (KField (LIdent "joinSchema")) [Node 11 KStruct [Node 12 (KField (LIdent "seqs")) [Node 13 (KOther "int") []]]].
Theorem C92_other_fields_refuted :
  rewriteLegacyLineage (ex_inst [join_with_seqs]) ["lin"] "lin" =
  Ok (Node 1 (KFile "lin.cue") [Node 2 (KPackage "p") [];
        Node 4 (KField (LIdent "lin")) [Node 5 KStruct
          (Node 10 (KField (LIdent "joinSchema")) [Node 11 KStruct (new_fields ex_parts)] :: new_fields ex_parts)];
        Node 3 (KField (LIdent "other")) []]).
Proof. reflexivity. Qed.
Print Assumptions C92_other_fields_refuted.

(** ... and a schema with a field of that name makes the rewriting crash. *)
Theorem C92_cyclic_refuted :
  forall inst path pt files f v src m p,
    i_files inst = Some files -> NoDup (flat_map ids files) -> In f files -> In src (preorder f) ->
    target inst path v -> v_src v = Some src -> rewrite_legacy (parsed v) = Ok p ->
    (exists n, In n (preorder src) /\ seqs_field n) ->
    In m (flat_map preorder (new_fields p)) -> seqs_field m ->
    rewriteLegacyLineage inst path pt = Panic.
Proof. exact rewrite_cyclic. Qed.
Print Assumptions C92_cyclic_refuted.
Definition seqs_body : list lseq :=
  [mkSeq (Some [SrcStruct [("seqs", AIdent "string")]]) LAbsent LAbsent LAbsent LAbsent].
Example C92_cyclic_case :
  rewriteLegacyLineage
    (mkInst (Some [ex_file []]) (fun _ => Val true (Some (ex_src [])) (Some (Some seqs_body)) [])) ["lin"] "lin" = Panic.
Proof. reflexivity. Qed.

(** Success although nothing is rewritten: the literal takes seqs from a value
    that it embeds. *)
Theorem C92_nothing_refuted :
  forall inst path pt files f v src p,
    i_files inst = Some files -> NoDup (flat_map ids files) -> In f files -> In src (preorder f) ->
    target inst path v -> v_src v = Some src -> rewrite_legacy (parsed v) = Ok p ->
    (forall m, In m (preorder src) -> ~ seqs_field m) ->
    rewriteLegacyLineage inst path pt = Ok f.
Proof. exact rewrite_nothing. Qed.
Print Assumptions C92_nothing_refuted.
Definition embedding_src : node := Node 4 (KField (LIdent "lin")) [Node 5 KStruct [Node 6 KEmbed [Node 7 (KOther "base") []]]].
Definition embedding_file : node := Node 1 (KFile "lin.cue") [embedding_src].
Example C92_nothing_case :
  rewriteLegacyLineage
    (mkInst (Some [embedding_file]) (fun _ => Val true (Some embedding_src) (Some (Some ex_seqs)) [])) ["lin"] "lin"
  = Ok embedding_file.
Proof. reflexivity. Qed.

(** A lineage declared elsewhere, or in several files of the package, crashes
    the rewriting instead of being reported. *)
Theorem C92_elsewhere_refuted :
  forall inst path pt files v p,
    i_files inst = Some files -> target inst path v -> rewrite_legacy (parsed v) = Ok p ->
    (forall src, v_src v = Some src -> ~ In (node_id src) (flat_map ids files)) ->
    rewriteLegacyLineage inst path pt = Panic.
Proof. exact rewrite_elsewhere. Qed.
Print Assumptions C92_elsewhere_refuted.
Example C92_elsewhere_case :
  rewriteLegacyLineage
    (mkInst (Some [embedding_file; Node 30 (KFile "b.cue") []]) (fun _ => Val true None (Some (Some ex_seqs)) [])) [] ""
  = Panic.
Proof. reflexivity. Qed.
