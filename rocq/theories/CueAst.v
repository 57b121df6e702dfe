(** Editing CUE syntax trees: [internal/astutil/get.go], the node helpers of
    [encoding/cue/encode.go], the file edit of [encoding/cue/rewrite.go] and
    [cmd/thema/lineage_fix.go]. *)
From Verif Require Import Prelude Version Rewrite.
Local Open Scope string_scope.
Local Open Scope list_scope.

(** Field labels. String literals are represented by their unquoted text;
    aliases, patterns and interpolations are [LDyn]. *)
Inductive label := LIdent (name : string) | LString (text : string) | LDyn.

(** Kinds of [ast.Node]. [KOther] stands for every other expression. *)
Inductive kind :=
| KFile (filename : string)
| KField (l : label)
| KStruct | KList | KEmbed
| KPackage (name : string) | KImport (path : string)
| KComment (text : string) | KAttr (text : string)
| KOther (text : string).

(** A syntax tree. The number is the identity of the node: Go compares node
    pointers. The children are what [ast.Walk] visits below the node, in order:
    declarations of a file or struct, elements of a list, the value of a field
    followed by its attributes, attached comments. Simplified: labels have no
    children. *)
Inductive node := Node (id : N) (k : kind) (cs : list node).

Definition node_id (n : node) : N := let 'Node i _ _ := n in i.
Definition children (n : node) : list node := let 'Node _ _ cs := n in cs.
Definition node_kind (n : node) : kind := let 'Node _ k _ := n in k.

(** A new node: it is not part of any file. *)
Definition mk (k : kind) (cs : list node) : node := Node 0 k cs.

(** *** internal/astutil/get.go *)

(** [get.go:90-104] [strEq], [identStrEq]. *)
Definition label_eq (l : label) (str : string) : bool :=
  match l with
  | LIdent n => String.eqb n str
  | LString t => String.eqb t str
  | LDyn => false
  end.

(** [get.go:106-116] [isFieldWithLabel]. *)
Definition isFieldWithLabel (n : node) (str : string) : bool :=
  match n with
  | Node _ (KField l) _ => label_eq l str
  | _ => false
  end.

(** The value of a field: its first child. *)
Definition field_value (n : node) : option node := hd_error (children n).

Definition is_list (n : node) : bool := match n with Node _ KList _ => true | _ => false end.

(** [get.go:21-26]: the list of a field labelled seqs. *)
Definition seqs_value (n : node) : option node :=
  if isFieldWithLabel n "seqs" then
    match field_value n with
    | Some v => if is_list v then Some v else None
    | None => None
    end
  else None.

(** [get.go:15-30] [FindSeqs]. *)
Fixpoint findSeqs (n : node) : option node :=
  match seqs_value n with
  | Some l => Some l
  | None =>
      let 'Node _ _ cs := n in
      (fix go (l : list node) : option node :=
         match l with
         | [] => None
         | c :: r => match findSeqs c with Some x => Some x | None => go r end
         end) cs
  end.

(** [get.go:70-88] [GetFieldByLabel]. *)
Definition getFieldByLabel (n : node) (str : string) : outcome node :=
  match node_kind n with
  | KFile _ | KStruct =>
      match find (fun c => isFieldWithLabel c str) (children n) with
      | Some f => Ok f
      | None => Err (new_err ("no field with label """ ++ str ++ """")%string)
      end
  | _ => Err (new_err "not an *ast.File or *ast.StructLit")
  end.

(** [get.go:56-67] [listForField]; [%T] of the field. *)
Definition listForField (n : node) (str : string) : outcome node :=
  f <- getFieldByLabel n str ;;
  match field_value f with
  | Some v =>
      if is_list v then Ok v
      else Err (new_err ("expected """ ++ str ++ """ field to be an ast.ListLit, got *ast.Field")%string)
  | None => Err (new_err ("expected """ ++ str ++ """ field to be an ast.ListLit, got *ast.Field")%string)
  end.

(** The elements of a list literal. Comments attached to it are not modelled. *)
Definition elts (n : node) : list node := children n.

Definition no_seqs_err : err := new_err "could not find seqs list in input".

(** [get.go:34-40] [LatestSchemaList]. *)
Definition latestSchemaList (n : node) : outcome node :=
  match findSeqs n with
  | None => Err no_seqs_err
  | Some l => e <- indexZ (elts l) (Z.of_nat (length (elts l)) - 1) ;; listForField e "schemas"
  end.

(** [get.go:44-54] [SchemaListFor]. *)
Definition schemaListFor (n : node) (majv : N) : outcome node :=
  match findSeqs n with
  | None => Err no_seqs_err
  | Some l =>
      if (N.of_nat (length (elts l)) <=? majv)%N
      then Err (new_err ("major version " ++ show_N majv ++ " not present in lineage")%string)
      else e <- index (elts l) (N.to_nat majv) ;; listForField e "schemas"
  end.

(** [get.go:180-211] [ToExpr] on a file: [start] of line 189-199, and the
    result. *)
Fixpoint header (i start : nat) (ds : list node) : nat :=
  match ds with
  | [] => start
  | d :: r =>
      match node_kind d with
      | KPackage _ | KImport _ => header (S i) (S i) r
      | KComment _ | KAttr _ => header (S i) start r
      | _ => start
      end
  end.
Definition toExpr (ds : list node) : node :=
  let decls := skipn (header 0 0 ds) ds in
  match decls with
  | [Node _ KEmbed (e :: _)] => e
  | _ => mk KStruct decls
  end.

(** *** encoding/cue/encode.go *)

(** Assignment through a node pointer: the node with that identity becomes
    [g] of it. *)
Fixpoint at_id (i : N) (g : node -> node) (n : node) : node :=
  let 'Node j k cs := n in
  if (j =? i)%N then g n else Node j k (map (at_id i g) cs).

(** [encode.go:169-179] [versionComment] and [ast.AddComment]. *)
Definition commented (v : version) (n : node) : node :=
  let 'Node i k cs := n in Node i k (cs ++ [mk (KComment ("// v" ++ vstring v)%string) []]).

(** [encode.go:158-167] [newSequenceNode]. *)
Definition newSequenceNode (sch : option node) : node :=
  mk KStruct [mk (KField (LString "schemas")) [mk KList [match sch with Some s => s | None => mk KStruct [] end]]].

(** [append(l.Elts, x)] and [l.Elts[i] = x]. *)
Definition append_elt (x : node) (l : node) : node :=
  let 'Node i k cs := l in Node i k (cs ++ [x]).
Fixpoint set_nth (i : nat) (x : node) (l : list node) : list node :=
  match i, l with
  | _, [] => []
  | O, _ :: r => x :: r
  | S j, y :: r => y :: set_nth j x r
  end.
Definition set_elt (j : nat) (x : node) (l : node) : node :=
  let 'Node i k cs := l in Node i k (set_nth j x cs).

Definition insert_no_seqs : err :=
  new_err "could not find seqs list in input - invalid lineage ast?".

(** [encode.go:60-92] [insertSchemaNodeAs]; the edited lineage node. *)
Definition insertSchemaNodeAs (lin sch : node) (v : version) : outcome node :=
  match findSeqs lin with
  | None => Err insert_no_seqs
  | Some seql =>
      if (fst v =? N.of_nat (length (elts seql)))%N
      then Ok (at_id (node_id seql) (append_elt (newSequenceNode (Some (commented v sch)))) lin)
      else
        l <- schemaListFor lin (fst v) ;;
        if (N.of_nat (length (elts l)) <? snd v)%N
        then Err (new_err ("cannot insert version " ++ vstring v ++ ", previous version does not exist in lineage")%string)
        else if (snd v =? N.of_nat (length (elts l)))%N
        then Ok (at_id (node_id l) (append_elt (commented v sch)) lin)
        else Ok (at_id (node_id l) (set_elt (N.to_nat (snd v)) (commented v sch)) lin)
  end.

(** [encode.go:123-156] [appendlin]: [linf] and [schnode] are the formatted
    lineage and schema, [lv] the latest version, [compatible] the answer of
    [ThemaCompatible]. *)
Definition appendlin (linf schnode : node) (lv : version) (compatible : bool) : outcome node :=
  if compatible then
    match latestSchemaList linf with
    | Ok l => Ok (at_id (node_id l) (append_elt (commented (fst lv, (snd lv + 1)%N) schnode)) linf)
    | Err e => Err (wrap ("could not get lineage's latest seq's schema list: " ++ e_text e)%string e)
    | Panic => Panic
    | OutOfFuel => OutOfFuel
    end
  else
    match findSeqs linf with
    | None => Err (new_err "could not find seqs list in lineage input")
    | Some l =>
        Ok (at_id (node_id l) (append_elt (newSequenceNode (Some (commented ((fst lv + 1)%N, 0%N) schnode)))) linf)
    end.

(** *** encoding/cue/rewrite.go: the file *)

(** The expressions of Rewrite.v as nodes. *)
Fixpoint of_aexpr (e : aexpr) : node :=
  match e with
  | AIdent n => mk (KOther n) []
  | ABasic t => mk (KOther t) []
  | ABottom => mk (KOther "_|_") []
  | ASel x s => mk (KOther ("." ++ s)%string) [of_aexpr x]
  | AStruct fs => mk KStruct (map (fun f => mk (KField (LIdent (fst f))) [of_aexpr (snd f)]) fs)
  | AOp op es => if String.eqb op "[]" then mk KList (map of_aexpr es) else mk (KOther op) (map of_aexpr es)
  end.
Definition fieldn (name : string) (v : node) : node := mk (KField (LIdent name)) [v].
Definition structn (fs : list (string * aexpr)) : node := of_aexpr (AStruct fs).

(** [rewrite.go:242-250] [synvToAST]. *)
Definition synv_node (v : version) : node :=
  mk KList [mk (KOther (show_N (fst v))) []; mk (KOther (show_N (snd v))) []].
(** [rewrite.go:148-151]. *)
Definition schema_node (s : new_schema) : node :=
  mk KStruct [fieldn "version" (synv_node (n_version s)); fieldn "schema" (structn (n_schema s))].
(** [rewrite.go:183-193,212-218]. *)
Definition body_node (b : body) : node :=
  match b with
  | BTodo => mk KStruct [mk KEmbed [mk (KOther "_|_") [mk (KComment "// TODO implement this lens") []]]]
  | BFields fs => structn fs
  end.
Definition lens_node (l : new_lens) : node :=
  mk KStruct [fieldn "to" (synv_node (nl_to l)); fieldn "from" (synv_node (nl_from l));
              fieldn "input" (mk (KOther "_") []); fieldn "result" (body_node (nl_result l));
              fieldn "lacunas" (mk KList (map of_aexpr (nl_lacunas l)))].
(** [rewrite.go:56-59]: the fields put in place of seqs. *)
Definition new_fields (p : list new_schema * list new_lens) : list node :=
  [fieldn "schemas" (mk KList (map schema_node (fst p)));
   fieldn "lenses" (mk KList (map lens_node (snd p)))].

(** A [cue.Value] as far as the rewriting looks at it: whether it exists, its
    [Source], what is at its path seqs ([None]: nothing; [Some None]: not a
    list), the values [Expr] gives for [cue.AndOp] ([[]] for other operators). *)
Inductive value := Val (v_exists : bool) (v_src : option node)
                       (v_seqs : option (option (list lseq))) (v_conj : list value).
Definition v_exists (v : value) := let 'Val b _ _ _ := v in b.
Definition v_src (v : value) := let 'Val _ s _ _ := v in s.
Definition v_seqs (v : value) := let 'Val _ _ q _ := v in q.
Definition v_conj (v : value) := let 'Val _ _ _ c := v in c.
Definition has_seqs (v : value) : bool := match v_seqs v with Some _ => true | None => false end.

(** [rewrite.go:252-261] [isStructLiteral]. *)
Definition isStructLiteral (v : value) : bool :=
  match v_src v with
  | Some (Node _ KStruct _) => true
  | Some (Node _ (KField _) (Node _ KStruct _ :: _)) => true
  | _ => false
  end.

(** [rewrite.go:222-240] [findSeqsVal]. *)
Fixpoint findSeqsVal (v : value) : option value :=
  if isStructLiteral v then Some v
  else
    let 'Val _ _ _ vals := v in
    (fix go (l : list value) : option value :=
       match l with
       | [] => None
       | x :: r =>
           if has_seqs x then match findSeqsVal x with Some w => Some w | None => go r end
           else go r
       end) vals.

(** [rewrite.go:86]. [ast.LabelName] fails on computed labels. *)
Definition is_seqs (n : node) : bool := isFieldWithLabel n "seqs".

(** [rewrite.go:83-92]: [astutil.Apply]; a replaced node is not walked. *)
Fixpoint replace_seqs (new : list node) (n : node) : node :=
  let 'Node i k cs := n in
  Node i k (flat_map (fun c => if is_seqs c then new else [replace_seqs new c]) cs).

(** Some field below or at the node is labelled seqs. *)
Fixpoint has_label (n : node) : bool :=
  is_seqs n || (let 'Node _ _ cs := n in existsb has_label cs).

Fixpoint ids (n : node) : list N :=
  let 'Node i _ cs := n in i :: flat_map ids cs.

(** [rewrite.go:65-77]: the file that contains the node. *)
Definition file_of (i : N) (files : list node) : option node :=
  find (fun f => existsb (N.eqb i) (ids f)) files.

(** [rewrite.go:83-94], on the source node found. [InsertAfter] panics on the
    root of the walk. The new fields share the bodies of schemas and lenses with
    the old ones: if a field below them is labelled seqs it is replaced as well,
    by a field that contains it, and neither walking nor printing the tree
    ends (Go: stack overflow); [Panic] here. *)
Definition edit (new : list node) (src : node) (f : node) : outcome node :=
  if is_seqs src then Panic
  else if has_label src && existsb has_label new then Panic
  else Ok (at_id (node_id src) (replace_seqs new) f).

(** [rewrite.go:51-94], on the value whose literal is edited. The renaming of
    references in lens bodies (Rewrite.v) happens in place; it shows in the file
    only through the new fields, unless the literal with the lenses is not the
    edited one, which is not modelled. *)
Definition rewrite_value (files : list node) (v : value) : outcome node :=
  p <- rewrite_legacy (match v_seqs v with Some q => q | None => None end) ;;
  match v_src v with
  | None => Panic
  | Some src =>
      match file_of (node_id src) files with
      | None => Panic
      | Some f => edit (new_fields p) src f
      end
  end.

(** The root of a package instance: its files, if it is one, and the value at
    every path. *)
Record instance := mkInst { i_files : option (list node); i_lookup : list string -> value }.

(** [rewrite.go:24-95] [RewriteLegacyLineage]. [path] is the list of selectors;
    [path_text] its text. *)
Definition rewriteLegacyLineage (inst : instance) (path : list string) (path_text : string) : outcome node :=
  match i_files inst with
  | None => Err (new_err "provided cue.Value must be the root of a CUE package instance")
  | Some files =>
      let v := i_lookup inst path in
      if negb (v_exists v)
      then Err (new_err ("no value exists at CUE path """ ++ path_text ++ """")%string)
      else if negb (has_seqs v)
      then Err (new_err "value does not contain a 'seqs' field")
      else
        match findSeqsVal v with
        | Some w => rewrite_value files w
        | None =>
            match path with
            | _ :: _ => Err (new_err "could not find parent of seqs field in AST")
            | [] => rewrite_value files v
            end
        end
  end.

(** *** cmd/thema/lineage_fix.go *)

Definition filename (f : node) : string := match f with Node _ (KFile n) _ => n | _ => "" end.

(** [lineage_fix.go:45-57] [do]: the file written and its bytes. [fmt] is
    [tastutil.FmtNode]; writing itself is not modelled. *)
Definition fix_do (fmt : node -> outcome string) (inst : instance) (path : list string) (path_text : string)
  : outcome (string * string) :=
  f <- rewriteLegacyLineage inst path path_text ;;
  b <- fmt f ;;
  Ok (filename f, b).
