(** Rewriting legacy lineages ([encoding/cue/rewrite.go]). *)
From Verif Require Import Prelude Version.
Local Open Scope string_scope.
Local Open Scope list_scope.

(** CUE syntax as far as the rewriting looks at it. [AOp] stands for every
    other node with children: operators, calls, index expressions, list
    literals, interpolations, comprehensions. *)
Inductive aexpr :=
| AIdent (name : string)
| ABasic (text : string)
| ABottom
| ASel (x : aexpr) (sel : string)
| AStruct (fields : list (string * aexpr))
| AOp (op : string) (args : list aexpr).

(** [Value.Source] of a schema. *)
Inductive sch_src := SrcNil | SrcStruct (fields : list (string * aexpr)) | SrcOther.

(** A value looked up below [lens.forward] or [lens.reverse]: missing, without
    source, with a field as source, with another node as source. *)
Inductive lens_src := LAbsent | LNoSource | LField (value : aexpr) | LOther.

(** An element of [seqs]. [None]: [schemas] is not a list. *)
Record lseq := mkSeq {
  q_schemas : option (list sch_src);
  q_forward_rel : lens_src; q_forward_lacunas : lens_src;
  q_reverse_rel : lens_src; q_reverse_lacunas : lens_src
}.

(** [rewrite.go:132-135] [legacySchema]. *)
Record legacySchema := mkLSch { ls_v : version; ls_raw : sch_src }.
(** [rewrite.go:154-157] [legacyLens]. *)
Record legacyLens := mkLL { ll_to : version; ll_from : version; ll_mapper : lens_src; ll_lacunas : lens_src }.

(** Go [uint] subtraction. *)
Definition usub (a b : N) : N := ((a + 18446744073709551616 - b) mod 18446744073709551616)%N.

(** [rewrite.go:298-310]: the schemas of a sequence. The counters count the
    elements of Go slices, so that they cannot overflow; they are not wrapped
    when incremented. *)
Fixpoint seq_parts (majv minv : N) (l : list sch_src) : list legacySchema * list legacyLens * N :=
  match l with
  | [] => ([], [], minv)
  | s :: r =>
      let '(schs, lens, m) := seq_parts majv (minv + 1)%N r in
      (mkLSch (majv, minv) s :: schs,
       (if negb (minv =? 0)%N then [mkLL (majv, usub minv 1) (majv, minv) LAbsent LAbsent] else []) ++ lens,
       m)
  end.

(** [rewrite.go:272-314]: the loop over the sequences; the lists appended. *)
Fixpoint parts_loop (majv lastminv : N) (seqs : list lseq) : outcome (list legacySchema * list legacyLens) :=
  match seqs with
  | [] => Ok ([], [])
  | q :: r =>
      match q_schemas q with
      | None => Err (new_err "cannot use value as list")
      | Some l =>
          let major :=
            if negb (majv =? 0)%N then
              [mkLL (usub majv 1, usub lastminv 1) (majv, 0%N) (q_reverse_rel q) (q_reverse_lacunas q);
               mkLL (majv, 0%N) (usub majv 1, usub lastminv 1) (q_forward_rel q) (q_forward_lacunas q)]
            else [] in
          let '(schs, lens, m) := seq_parts majv 0 l in
          x <- parts_loop (majv + 1)%N m r ;;
          Ok (schs ++ fst x, major ++ lens ++ snd x)
      end
  end.

(** [rewrite.go:263-317] [extractParts]; [None]: [seqs] is not a list. *)
Definition extractParts (seqs : option (list lseq)) : outcome (list legacySchema * list legacyLens) :=
  match seqs with
  | None => Err (new_err "cannot use value as list")
  | Some l => parts_loop 0 0 l
  end.

(** *** The new elements *)

(** What [legacySchema.toAST] builds: [version] and [schema]. *)
Record new_schema := mkNewSch { n_version : version; n_schema : list (string * aexpr) }.

(** [rewrite.go:137-152]. *)
Definition sch_toAST (s : legacySchema) : outcome new_schema :=
  match ls_raw s with
  | SrcNil => Err (new_err "schema returns nil for source, cannot migrate")
  | SrcOther => Err (new_err "source for schema is not a struct literal")
  | SrcStruct fs => Ok (mkNewSch (ls_v s) fs)
  end.

(** [rewrite.go:159-179] [rewriteFromTo], applied before the children
    ([astutil.Apply]); [false] keeps Apply from visiting them. *)
Definition from_to (name : string) : option aexpr :=
  if String.eqb name "from" then Some (ABasic "input")
  else if String.eqb name "to" then Some (ABasic "result")
  else None.
Fixpoint rewriteFromTo (e : aexpr) : aexpr :=
  match e with
  | ASel (AIdent n) s =>
      match from_to n with Some x => ASel x s | None => ASel (AIdent n) s end
  | ASel x s => ASel x s
  | AStruct fs => AStruct (map (fun f => (fst f, rewriteFromTo (snd f))) fs)
  | AOp op es => AOp op (map rewriteFromTo es)
  | AIdent n => AIdent n
  | ABasic t => ABasic t
  | ABottom => ABottom
  end.

(** The body of a new lens; [BTodo] is the bottom with the comment
    [// TODO implement this lens]. *)
Inductive body := BTodo | BFields (fields : list (string * aexpr)).
Record new_lens := mkNewLens { nl_to : version; nl_from : version; nl_result : body; nl_lacunas : list aexpr }.

Definition rw_fields (fs : list (string * aexpr)) : list (string * aexpr) :=
  map (fun f => (fst f, rewriteFromTo (snd f))) fs.

(** [rewrite.go:182-204]. The assertion on [*ast.Field] panics. *)
Definition mapper_ast (l : legacyLens) : outcome body :=
  match ll_mapper l with
  | LAbsent => Ok BTodo
  | LNoSource => Err (new_err "lens returns nil for source, cannot migrate")
  | LField (AStruct fs) => Ok (BFields (rw_fields fs))
  | LField _ => Err (new_err "lens mapper is not a struct literal")
  | LOther => Panic
  end.
(** [rewrite.go:206-211]. The list literal is [AOp "[]"]; both assertions
    panic. *)
Definition lacunas_ast (l : legacyLens) : outcome (list aexpr) :=
  match ll_lacunas l with
  | LAbsent | LNoSource => Ok []
  | LField (AOp op es) => if String.eqb op "[]" then Ok (map rewriteFromTo es) else Panic
  | LField _ | LOther => Panic
  end.
(** [rewrite.go:181-220] [legacyLens.toAST]. *)
Definition lens_toAST (l : legacyLens) : outcome new_lens :=
  b <- mapper_ast l ;;
  lac <- lacunas_ast l ;;
  Ok (mkNewLens (ll_to l) (ll_from l) b lac).

Fixpoint mapM {A B} (f : A -> outcome B) (l : list A) : outcome (list B) :=
  match l with
  | [] => Ok []
  | a :: r => b <- f a ;; bs <- mapM f r ;; Ok (b :: bs)
  end.

(** [rewrite.go:102-130] [rewrite]. *)
Definition rewrite_legacy (seqs : option (list lseq)) : outcome (list new_schema * list new_lens) :=
  p <- extractParts seqs ;;
  schs <- mapM sch_toAST (fst p) ;;
  lens <- mapM lens_toAST (snd p) ;;
  Ok (schs, lens).
