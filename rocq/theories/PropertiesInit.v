(** C89, C90: [thema lineage init]. *)
From Verif Require Import Prelude Strings Load LoadProofs Init InitProofs.
Local Open Scope string_scope.
Local Open Scope list_scope.

Section C89.
Variables package_ok rest_ok : string -> bool.
Variable is_valid_ident : string -> bool.
Variable quote : string -> string.
Variable itoa : nat -> string.
Context {F W : Type}.
Variables yaml_extract json_extract : string -> F + string.
Variable schema_of_json : string -> string -> source + string.
Variable schema_of_openapi : option F -> outcome W.
Variable path_err : string -> option string.
Variable at_path : W -> string -> option source.
Variable whole : W -> source.
Variable path_string : string -> string.
Variable print : linfile -> string + string.
Notation go := (run package_ok rest_ok is_valid_ident quote itoa yaml_extract json_extract
  schema_of_json schema_of_openapi path_err at_path whole path_string print).

(** *** C89 *)

(** [NewLineage]: a name without quotes, backslashes and line breaks is the name
    of the lineage, and the package is declared unless it is empty. *)
Theorem C89_new_lineage :
  forall sch name pkg,
    verbatim name -> oneline pkg -> pkg = "" \/ package_ok pkg = true ->
    rest_ok (tail_text (so_text sch)) = true ->
    newLineage package_ok rest_ok sch name pkg =
    inl (mkLin (if String.eqb pkg "" then None else Some pkg) ["github.com/grafana/thema"] name
               (tail_text (so_text sch))).
Proof. exact (newLineage_ok package_ok rest_ok). Qed.

(** [init empty]: the flags are checked in this order; then the lineage has the
    name and the package asked for. *)
Theorem C89_empty :
  forall f args input orph,
  (args <> [] -> go IEmpty f args input orph =
     CobraErr ("accepts at most " ++ itoa 0 ++ " arg(s), received " ++ itoa (List.length args))%string) /\
  (args = [] -> ic_name f = "" ->
     go IEmpty f args input orph = CobraErr "must provide a name for lineage via --name") /\
  (args = [] -> ic_name f <> "" -> ic_nopkg f = true -> ic_pkgname f <> "" ->
     go IEmpty f args input orph = CobraErr "cannot pass both --no-package and --package-name") /\
  (args = [] -> ic_name f <> "" -> forall pkg, wanted_package f = Some pkg -> is_valid_ident pkg = false ->
     go IEmpty f args input orph = CobraErr (quote pkg ++ " is not a valid package name")%string) /\
  (args = [] -> ic_name f <> "" -> verbatim (ic_name f) ->
   (ic_nopkg f = true -> ic_pkgname f = "") -> rest_ok (tail_text (so_text emptySchema)) = true ->
   (forall pkg, wanted_package f = Some pkg -> is_valid_ident pkg = true /\ package_ok pkg = true /\ oneline pkg) ->
     go IEmpty f args input orph =
     printed (print (mkLin (wanted_package f) ["github.com/grafana/thema"] (ic_name f)
                           (tail_text (so_text emptySchema))))).
Proof.
  exact (init_empty package_ok rest_ok is_valid_ident quote itoa yaml_extract json_extract
    schema_of_json schema_of_openapi path_err at_path whole path_string print).
Qed.

(** The help of [init empty] says that the name must be given as the single
    argument: given so, the command fails. *)
Theorem C89_argument_refuted :
  forall f name input orph, exists e, go IEmpty f [name] input orph = CobraErr e.
Proof. intros. eexists. reflexivity. Qed.

(** *** C90 *)

(** [init openapi] and [init jsonschema], once the document was converted. *)
Theorem C90_document :
  forall c f args b orph sch,
    List.length args <= 1 ->
    document_schema yaml_extract json_extract schema_of_json schema_of_openapi path_err at_path whole c f b orph sch ->
    verbatim (ic_name f) -> oneline (ic_pkgname f) ->
    ic_pkgname f = "" \/ package_ok (ic_pkgname f) = true -> rest_ok (tail_text (so_text sch)) = true ->
    go c f args (inl b) orph =
    printed (print (mkLin (if String.eqb (ic_pkgname f) "" then None else Some (ic_pkgname f))
                     ["github.com/grafana/thema"] (ic_name f) (tail_text (so_text sch)))).
Proof.
  exact (init_document package_ok rest_ok is_valid_ident quote itoa yaml_extract json_extract
    schema_of_json schema_of_openapi path_err at_path whole path_string print).
Qed.

(** The packages a converted schema refers to are imported exactly if thema is
    the only one. *)
Theorem C90_imports :
  forall sch name pkg lf,
    newLineage package_ok rest_ok sch name pkg = inl lf -> oneline name -> oneline pkg ->
    ((forall p, In p (so_refs sch) -> In p (lf_imports lf)) <->
     forall p, In p (so_refs sch) -> p = "github.com/grafana/thema").
Proof. exact (imports_spec package_ok rest_ok). Qed.

(** The file [inputToFile] returns. *)
Theorem C90_input :
  forall input enc rest f,
    inputToFile yaml_extract json_extract input (enc :: rest) = Ok (Some f) <->
    (enc = EncYAML /\ yaml_extract input = inl f) \/ (enc = EncJSON /\ json_extract input = inl f).
Proof. exact (input_spec yaml_extract json_extract). Qed.

(** Neither a file nor an error: that is what comes of a JSON document that
    cannot be read. *)
Theorem C90_json_error_refuted :
  forall input e rest, json_extract input = inr e ->
    inputToFile yaml_extract json_extract input (EncJSON :: rest) = Ok None.
Proof. intros input e rest H. cbn. rewrite H. reflexivity. Qed.
End C89.
Print Assumptions C89_new_lineage.
Print Assumptions C89_empty.
Print Assumptions C89_argument_refuted.
Print Assumptions C90_document.
Print Assumptions C90_imports.
Print Assumptions C90_input.
Print Assumptions C90_json_error_refuted.

(** *** Concrete runs *)

(** Everything parses; a file prints as its package, name and imports. *)
Definition show (f : linfile) : string + string :=
  inl (String.concat " " (match lf_package f with Some p => p | None => "-" end :: lf_name f :: lf_imports f)).
Definition ex_sch : source := mkSource ["strings"] ["strings"] "{a: strings.MinRunes(1)}".
Definition ident_ok (s : string) : bool := negb (contains s "-").
Definition ex_run :=
  run (F:=unit) (W:=unit) (fun _ => true) (fun _ => true) ident_ok (fun s => s) (fun n => "n")
    (fun _ => inl tt) (fun _ => inr "bad JSON") (fun _ _ => inl ex_sch) (fun _ => Ok tt)
    (fun _ => None) (fun _ _ => None) (fun _ => ex_sch) (fun s => s) show.

Lemma ship_verbatim : verbatim "ship".
Proof.
  intros a c b H. repeat (destruct a as [|? a]; [injection H as <- _; repeat split; discriminate|cbn in H; injection H as _ H]).
  destruct a; discriminate.
Qed.

Example C89_ex :
  verbatim "ship" /\
  ex_run IEmpty (mkFlags "ship" "" false "") [] (inl "") [] = Printed "ship ship github.com/grafana/thema" /\
  ex_run IEmpty (mkFlags "ship" "" true "") [] (inl "") [] = Printed "- ship github.com/grafana/thema" /\
  ex_run IEmpty (mkFlags "ship" "x" true "") [] (inl "") [] =
    CobraErr "cannot pass both --no-package and --package-name" /\
  ex_run IEmpty (mkFlags "my-ship" "" false "") [] (inl "") [] = CobraErr "my-ship is not a valid package name".
Proof. split; [exact ship_verbatim|]. repeat split; vm_compute; reflexivity. Qed.

(** Names with quotes or backslashes: the lineage has another name, or there is
    none. A line break in the name lets it add to the file. *)
Theorem C89_names_refuted :
  (exists name, ic_name (mkFlags name "p" false "") = name /\
     exists e, ex_run IEmpty (mkFlags name "p" false "") [] (inl "") [] = RunErr e) /\
  (exists name other, name <> other /\
     ex_run IEmpty (mkFlags name "p" false "") [] (inl "") [] =
     Printed ("p " ++ other ++ " github.com/grafana/thema")%string) /\
  (exists lf, newLineage (fun _ => true) (fun _ => true) emptySchema ("x""" ++ nl ++ "joinSchema: a: ""z")%string "p" = inl lf /\
     lf_name lf = "x" /\ has_prefix (lf_rest lf) "joinSchema: a: ""z""" = true).
Proof.
  split; [|split].
  - exists "a""b". split; [reflexivity|]. eexists. vm_compute. reflexivity.
  - exists "a\tb", (String "a" (String (ascii_of_N 9) "b")). split; [discriminate|]. vm_compute. reflexivity.
  - eexists. split; [vm_compute; reflexivity|]. split; reflexivity.
Qed.
Print Assumptions C89_names_refuted.

Example C90_ex :
  document_schema (F:=unit) (W:=unit) (fun _ => inl tt) (fun _ => inr "bad JSON") (fun _ _ => inl ex_sch)
    (fun _ => Ok tt) (fun _ => None) (fun _ _ => None) (fun _ => ex_sch) IOpenapi
    (mkFlags "ship" "" false "") "doc" [EncYAML] ex_sch /\
  ex_run IOpenapi (mkFlags "ship" "p" false "") ["f.yaml"] (inl "doc") [EncYAML] =
    Printed "p ship github.com/grafana/thema" /\
  ex_run IOpenapi (mkFlags "ship" "p" false "") [] (inl "doc") [EncOther "cue"] = RunErr "unsupported format: cue" /\
  ex_run IOpenapi (mkFlags "ship" "p" false "") [] (inl "doc") [] = Crashed /\
  ex_run IOpenapi (mkFlags "ship" "p" false "a") [] (inl "doc") [EncYAML] =
    RunErr "path a does not exist in converted schema".
Proof.
  split; [exists (Some tt), tt; repeat split|]. repeat split; vm_compute; reflexivity.
Qed.

(** Against the help of the flags: a lineage without a name is printed;
    [--package-name] does not default to the name; [--no-package] does not
    leave the package out. *)
Theorem C90_flags_refuted :
  (exists f, ic_name f = "" /\
     ex_run IJsonschema f [] (inl "doc") [] = Printed "p  github.com/grafana/thema") /\
  (exists f, ic_name f = "ship" /\ ic_pkgname f = "" /\ ic_nopkg f = false /\
     ex_run IJsonschema f [] (inl "doc") [] = Printed "- ship github.com/grafana/thema") /\
  (exists f, ic_nopkg f = true /\
     ex_run IJsonschema f [] (inl "doc") [] = Printed "p ship github.com/grafana/thema").
Proof.
  split; [exists (mkFlags "" "p" false "")|split; [exists (mkFlags "ship" "" false "")|exists (mkFlags "ship" "p" true "")]];
    repeat split; vm_compute; reflexivity.
Qed.
Print Assumptions C90_flags_refuted.

(** A schema that needs a standard package yields a file that does not import it. *)
Theorem C90_imports_refuted :
  exists sch lf, so_imports sch = so_refs sch /\
    newLineage (fun _ => true) (fun _ => true) sch "ship" "p" = inl lf /\
    ~ (forall p, In p (so_refs sch) -> In p (lf_imports lf)).
Proof.
  exists ex_sch. eexists. split; [reflexivity|]. split; [vm_compute; reflexivity|].
  intro H. destruct (H "strings" (or_introl eq_refl)) as [E|[]]. discriminate.
Qed.
Print Assumptions C90_imports_refuted.
