(** Proofs about [thema lineage init]. *)
From Verif Require Import Prelude Strings Load LoadProofs Init.
Local Open Scope string_scope.
Local Open Scope list_scope.

(** Text without line breaks. *)
Definition oneline (s : string) : Prop :=
  forall a c b, s = (a ++ String c b)%string -> c <> ascii_of_N 10.

Lemma verbatim_oneline s : verbatim s -> oneline s.
Proof. intros V a c b E. apply (V a c b E). Qed.

Lemma newline_n c : c <> ascii_of_N 10 -> (N_of_ascii c =? 10)%N = false.
Proof.
  intro H. apply N.eqb_neq. intro E. apply H. rewrite <- E. symmetry. apply ascii_N_embedding.
Qed.

Lemma line_oneline s : oneline s -> forall t, line (s ++ nl ++ t) = (s, t).
Proof.
  induction s as [|c r IH]; intros O t; [reflexivity|].
  change (String c r ++ nl ++ t)%string with (String c (r ++ nl ++ t)). cbn [line].
  rewrite (newline_n c (O "" c r eq_refl)), IH; [reflexivity|].
  intros a d b ->. exact (O (String c a) d b eq_refl).
Qed.

Lemma oneline_quote s : oneline s -> oneline (s ++ """").
Proof.
  induction s as [|c r IH]; intros O a d b E.
  - destruct a as [|x a]; cbn in E; [injection E as <- <-; discriminate|].
    injection E as _ E. destruct a; discriminate.
  - destruct a as [|x a]; cbn in E.
    + injection E as <- _. exact (O "" c r eq_refl).
    + injection E as _ E. apply (IH (fun a' c' b' E' => O (String c a') c' b' (f_equal (String c) E')) a d b E).
Qed.

Lemma after_app p s : after p (p ++ s) = Some s.
Proof. induction p as [|c p IH]; cbn; [destruct s; reflexivity|]. rewrite Ascii.eqb_refl. exact IH. Qed.

(** The part of the generated text that follows the name. *)
Definition tail_text (sch : string) : string :=
  ("schemas: [" ++ nl ++ "    {" ++ nl ++ "        version: [0, 0]" ++ nl ++ "        schema: {" ++ nl ++
   "            " ++ sch ++ nl ++ "        }" ++ nl ++ "    }" ++ nl ++ "]" ++ nl)%string.
Definition thema_import : string := "github.com/grafana/thema".
Definition head_text (name sch : string) : string :=
  ("import ""github.com/grafana/thema""" ++ nl ++ nl ++ "thema.#Lineage" ++ nl ++ "name: """ ++
   name ++ """" ++ nl ++ tail_text sch)%string.

Section Init.
Variables package_ok rest_ok : string -> bool.

Lemma parse_head name sch :
  oneline name ->
  parse_header rest_ok (head_text name sch) =
  match string_literal (name ++ """") with
  | Some n => if rest_ok (tail_text sch) then Some ([thema_import], n, tail_text sch) else None
  | None => None
  end.
Proof.
  intro O. unfold parse_header.
  set (rest := (nl ++ "thema.#Lineage" ++ nl ++ "name: """ ++ name ++ """" ++ nl ++ tail_text sch)%string).
  assert (E : head_text name sch = ("import """ ++ "github.com/grafana/thema""" ++ nl ++ rest)%string) by reflexivity.
  rewrite E, after_app.
  assert (L : oneline "github.com/grafana/thema""").
  { intros a c b H. repeat (destruct a as [|? a]; [injection H as <- _; discriminate|cbn in H; injection H as _ H]).
    destruct a; discriminate. }
  rewrite (line_oneline _ L).
  assert (P : string_literal "github.com/grafana/thema""" = Some thema_import) by reflexivity. rewrite P.
  assert (R : rest = ((nl ++ "thema.#Lineage" ++ nl ++ "name: """) ++ name ++ """" ++ nl ++ tail_text sch)%string) by reflexivity.
  rewrite R, after_app.
  assert (A : (name ++ """" ++ nl ++ tail_text sch)%string = ((name ++ """") ++ nl ++ tail_text sch)%string).
  { clear. induction name as [|c r IH]; [reflexivity|]. cbn. f_equal. exact IH. }
  rewrite A, (line_oneline _ (oneline_quote _ O)). reflexivity.
Qed.

Lemma newlin_head pkg name sch :
  newlin_text pkg name sch =
  ((if String.eqb pkg "" then "" else "package " ++ pkg ++ nl) ++ head_text name sch)%string.
Proof. reflexivity. Qed.

Definition parse_failed (sch : source) (name pkg : string) : string :=
  (newlin_text pkg name (so_text sch) ++ nl ++ "error while parsing generated output")%string.

(** [NewLineage] for names and packages of one line. *)
Theorem newLineage_spec sch name pkg :
  oneline name -> oneline pkg ->
  newLineage package_ok rest_ok sch name pkg =
  match string_literal (name ++ """") with
  | Some n =>
      if (String.eqb pkg "" || package_ok pkg) && rest_ok (tail_text (so_text sch))
      then inl (mkLin (if String.eqb pkg "" then None else Some pkg) [thema_import] n (tail_text (so_text sch)))
      else inr (parse_failed sch name pkg)
  | None => inr (parse_failed sch name pkg)
  end.
Proof.
  intros ON OP. unfold newLineage, parse_failed, parse_file. rewrite newlin_head.
  destruct (String.eqb_spec pkg "") as [->|N].
  - cbn [orb andb]. change ("" ++ head_text name (so_text sch))%string with (head_text name (so_text sch)).
    change (after "package " (head_text name (so_text sch))) with (@None string).
    rewrite (parse_head _ _ ON). destruct (string_literal (name ++ """")) as [n|]; [|reflexivity].
    destruct (rest_ok _); reflexivity.
  - assert (A : (("package " ++ pkg ++ nl) ++ head_text name (so_text sch))%string =
                ("package " ++ pkg ++ nl ++ head_text name (so_text sch))%string).
    { cbn. do 8 f_equal. clear. induction pkg as [|c r IH]; [reflexivity|]. cbn. f_equal. exact IH. }
    rewrite A, after_app, (line_oneline _ OP). cbn [orb]. destruct (package_ok pkg); cbn [andb].
    + rewrite (parse_head _ _ ON). destruct (string_literal (name ++ """")) as [n|]; [|reflexivity].
      destruct (rest_ok _); reflexivity.
    + destruct (string_literal _); reflexivity.
Qed.

Theorem newLineage_ok sch name pkg :
  verbatim name -> oneline pkg -> pkg = "" \/ package_ok pkg = true -> rest_ok (tail_text (so_text sch)) = true ->
  newLineage package_ok rest_ok sch name pkg =
  inl (mkLin (if String.eqb pkg "" then None else Some pkg) [thema_import] name (tail_text (so_text sch))).
Proof.
  intros V O P R. rewrite (newLineage_spec _ _ _ (verbatim_oneline _ V) O), (literal_verbatim _ V), R.
  assert (Q : String.eqb pkg "" || package_ok pkg = true).
  { destruct P as [->|P]; [reflexivity|]. rewrite P. apply orb_true_r. }
  rewrite Q. reflexivity.
Qed.

Variable is_valid_ident : string -> bool.
Variable quote : string -> string.
Variable itoa : nat -> string.
Context {F W : Type}.
Variables yaml_extract json_extract : string -> F + string.
Variable schema_of_json : string -> string -> source + string.
Variable schema_of_openapi : option F -> outcome W.
Variable path_err : string -> option string.
Variable at_path : W -> string -> option source.
Variable whole : W -> source.
Variable path_string : string -> string.
Variable print : linfile -> string + string.
Notation go := (run package_ok rest_ok is_valid_ident quote itoa yaml_extract json_extract
  schema_of_json schema_of_openapi path_err at_path whole path_string print).

(** The package the flags of [init empty] ask for; [None] is no package. *)
Definition wanted_package (f : flags) : option string :=
  if ic_nopkg f then None
  else Some (if String.eqb (ic_pkgname f) "" then ic_name f else ic_pkgname f).

Definition printed (o : string + string) : iresult :=
  match o with inl t => Printed t | inr e => RunErr e end.

Theorem init_empty f args input orph :
  (args <> [] -> go IEmpty f args input orph =
     CobraErr ("accepts at most " ++ itoa 0 ++ " arg(s), received " ++ itoa (List.length args))%string) /\
  (args = [] -> ic_name f = "" ->
     go IEmpty f args input orph = CobraErr "must provide a name for lineage via --name") /\
  (args = [] -> ic_name f <> "" -> ic_nopkg f = true -> ic_pkgname f <> "" ->
     go IEmpty f args input orph = CobraErr "cannot pass both --no-package and --package-name") /\
  (args = [] -> ic_name f <> "" -> forall pkg, wanted_package f = Some pkg -> is_valid_ident pkg = false ->
     go IEmpty f args input orph = CobraErr (quote pkg ++ " is not a valid package name")%string) /\
  (args = [] -> ic_name f <> "" -> verbatim (ic_name f) ->
   (ic_nopkg f = true -> ic_pkgname f = "") -> rest_ok (tail_text (so_text emptySchema)) = true ->
   (forall pkg, wanted_package f = Some pkg -> is_valid_ident pkg = true /\ package_ok pkg = true /\ oneline pkg) ->
     go IEmpty f args input orph =
     printed (print (mkLin (wanted_package f) [thema_import] (ic_name f) (tail_text (so_text emptySchema))))).
Proof.
  split; [|split; [|split; [|split]]].
  - intro N. destruct args as [|a r]; [contradiction|]. reflexivity.
  - intros -> N. unfold run, processPackageArgs. rewrite N. reflexivity.
  - intros -> N P Q. unfold run, processPackageArgs. apply String.eqb_neq in N, Q. cbn. rewrite N, P, Q. reflexivity.
  - intros -> N pkg. unfold wanted_package, run, processPackageArgs. apply String.eqb_neq in N. cbn. rewrite N.
    destruct (ic_nopkg f); [discriminate|]. intros H I. injection H as <-. rewrite I. reflexivity.
  - intros -> N V NP R H. unfold run, processPackageArgs. pose proof N as N'. apply String.eqb_neq in N'. cbn. rewrite N'.
    unfold wanted_package in *. destruct (ic_nopkg f) eqn:P.
    + rewrite (NP eq_refl). cbn. unfold finish. rewrite (NP eq_refl).
      rewrite newLineage_ok; [reflexivity|exact V| |left; reflexivity|exact R]. intros a c b E. destruct a; discriminate.
    + destruct (H _ eq_refl) as [H1 [H2 H3]].
      set (pkg := if String.eqb (ic_pkgname f) "" then ic_name f else ic_pkgname f) in *.
      assert (NE : String.eqb pkg "" = false).
      { unfold pkg. destruct (String.eqb (ic_pkgname f) "") eqn:E; [exact N'|exact E]. }
      rewrite H1. cbn. unfold finish. cbn [ic_name ic_pkgname].
      rewrite newLineage_ok; auto. rewrite NE. reflexivity.
Qed.

(** The schema a document command arrives at, before [NewLineage]. *)
Definition document_schema (c : icmd) (f : flags) (b : string) (orph : list encoding) (sch : source) : Prop :=
  match c with
  | IEmpty => False
  | IJsonschema => schema_of_json (ic_srcpath f) b = inl sch
  | IOpenapi =>
      exists file v, inputToFile yaml_extract json_extract b orph = Ok file /\ schema_of_openapi file = Ok v /\
        (if String.eqb (ic_srcpath f) "" then sch = whole v
         else path_err (ic_srcpath f) = None /\ at_path v (ic_srcpath f) = Some sch)
  end.

(** The commands that convert a document: name and package are the flags as they
    are, [--no-package] has no effect. *)
Theorem init_document c f args b orph sch :
  List.length args <= 1 -> document_schema c f b orph sch ->
  verbatim (ic_name f) -> oneline (ic_pkgname f) ->
  ic_pkgname f = "" \/ package_ok (ic_pkgname f) = true -> rest_ok (tail_text (so_text sch)) = true ->
  go c f args (inl b) orph =
  printed (print (mkLin (if String.eqb (ic_pkgname f) "" then None else Some (ic_pkgname f))
                   [thema_import] (ic_name f) (tail_text (so_text sch)))).
Proof.
  intros L D V O P R. unfold run.
  assert (Fin : finish package_ok rest_ok print sch f =
    printed (print (mkLin (if String.eqb (ic_pkgname f) "" then None else Some (ic_pkgname f))
                   [thema_import] (ic_name f) (tail_text (so_text sch))))).
  { unfold finish. rewrite newLineage_ok by auto. reflexivity. }
  assert (B : c <> IEmpty -> Nat.ltb (max_args c) (List.length args) = false).
  { intro N. apply Nat.ltb_ge. destruct c; [contradiction| |]; cbn; lia. }
  destruct c; cbn in D; [contradiction| |].
  - rewrite B by discriminate. destruct D as [file [v [D1 [D2 D3]]]]. unfold runOpenAPI. rewrite D1, D2.
    destruct (String.eqb (ic_srcpath f) "").
    + subst. exact Fin.
    + destruct D3 as [-> ->]. exact Fin.
  - rewrite B by discriminate. unfold runJSONSchema. rewrite D. exact Fin.
Qed.

(** Every package the schema refers to is imported by the printed file exactly
    if the schema refers to thema only. *)
Definition resolved (lf : linfile) (refs : list string) : Prop := forall p, In p refs -> In p (lf_imports lf).

Theorem imports_spec sch name pkg lf :
  newLineage package_ok rest_ok sch name pkg = inl lf -> oneline name -> oneline pkg ->
  (resolved lf (so_refs sch) <-> forall p, In p (so_refs sch) -> p = thema_import).
Proof.
  intros H ON OP. rewrite (newLineage_spec _ _ _ ON OP) in H.
  destruct (string_literal _); [|discriminate]. destruct (_ && _); [|discriminate]. injection H as <-.
  unfold resolved. cbn. split; intros K p I; specialize (K p I); [destruct K as [<-|[]]; reflexivity|left; auto].
Qed.

(** [inputToFile]: a file, an error, or neither. *)
Theorem input_spec input enc rest f :
  inputToFile yaml_extract json_extract input (enc :: rest) = Ok (Some f) <->
  (enc = EncYAML /\ yaml_extract input = inl f) \/ (enc = EncJSON /\ json_extract input = inl f).
Proof.
  destruct enc; cbn.
  - destruct (yaml_extract input); split.
    + intro H. injection H as ->. left. auto.
    + intros [[_ H]|[H _]]; [congruence|discriminate].
    + discriminate.
    + intros [[_ H]|[H _]]; discriminate.
  - destruct (json_extract input); split.
    + intro H. injection H as ->. right. auto.
    + intros [[H _]|[_ H]]; [discriminate|congruence].
    + discriminate.
    + intros [[H _]|[_ H]]; discriminate.
  - split; [discriminate|]. intros [[H _]|[H _]]; discriminate.
Qed.
End Init.
