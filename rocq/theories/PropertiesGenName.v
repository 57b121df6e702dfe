(** Properties of names and comments in generated Go code: C93 to C96. *)
From Verif Require Import Prelude Strings Version Util GenName GenNameProofs GenConstProofs GenSpellProofs GenCommentProofs.
Local Open Scope string_scope.
Local Open Scope list_scope.

(** The tables of no characters, for examples about ASCII. *)
Definition ascii_only : unicode :=
  Build_unicode (fun _ => false) (fun _ => false) (fun _ => false) (fun _ => false) (fun _ => false) (fun r => r).

(** *** C93 *)

(** Documented: every name becomes a valid exported Go name. Names that begin
    with a separator or another character that is dropped do not. *)
Theorem C93_identifier_refuted : forall u,
  schemaNameToTypeName u "_1" = "1" /\ schemaNameToTypeName u "/a" = "a" /\
  (u_upper u 26085 = false -> u_lower u 26085 = false -> u_digit u 26085 = false ->
   schemaNameToTypeName u (encode [26085%N]) = "").
Proof. exact not_identifiers. Qed.
Print Assumptions C93_identifier_refuted.

(** What holds: a name that begins with a letter, a digit or a spelled operator
    becomes a capital followed by letters and digits. *)
Theorem C93_exported_partial : forall u c r,
  letterc c || digitc c || operator c = true -> all is_ascii (String c r) = true ->
  word (schemaNameToTypeName u (String c r)).
Proof. exact type_name_exported. Qed.
Print Assumptions C93_exported_partial.

Theorem C93_letters_partial : forall u n, all is_ascii n = true ->
  all alnum (schemaNameToTypeName u n) = true.
Proof. exact type_name_alnum. Qed.
Print Assumptions C93_letters_partial.

(** The exact result for ASCII names, and that every such name is covered. *)
Theorem C93_exact_partial : forall u ops rest w ps,
  all is_op ops = true -> op_start rest = false -> all is_ascii (ops ++ rest) = true ->
  (ops ++ rest)%string = (w ++ spell ps)%string -> all alnum w = true -> pieces ps ->
  schemaNameToTypeName u (ops ++ rest) = (prefix_spec ops rest ++ capital w ++ joined ps)%string.
Proof. exact type_name_exact. Qed.
Print Assumptions C93_exact_partial.

Theorem C93_readable_partial : forall n, exists ops rest w ps,
  n = (ops ++ rest)%string /\ n = (w ++ spell ps)%string /\
  all is_op ops = true /\ op_start rest = false /\ all alnum w = true /\ pieces ps.
Proof. exact readable. Qed.
Print Assumptions C93_readable_partial.

(** [SanitizeGoIdentity] never panics and keeps exported names. *)
Theorem C93_sanitize_partial : forall u s,
  (exists t, sanitizeGoIdentity u s = Ok t) /\ (word s -> sanitizeGoIdentity u s = Ok s).
Proof. exact sanitize_both. Qed.
Print Assumptions C93_sanitize_partial.

(** For ASCII, what it returns is an identifier that is no keyword and not
    predeclared; only the empty name stays empty. *)
Theorem C93_sanitized_partial : forall u c r t, all is_ascii (String c r) = true ->
  sanitizeGoIdentity u (String c r) = Ok t -> go_ident t /\ ~ In t go_reserved.
Proof. exact sanitized. Qed.
Print Assumptions C93_sanitized_partial.

Example C93_cases :
  schemaNameToTypeName ascii_only "foo-bar_baz" = "FooBarBaz" /\
  schemaNameToTypeName ascii_only "+1" = "Plus1" /\ schemaNameToTypeName ascii_only "1st" = "N1st" /\
  schemaNameToTypeName ascii_only "" = "Empty" /\ schemaNameToTypeName ascii_only "$" = "DollarSign" /\
  schemaNameToTypeName ascii_only "$ref" = "Ref" /\ schemaNameToTypeName ascii_only "a/b c" = "AbC" /\
  sanitizeGoIdentity ascii_only "type" = Ok "_type" /\ sanitizeGoIdentity ascii_only "1a b" = Ok "_a_b" /\
  word "FooBar" /\ pieces [("/"%char, "b"); (" "%char, "c")] /\ "a/b c" = ("a" ++ spell [("/"%char, "b"); (" "%char, "c")])%string.
Proof.
  do 9 (split; [vm_compute; reflexivity|]). split; [exists "F"%char, "ooBar"; auto|].
  split; [repeat constructor|reflexivity].
Qed.

(** *** C94 *)

(** Different names become equal Go names: two fields of one name in a struct. *)
Theorem C94_distinct_refuted : forall u,
  schemaNameToTypeName u "foo_bar" = schemaNameToTypeName u "fooBar" /\
  schemaNameToTypeName u "name" = schemaNameToTypeName u "Name" /\
  schemaNameToTypeName u "a b" = schemaNameToTypeName u "aB".
Proof. exact same_names. Qed.
Print Assumptions C94_distinct_refuted.

(** Names of letters and digits only differ unless they are equal up to the case
    of the first letter. *)
Theorem C94_plain_partial : forall u c r c' r',
  letterc c = true -> letterc c' = true -> all alnum r = true -> all alnum r' = true ->
  (schemaNameToTypeName u (String c r) = schemaNameToTypeName u (String c' r') <->
   r = r' /\ upc c = upc c').
Proof. exact plain_distinct. Qed.
Print Assumptions C94_plain_partial.

(** So lower camel case names that differ get Go names that differ. *)
Theorem C94_camel_partial : forall u c r c' r',
  lowerc c = true -> lowerc c' = true -> all alnum r = true -> all alnum r' = true ->
  schemaNameToTypeName u (String c r) = schemaNameToTypeName u (String c' r') ->
  String c r = String c' r'.
Proof. exact camel_distinct. Qed.
Print Assumptions C94_camel_partial.

Example C94_cases :
  schemaNameToTypeName ascii_only "fooBar" = "FooBar" /\ schemaNameToTypeName ascii_only "foobar" = "Foobar" /\
  lowerc "f" = true /\ all alnum "ooBar" = true.
Proof. vm_compute. auto. Qed.

(** *** C95 *)

(** A value can lose its constant. *)
Theorem C95_constants_refuted : forall u, exists vs m,
  NoDup vs /\ sanitizeEnumNames u vs vs = Ok m /\ In "A" vs /\ forall k, ~ In (k, "A") m.
Proof. exact constant_lost. Qed.
Print Assumptions C95_constants_refuted.

(** What holds: every constant stands for a value of the enum, and when no Go
    name is another one followed by digits every value has exactly one
    constant, named after the value and numbered from the second on. *)
Theorem C95_known_partial : forall u ns vs m k v,
  sanitizeEnumNames u ns vs = Ok m -> In (k, v) m -> In v vs.
Proof. exact enum_known. Qed.
Print Assumptions C95_known_partial.

Theorem C95_total_partial : forall u ns vs, exists m, sanitizeEnumNames u ns vs = Ok m.
Proof. exact enum_total. Qed.
Print Assumptions C95_total_partial.

Theorem C95_all_partial : forall u vs,
  NoDup vs -> (forall v, In v vs -> word (schemaNameToTypeName u v)) -> apart u vs ->
  exists m, sanitizeEnumNames u vs vs = Ok m /\ map snd m = vs /\
    map fst m = numbered [] (map (schemaNameToTypeName u) vs) /\
    NoDup (map fst m) /\ Forall word (map fst m).
Proof. exact enum_all. Qed.
Print Assumptions C95_all_partial.

(** In general: of the values whose name is new at their place, the constant of
    a name stands for the last one that gets it. *)
Theorem C95_exact_partial : forall u ns vs, exists m gs,
  sanitizeEnumNames u ns vs = Ok m /\
  Forall2 (fun p g => sanitizeGoIdentity u (schemaNameToTypeName u (fst p)) = Ok g)
    (first_named (names_of ns vs) vs) gs /\
  NoDup (map fst m) /\
  forall k v, In (k, v) m <->
    last_writes (combine (numbered [] gs) (map snd (first_named (names_of ns vs) vs))) k v.
Proof. exact enum_exact. Qed.
Print Assumptions C95_exact_partial.

Example C95_exact_case :
  first_named (names_of ["x"; "x"] ["p"; "q"; "r"; "x"]) ["p"; "q"; "r"; "x"] = [("x", "p"); ("r", "r")] /\
  numbered [] ["A"; "A"; "A1"] = ["A"; "A1"; "A1"] /\
  last_writes (combine (numbered [] ["A"; "A"; "A1"]) ["a"; "A"; "a1"]) "A1" "a1" /\
  ~ last_writes (combine (numbered [] ["A"; "A"; "A1"]) ["a"; "A"; "a1"]) "A1" "A".
Proof. exact exact_case. Qed.

Example C95_cases :
  sanitizeEnumNames ascii_only ["a"; "A"; "b-c"; "-"] ["a"; "A"; "b-c"; "-"] =
    Ok [("A", "a"); ("A1", "A"); ("BC", "b-c"); ("Minus", "-")] /\
  sanitizeEnumNames ascii_only ["x"] ["a"; "b"; "a"] = Ok [("X", "a"); ("B", "b"); ("A", "a")] /\
  numbered [] ["A"; "A"; "B"; "A"] = ["A"; "A1"; "B"; "A2"] /\ apart ascii_only ["a"; "A"].
Proof.
  do 3 (split; [vm_compute; reflexivity|]). exact (apart_a ascii_only).
Qed.

(** *** C96 *)

(** Every line of what is made of a description is a comment, whatever the text. *)
Theorem C96_commented : forall text prefix l, no_nl prefix = true ->
  stringToGoCommentWithPrefix text prefix <> "" ->
  In l (split_str (stringToGoCommentWithPrefix text prefix) newline) -> has_prefix l "// " = true.
Proof. exact comment_commented. Qed.
Print Assumptions C96_commented.

(** The lines of the text, whichever line ends it uses, in order and unchanged;
    the name comes first. *)
Theorem C96_text : forall text prefix, no_nl prefix = true -> blank text = false ->
  stringToGoCommentWithPrefix text prefix
  = String.concat newline (comment_lines prefix (drop_empty (lines_of text))).
Proof. exact comment_text. Qed.
Print Assumptions C96_text.

Theorem C96_blank : forall text prefix, blank text = true -> stringToGoCommentWithPrefix text prefix = "".
Proof. exact comment_blank. Qed.
Print Assumptions C96_blank.

(** A deprecation is always noted. *)
Theorem C96_deprecated : forall reason, no_nl reason = true ->
  Forall (fun c => c <> cr) (list_ascii_of_string reason) ->
  deprecationComment reason =
  if String.eqb reason "" then "// Deprecated:" else ("// Deprecated: " ++ reason)%string.
Proof. exact deprecated_comment. Qed.
Print Assumptions C96_deprecated.

Example C96_cases :
  stringToGoCommentWithPrefix ("a" ++ String cr (newline ++ "*/ b" ++ newline))%string "Foo"
    = ("// Foo a" ++ newline ++ "// */ b")%string /\
  stringToGoComment "  " = "" /\ lines_of ("a" ++ String cr (newline ++ "b"))%string = ["a"; "b"] /\
  deprecationComment "use x" = "// Deprecated: use x".
Proof. vm_compute. auto. Qed.
