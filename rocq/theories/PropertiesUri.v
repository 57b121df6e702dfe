(** Paths with parameters (C125, C126). *)
From Coq Require Import Permutation.
From Verif Require Import Prelude Strings Version GenName Uri UriProofs.
Local Open Scope string_scope.
Local Open Scope list_scope.

(** *** C125 *)

(** Every path falls in one way into characters and parameters; the names of the
    parameters come in that order, and all forms of the path for the different
    routers have the other characters unchanged. *)
Theorem C125_one_way : forall uri, exists ps, reads uri ps /\ forall ps', reads uri ps' -> ps' = ps.
Proof. exact uri_reads. Qed.
Print Assumptions C125_one_way.

Theorem C125_exact : forall uri ps, reads uri ps ->
  orderedParamsFromUri uri = names_in ps /\
  swaggerUriToEchoUri uri = written_with (fun n => (":" ++ n)%string) ps /\
  swaggerUriToFiberUri uri = written_with (fun n => (":" ++ n)%string) ps /\
  swaggerUriToGinUri uri = written_with (fun n => (":" ++ n)%string) ps /\
  swaggerUriToChiUri uri = written_with (fun n => ("{" ++ n ++ "}")%string) ps /\
  swaggerUriToGorillaUri uri = written_with (fun n => ("{" ++ n ++ "}")%string) ps /\
  replacePathParamsWithStr uri = written_with (fun _ => "%s") ps.
Proof. exact uri_exact. Qed.
Print Assumptions C125_exact.

(** What was put together of parameters and text without opening braces falls
    into these. *)
Theorem C125_built : forall uri ps, built uri ps -> reads uri ps.
Proof. exact built_reads. Qed.
Print Assumptions C125_built.

(** The parameters of a path that names none twice: all that are declared, in the
    order of the path. *)
Theorem C125_sorted_partial : forall A path ps (l out : list (param_def A)), reads path ps -> NoDup (names_in ps) ->
  sortParamsByPath path l = Ok out -> Permutation l out /\ map pname out = names_in ps.
Proof. intros A. exact sort_permutation. Qed.
Print Assumptions C125_sorted_partial.

(** Any path: the result, and the text of both errors. *)
Theorem C125_sort_exact : forall A path ps (l : list (param_def A)), reads path ps ->
  (length (names_in ps) <> length l /\
   sortParamsByPath path l = Err (mkErr [] ("path '" ++ path ++ "' has " ++ itoa (length (names_in ps)) ++
     " positional parameters, but spec has " ++ itoa (length l) ++ " declared")%string)) \/
  (length (names_in ps) = length l /\
   ((exists out, Forall2 (first_named l) (names_in ps) out /\ sortParamsByPath path l = Ok out) \/
    (exists a n b, names_in ps = a ++ n :: b /\ (forall m, In m a -> exists p, In p l /\ pname p = m) /\
      (forall p, In p l -> pname p <> n) /\
      sortParamsByPath path l = Err (mkErr [] ("path '" ++ path ++ "' refers to parameter '" ++ n ++
        "', which doesn't exist in specification")%string)))).
Proof. intros A. exact sort_exact. Qed.
Print Assumptions C125_sort_exact.

(** A path that names a parameter twice makes a declared one disappear without an
    error. *)
Theorem C125_repeated_refuted : exists path (l out : list (param_def unit)), sortParamsByPath path l = Ok out /\
  NoDup (map pname l) /\ exists p, In p l /\ ~ In p out.
Proof. exact sort_refuted. Qed.
Print Assumptions C125_repeated_refuted.

(** Of all parameters only those in the path are asked for in it. *)
Theorem C125_path_only : forall A path (g l : list (param_def A)),
  exists k, those (fun p => pin p = "path") (g ++ l) k /\ pathParams path g l = sortParamsByPath path k.
Proof. intros A. exact path_params. Qed.
Print Assumptions C125_path_only.
Example C125_path_only_case :
  pathParams "/{id}" [mkParam "id" "path" 1] [mkParam "id" "query" 2; mkParam "q" "header" 3] = Ok [mkParam "id" "path" 1].
Proof. reflexivity. Qed.

(** The parameters of an operation are those of its path and its own one after the
    other, not their union: an operation cannot declare one of them again. *)
Theorem C125_override_refuted : exists path (g l : param_def nat), pname g = pname l /\ pin g = pin l /\
  reads path (map inl ["/"; "u"; "/"]%char ++ [inr (pname l)]) /\
  pathParams path [g] [] = Ok [g] /\ pathParams path [] [l] = Ok [l] /\ forall out, pathParams path [g] [l] <> Ok out.
Proof. exact override_refuted. Qed.
Print Assumptions C125_override_refuted.

Example C125_cases :
  orderedParamsFromUri "/path/{param1}/{.param2*}/{?param3}/{a{b}}" = ["param1"; "param2"; "param3"; "b"] /\
  swaggerUriToEchoUri "/p/{;id*}/x" = "/p/:id/x" /\ swaggerUriToChiUri "/p/{;id*}/x" = "/p/{id}/x" /\
  replacePathParamsWithStr "/p/{id}" = "/p/%s" /\
  sortParamsByPath "/{b}/{a}" [mkParam "a" "path" 1; mkParam "b" "path" 2] = Ok [mkParam "b" "path" 2; mkParam "a" "path" 1] /\
  sortParamsByPath "/{b}" [mkParam "a" "path" 1] = Err (mkErr [] "path '/{b}' refers to parameter 'b', which doesn't exist in specification") /\
  sortParamsByPath "/b" [mkParam "a" "path" 1] = Err (mkErr [] "path '/b' has 0 positional parameters, but spec has 1 declared") /\
  built "/{;id*}" [inl "/"%char; inr "id"].
Proof. do 7 (split; [vm_compute; reflexivity|]). exact built_case. Qed.

(** *** C126 *)

(** The elements of an escaped path without spaces are read as those of the path;
    elements in braces stay as they are. *)
Theorem C126_round_partial : forall es, es <> [] -> Forall (fun e => slashless e /\ ~ In " "%char (letters e)) es ->
  exists os, escapePathElements (slashes es) = slashes os /\ Forall slashless os /\
    Forall2 (fun e o => (braced e /\ o = e) \/ (~ braced e /\ decoded false o = Some e)) es os.
Proof. exact escape_round. Qed.
Print Assumptions C126_round_partial.

(** Any path: read as a query, the elements come back; read as a path, spaces have
    become plus signs. *)
Theorem C126_exact : forall es, es <> [] -> Forall slashless es ->
  exists os, escapePathElements (slashes es) = slashes os /\ Forall slashless os /\
    Forall2 (fun e o => (braced e /\ o = e) \/
      (~ braced e /\ decoded true o = Some e /\ decoded false o = Some (plussed e))) es os.
Proof. exact escape_exact. Qed.
Print Assumptions C126_exact.

(** Elements of letters, digits and [-_.~] stay as they are, and no others are
    in what is escaped, but percent and plus signs. *)
Theorem C126_only : forall es, es <> [] -> Forall slashless es ->
  exists os, escapePathElements (slashes es) = slashes os /\
    Forall2 (fun e o => (Forall (fun c => In c kept_chars) (letters e) -> o = e) /\
      (~ braced e -> Forall (fun c => In c ("%" :: "+" :: kept_chars)%char) (letters o))) es os.
Proof. exact escape_only. Qed.
Print Assumptions C126_only.

Theorem C126_space_refuted : exists e o, slashless e /\ ~ braced e /\ escapePathElements e = o /\ decoded false o <> Some e.
Proof. exact escape_refuted. Qed.
Print Assumptions C126_space_refuted.

Example C126_cases :
  escapePathElements "/a-b_c.d~e/A9" = "/a-b_c.d~e/A9" /\ escapePathElements "/a&b/{id}/é" = "/a%26b/{id}/%C3%A9" /\ escapePathElements "x y" = "x+y" /\
  decoded false "a%26b" = Some "a&b" /\ slashes [""; "a&b"; "{id}"] = "/a&b/{id}" /\ braced "{id}".
Proof. do 5 (split; [vm_compute; reflexivity|]). exact braced_case. Qed.
