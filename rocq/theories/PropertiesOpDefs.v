(** C131: the operations of a document ([OpDefs.v]). *)
From Coq Require Import Permutation Sorted.
From Verif Require Import Prelude Strings Version GenName GenNameProofs GenType Uri UriProofs OpDefs OpDefsProofs OpDefsWitness.
Local Open Scope string_scope.
Local Open Scope list_scope.

(** Every operation has one definition, in the order of paths and of methods for the
    same path, and each has the parameters of its path and its own, its own
    security or else that of the document, and the name its identifier, or its
    method and path, ask for. *)
Theorem C131_exact :
  forall P A D B R u (describe : list string -> P -> outcome (param_def D)) (bodies : string -> A -> outcome B)
         (responses : string -> A -> outcome R) doc out,
    operationDefinitions u describe bodies responses doc = Ok out -> NoDup (map fst (do_paths doc)) ->
    Permutation (map place_of out) (places (do_paths doc)) /\ StronglySorted in_order (map place_of out) /\
    (forall d, In d out -> exists item op id, In (d_path d, item) (do_paths doc) /\ In (d_method d, op) (pi_ops item) /\
       defined_as u describe bodies responses doc item op id d).
Proof. exact (fun P A D B R => @doc_defined P A D B R). Qed.
Print Assumptions C131_exact.

(** Every error has one of the documented causes, and says where it is. *)
Theorem C131_errors :
  forall P A D B R u (describe : list string -> P -> outcome (param_def D)) (bodies : string -> A -> outcome B)
         (responses : string -> A -> outcome R) doc e,
    operationDefinitions u describe bodies responses doc = Err e -> doc_error u describe bodies responses doc e.
Proof. exact (fun P A D B R => @doc_fails P A D B R). Qed.
Print Assumptions C131_errors.

(** If every operation can be defined by itself, all can be. *)
Theorem C131_total :
  forall P A D B R u (describe : list string -> P -> outcome (param_def D)) (bodies : string -> A -> outcome B)
         (responses : string -> A -> outcome R) doc,
    (forall p item, In (p, item) (do_paths doc) -> exists g, Forall2 (fun q x => describe [] q = Ok x) (pi_params item) g /\
       forall m op, In (m, op) (pi_ops item) -> exists d, define_op u describe bodies responses (do_security doc) p g m op = Ok d) ->
    exists out, operationDefinitions u describe bodies responses doc = Ok out.
Proof. exact (fun P A D B R => @doc_total P A D B R). Qed.
Print Assumptions C131_total.

(** In ASCII, whatever the identifier, the name is an exported Go name; and one
    that is such a name already is kept, so that different ones stay different. *)
Theorem C131_named :
  forall u m p given id, identified u m p given id ->
    (all is_ascii m = true -> all is_ascii p = true -> all is_ascii given = true -> word (toCamelCase u id)) /\
    (word given -> toCamelCase u id = given).
Proof. exact named. Qed.
Print Assumptions C131_named.

(** Refuted: different operations get different names. Two that give different
    identifiers, and two that give none, get the same one, without an error. *)
Theorem C131_once_refuted :
  forall u, exists (doc : document (param_def nat) unit) out x y x' y',
    operationDefinitions u (fun _ p => Ok p) (fun id _ => Ok id) (fun id _ => Ok id) doc = Ok out /\
    In x out /\ In y out /\ place_of x <> place_of y /\ d_id x = d_id y /\
    In x' out /\ In y' out /\ place_of x' <> place_of y' /\ d_id x' = d_id y' /\
    NoDup (filter (fun id => negb (String.eqb id "")) (given_ids doc)) /\
    given_at doc (place_of x) <> Some "" /\ given_at doc (place_of x') = Some "" /\ given_at doc (place_of y') = Some "".
Proof. exact same_names. Qed.
Print Assumptions C131_once_refuted.

(** Refuted: definitions say what has to be met. Either of two schemes and both of
    them are described in the same way. *)
Theorem C131_security_refuted :
  exists either both have, describeSecurityDefinition either = describeSecurityDefinition both /\
    met have either /\ ~ met have both.
Proof. exact same_security. Qed.
Print Assumptions C131_security_refuted.

Example C131_case :
  forall u, NoDup (map fst (do_paths shop)) /\
    operationDefinitions u (fun _ p => Ok p) (fun id _ => Ok id) (fun id _ => Ok id) shop = Ok
      [mkDef "GetShopItem" "GET" "/shop/{item}" [mkParam "item" "path" 1] [] [mkParam "page" "query" 3] [] [("key", [])] false "GetShopItem" "GetShopItem";
       mkDef "PutIt" "PUT" "/shop/{item}" [mkParam "item" "path" 1] [mkParam "x-a" "header" 2] [] [] [] true "PutIt" "PutIt";
       mkDef "N1Up" "POST" "/up" [] [] [] [] [("key", [])] false "N1Up" "N1Up"].
Proof. exact shop_case. Qed.
Example C131_errors_case :
  operationDefinitions ascii_names (fun _ (p : param_def nat) => Ok p) (fun id _ => Ok id) (fun id _ => Ok id)
    (mkDoc [("/{a}", mkPath [] [("GET", mkOperation "" [] None None tt)])] [])
    = Err (mkErr [] "path '/{a}' has 1 positional parameters, but spec has 0 declared") /\
  operationDefinitions ascii_names (fun _ (p : param_def nat) => Ok p) (fun id _ => Ok id) (fun id _ => Ok id)
    (mkDoc [("", mkPath [] [("GET", mkOperation "" [] None None tt)])] [])
    = Err (mkErr [] "error generating default OperationID for GET/: request path cannot be an empty string").
Proof. split; vm_compute; reflexivity. Qed.
