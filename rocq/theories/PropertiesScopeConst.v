(** C139: the constants of the security schemes. *)
From Verif Require Import Prelude Strings Util GenName GenNameProofs GenType GoJsonSpec GenUnionFacts
  ScopeConst ScopeConstProofs.
Local Open Scope string_scope.
Local Open Scope list_scope.

(** Generating never fails, and the constant each security definition of an
    operation uses is declared. *)
Theorem C139_declared : forall u ops, exists cs, generateConstants u ops = Ok cs /\
  forall op def, In op ops -> In def op -> exists n, scopesUsed u def = Ok n /\ In n (map fst cs).
Proof. exact declared. Qed.
Print Assumptions C139_declared.

(** Each constant declared is one an operation uses, and holds the sanitized name of
    its scheme. *)
Theorem C139_used : forall u ops cs n v, generateConstants u ops = Ok cs -> In (n, v) cs ->
  exists op def t, In op ops /\ In def op /\ sanitizeGoIdentity u (fst def) = Ok t /\
    scopesUsed u def = Ok n /\ v = (t ++ ".Scopes")%string.
Proof. exact only_used. Qed.
Print Assumptions C139_used.

(** No two constants hold the same key. *)
Theorem C139_keys : forall u ops cs, generateConstants u ops = Ok cs -> NoDup (map snd cs).
Proof. exact values_apart. Qed.
Print Assumptions C139_keys.

(** The constants come in the order of the sanitized names, whatever the order of the
    map. *)
Theorem C139_order : forall u ops cs, generateConstants u ops = Ok cs ->
  exists ns, increasing ns /\ map snd cs = map (fun n => (n ++ ".Scopes")%string) ns.
Proof. exact in_order. Qed.
Print Assumptions C139_order.

(** A sanitized name is sanitized to itself, in any alphabet. *)
Theorem C139_sanitized : forall u s t, sanitizeGoIdentity u s = Ok t -> sanitizeGoIdentity u t = Ok t.
Proof. exact sanitize_again. Qed.
Print Assumptions C139_sanitized.

(** Missing: other names. With names of letters and digits that start with an upper
    case letter no constant is declared twice, and each scheme has its own. *)
Theorem C139_apart_partial : forall u ops cs, (forall op def, In op ops -> In def op -> word (fst def)) ->
  generateConstants u ops = Ok cs ->
  NoDup (map fst cs) /\
  forall p, (exists op def, In op ops /\ In def op /\ fst def = p) <->
    In ((p ++ "Scopes")%string, (p ++ ".Scopes")%string) cs.
Proof. exact names_apart. Qed.
Print Assumptions C139_apart_partial.

(** Two schemes whose names differ in the case of the first letter declare a constant
    twice. *)
Theorem C139_twice_refuted : exists u ops cs, generateConstants u ops = Ok cs /\ ~ NoDup (map fst cs).
Proof. exact twice. Qed.
Print Assumptions C139_twice_refuted.

(** Two schemes can share one constant, and so the key of their scopes. *)
Theorem C139_shared_refuted : exists u a b cs n, fst a <> fst b /\ snd a <> snd b /\
  generateConstants u [[a; b]] = Ok cs /\ scopesUsed u a = Ok n /\ scopesUsed u b = Ok n /\ map fst cs = [n].
Proof. exact shared. Qed.
Print Assumptions C139_shared_refuted.

Example C139_example :
  generateConstants plain_unicode [[("OAuth2", ["read"]); ("ApiKey", [])]; []; [("ApiKey", ["write"])]]
  = Ok [("ApiKeyScopes", "ApiKey.Scopes"); ("OAuth2Scopes", "OAuth2.Scopes")] /\
  generateConstants plain_unicode [[("api-key", []); ("type", [])]]
  = Ok [("_typeScopes", "_type.Scopes"); ("Api_keyScopes", "api_key.Scopes")] /\
  scopesUsed plain_unicode ("api-key", []) = Ok "Api_keyScopes" /\
  scopesUsed plain_unicode ("type", []) = Ok "_typeScopes".
Proof. repeat split; reflexivity. Qed.
Example C139_words : forall op def, In op [[("OAuth2", ["read"]); ("ApiKey", [])]; [("ApiKey", ["write"])]] -> In def op ->
  word (fst def).
Proof.
  intros op def I J. assert (Q : fst def = "OAuth2" \/ fst def = "ApiKey").
  { cbn in I. destruct I as [<-|[<-|[]]]; cbn in J; intuition (subst; auto). }
  destruct Q as [-> | ->]; do 2 eexists; (split; [reflexivity|split; reflexivity]).
Qed.
