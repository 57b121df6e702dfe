(** Proofs about TypeScript.v. *)
From Verif Require Import Prelude Strings Version VersionProofs Util UtilProofs GenName GenNameProofs TypeScript.
Local Open Scope string_scope.
Local Open Scope list_scope.

(** *** strings.Title on ASCII *)
Definition wordc (c : ascii) : bool := alnum c || Ascii.eqb c "_".
Fixpoint title_str (start : bool) (s : string) : string :=
  match s with
  | EmptyString => EmptyString
  | String c r => String (if start then upc c else c) (title_str (negb (wordc c)) r)
  end.

Lemma sep_ascii u sp c : is_ascii c = true -> title_sep u sp (N_of_ascii c) = negb (wordc c).
Proof.
  unfold is_ascii, title_sep, wordc, alnum, upperc, lowerc, digitc. intros ->. f_equal.
  assert ((N_of_ascii c =? 95)%N = Ascii.eqb c "_") as ->.
  { destruct (Ascii.eqb_spec c "_") as [->|K]; [reflexivity|]. apply N.eqb_neq. intros E. apply K.
    rewrite <- (ascii_N_embedding c), E. reflexivity. }
  destruct (a_upper _), (a_lower _), (a_digit _), (Ascii.eqb _ _); reflexivity.
Qed.

Lemma title_rune u tt c : is_ascii c = true ->
  encode_rune (to_title u tt (N_of_ascii c)) = String (upc c) "".
Proof.
  unfold is_ascii, to_title, to_upper, upc, lowerc. intros H. rewrite H.
  destruct (a_lower (N_of_ascii c)) eqn:E; unfold encode_rune.
  - apply within_iff in E. assert ((N_of_ascii c - 32 <? 128)%N = true) as -> by (apply N.ltb_lt; lia).
    reflexivity.
  - rewrite H. unfold enc. rewrite ascii_N_embedding. reflexivity.
Qed.

Lemma keep_rune c : is_ascii c = true -> encode_rune (N_of_ascii c) = String c "".
Proof.
  unfold is_ascii, encode_rune. intros ->. unfold enc. rewrite ascii_N_embedding. reflexivity.
Qed.

Lemma title_from_ascii u sp tt : forall s p, all is_ascii s = true ->
  encode (title_from u sp tt p (codes s)) = title_str (title_sep u sp p) s.
Proof.
  induction s as [|c r IH]; intros p H; [reflexivity|]. cbn in H. apply andb_true_iff in H as [H1 H2].
  cbn [codes title_from encode title_str]. rewrite IH by exact H2. rewrite (sep_ascii u sp c H1).
  destruct (title_sep u sp p); [rewrite title_rune by exact H1|rewrite keep_rune by exact H1]; reflexivity.
Qed.

Lemma title_ascii u sp tt s : all is_ascii s = true -> title u sp tt s = title_str true s.
Proof.
  intros H. unfold title. rewrite (runes_ascii s H). rewrite title_from_ascii by exact H. reflexivity.
Qed.

(** *** Identifiers (their ASCII part) *)
Definition ident_start (c : ascii) : bool := letterc c || Ascii.eqb c "_" || Ascii.eqb c "$".
Definition ident_rest (c : ascii) : bool := ident_start c || digitc c.
Definition ts_ident (s : string) : bool :=
  match s with EmptyString => false | String c r => ident_start c && all ident_rest r end.

Lemma letter_upc c : letterc (upc c) = letterc c.
Proof.
  unfold upc. destruct (lowerc c) eqn:E; [|reflexivity]. unfold letterc. rewrite E, orb_true_r.
  pose proof (upc_upper c E) as Q. unfold upc in Q. rewrite E in Q. rewrite Q. reflexivity.
Qed.

Lemma upc_other c : letterc c = false -> upc c = c.
Proof. unfold upc, letterc. intros H. apply orb_false_iff in H as [_ ->]. reflexivity. Qed.

Lemma ident_start_upc c : ident_start (upc c) = ident_start c.
Proof.
  unfold ident_start. rewrite letter_upc. destruct (letterc c) eqn:E; [reflexivity|].
  rewrite (upc_other c E). reflexivity.
Qed.

Lemma ident_rest_upc c : ident_rest (upc c) = ident_rest c.
Proof.
  unfold ident_rest. rewrite ident_start_upc. destruct (letterc c) eqn:E.
  - unfold ident_start. rewrite E. reflexivity.
  - rewrite (upc_other c E). reflexivity.
Qed.

Lemma title_rest : forall s b, all ident_rest (title_str b s) = all ident_rest s.
Proof.
  induction s as [|c r IH]; intros b; [reflexivity|]. cbn [title_str all]. rewrite IH.
  destruct b; [rewrite ident_rest_upc|]; reflexivity.
Qed.

Lemma title_ident u sp tt s : all is_ascii s = true -> ts_ident (title u sp tt s) = ts_ident s.
Proof.
  intros H. rewrite (title_ascii u sp tt s H). destruct s as [|c r]; [reflexivity|].
  cbn [title_str ts_ident]. rewrite ident_start_upc, title_rest. reflexivity.
Qed.

Lemma title_word_rest : forall r, all wordc r = true -> title_str false r = r.
Proof.
  induction r as [|c r IH]; intros H; [reflexivity|]. cbn in H. apply andb_true_iff in H as [H1 H2].
  cbn [title_str]. rewrite H1. cbn [negb]. rewrite (IH H2). reflexivity.
Qed.

Lemma wordc_ascii c : wordc c = true -> is_ascii c = true.
Proof.
  unfold wordc, is_ascii, alnum, upperc, lowerc, digitc, a_upper, a_lower, a_digit. intros H.
  destruct (Ascii.eqb_spec c "_") as [E|_]; [subst c; reflexivity|]. rewrite orb_false_r in H.
  apply orb_true_iff in H as [H|H]; [apply orb_true_iff in H as [H|H]|]; apply within_iff in H;
    apply N.ltb_lt; lia.
Qed.

Lemma all_imp (p q : ascii -> bool) : (forall c, p c = true -> q c = true) ->
  forall s, all p s = true -> all q s = true.
Proof.
  intros H. induction s as [|c r IH]; intros A; [reflexivity|]. cbn in *.
  apply andb_true_iff in A as [A1 A2]. rewrite (H c A1), (IH A2). reflexivity.
Qed.

(** A name of one word only has its first letter raised. *)
Lemma title_word u sp tt c r : all wordc (String c r) = true ->
  title u sp tt (String c r) = String (upc c) r.
Proof.
  intros H. rewrite title_ascii by (apply (all_imp wordc is_ascii wordc_ascii), H).
  cbn in H. apply andb_true_iff in H as [H1 H2]. cbn [title_str]. rewrite H1. cbn [negb].
  rewrite (title_word_rest r H2). reflexivity.
Qed.

(** *** GenerateTypes *)
Section T.
Context {C Node : Type}.
Variable dflt : C.
Variable ttl : string -> string.

Definition the_ts_config (cfg : option (ts_config (C:=C))) : ts_config :=
  match cfg with Some c => c | None => mkTsc None false "" false end.
Definition the_root (e : ts_env (C:=C) (Node:=Node)) (c : ts_config (C:=C)) : string :=
  if String.eqb (tsc_root c) "" then ttl (ts_name e) else tsc_root c.
Definition the_cuetsy (c : ts_config (C:=C)) : C := match tsc_cuetsy c with Some x => x | None => dflt end.

(** What a file holds. *)
Inductive ts_file (e : ts_env (C:=C) (Node:=Node)) (c : ts_config) : outcome (list Node) -> Prop :=
| tf_children_err x : ts_children e (the_cuetsy c) = Err x ->
    ts_file e c (Err (mkErr (e_marks x)
      ("generating TS for child elements of schema failed: " ++ e_text x)%string))
| tf_group ns : ts_children e (the_cuetsy c) = Ok ns -> tsc_group c = true -> ts_file e c (Ok ns)
| tf_root_err ns x : ts_children e (the_cuetsy c) = Ok ns -> tsc_group c = false ->
    ts_single e (the_root e c) (tsc_alias c) = Err x ->
    ts_file e c (Err (mkErr (e_marks x) ("generating TS for schema root failed: " ++ e_text x)%string))
| tf_type ns t : ts_children e (the_cuetsy c) = Ok ns -> tsc_group c = false ->
    ts_single e (the_root e c) (tsc_alias c) = Ok (t, None) -> ts_file e c (Ok (ns ++ [t]))
| tf_type_defaults ns t d : ts_children e (the_cuetsy c) = Ok ns -> tsc_group c = false ->
    ts_single e (the_root e c) (tsc_alias c) = Ok (t, Some d) -> ts_file e c (Ok (ns ++ [t; d])).

Lemma ts_generate_spec (e : ts_env (Node:=Node)) cfg :
  (forall c, exists x, ts_children e c = Ok x \/ exists er, ts_children e c = Err er) ->
  (forall n a, exists x, ts_single e n a = Ok x \/ exists er, ts_single e n a = Err er) ->
  ts_file e (the_ts_config cfg) (fst (ts_generate dflt ttl e cfg)).
Proof.
  intros T1 T2. unfold ts_generate, fst. cbn [ts_defaults tsc_cuetsy tsc_group tsc_root tsc_alias].
  change (match cfg with Some c => c | None => no_ts_config end) with (the_ts_config cfg).
  set (c := the_ts_config cfg). change (match tsc_cuetsy c with Some x => x | None => dflt end) with (the_cuetsy c).
  change (if String.eqb (tsc_root c) "" then ttl (ts_name e) else tsc_root c) with (the_root e c).
  destruct (T1 (the_cuetsy c)) as [ns [E|[er E]]].
  - rewrite E. cbn [ts_errorf bind]. destruct (tsc_group c) eqn:G; cbn [negb]; [apply tf_group; assumption|].
    destruct (T2 (the_root e c) (tsc_alias c)) as [[t o] [E2|[er E2]]]; rewrite E2; cbn [ts_errorf bind fst snd].
    + destruct o as [d|]; [eapply tf_type_defaults|eapply tf_type]; eassumption.
    + eapply tf_root_err; eassumption.
  - rewrite E. cbn [ts_errorf bind]. apply tf_children_err, E.
Qed.

Lemma ts_left (e : ts_env (Node:=Node)) cfg : snd (ts_generate dflt ttl e cfg) =
  match cfg with
  | None => None
  | Some c => Some (mkTsc (Some (the_cuetsy c)) (tsc_group c) (the_root e c) (tsc_alias c))
  end.
Proof. destruct cfg as [c|]; reflexivity. Qed.

Lemma ts_group (e : ts_env (Node:=Node)) c c' : tsc_group c = true -> tsc_group c' = true -> the_cuetsy c = the_cuetsy c' ->
  fst (ts_generate dflt ttl e (Some c)) = fst (ts_generate dflt ttl e (Some c')).
Proof.
  intros G G' H. unfold ts_generate, fst. cbn [ts_defaults tsc_cuetsy tsc_group tsc_root tsc_alias].
  rewrite G, G'. cbn [negb]. unfold the_cuetsy in H. rewrite H. reflexivity.
Qed.

(** A second call with the configuration the first left behind. *)
Lemma ts_again (e e' : ts_env (Node:=Node)) c :
  tsc_group c = true \/ tsc_root c <> "" \/ ttl (ts_name e) = ttl (ts_name e') \/ ttl (ts_name e) = "" ->
  fst (ts_generate dflt ttl e' (snd (ts_generate dflt ttl e (Some c)))) =
  fst (ts_generate dflt ttl e' (Some c)).
Proof.
  intros H. rewrite ts_left. unfold ts_generate, fst.
  cbn [ts_defaults tsc_cuetsy tsc_group tsc_root tsc_alias]. unfold the_cuetsy, the_root.
  destruct H as [->|[H|[H|H]]]; [reflexivity| | |].
  - destruct (String.eqb_spec (tsc_root c) "") as [K|K]; [congruence|].
    destruct (String.eqb_spec (tsc_root c) ""); [congruence|]. reflexivity.
  - rewrite H. destruct (String.eqb_spec (tsc_root c) "") as [K|K].
    + destruct (String.eqb_spec (ttl (ts_name e')) ""); reflexivity.
    + destruct (String.eqb_spec (tsc_root c) ""); [congruence|]. reflexivity.
  - rewrite H. destruct (String.eqb_spec (tsc_root c) "") as [K|K]; [reflexivity|].
    destruct (String.eqb_spec (tsc_root c) ""); [congruence|]. reflexivity.
Qed.

Lemma ts_nil (e e' : ts_env (Node:=Node)) : snd (ts_generate dflt ttl e None) = None /\
  fst (ts_generate dflt ttl e' (snd (ts_generate dflt ttl e None))) =
  fst (ts_generate dflt ttl e' None).
Proof. split; reflexivity. Qed.
End T.

(** Two lineages with one configuration. *)
Definition names_env (n : string) : ts_env (C:=unit) (Node:=string) :=
  mkTse n (fun _ => Ok []) (fun root _ => Ok (root, None)).

Lemma ts_reuse_wrong u sp :
  exists c, fst (ts_generate tt (title u sp (fun r => r)) (names_env "pets")
              (snd (ts_generate tt (title u sp (fun r => r)) (names_env "cars") (Some c)))) = Ok ["Cars"] /\
    fst (ts_generate tt (title u sp (fun r => r)) (names_env "pets") (Some c)) = Ok ["Pets"].
Proof. exists (mkTsc None false "" false). split; reflexivity. Qed.
