(** Proofs about GenFile.v and GenUnionSpec.v: whole files. *)
From Verif Require Import Prelude Strings Gocode GocodeProofs GocodeFacts Version Util UtilProofs GenName GenNameProofs GenSpellProofs
  GenCommentProofs GenType GenTypeSpec GenTypeProofs GenDeclProofs GenEnumProofs GenTypeFacts GoJson GoJsonSpec GoJsonProofs GoJsonFacts
  GenFile GenUnionSpec GenUnionProofs.
Local Open Scope string_scope.
Local Open Scope list_scope.
Local Notation decl := GenTypeSpec.decl.

(** *** Order *)

Lemma insert_skip {A} (x : string * A) l : sorted (map fst l) -> forall p : string * A -> bool,
  filter p (insert x l) = if p x then insert x (filter p l) else filter p l.
Proof.
  induction l as [|y l IH]; intros S0 p; [cbn; destruct (p x); reflexivity|].
  cbn [map] in S0. inversion S0 as [|? ? H1 H2]; subst. cbn [insert].
  destruct (str_leb (fst x) (fst y)) eqn:E.
  - cbn [filter]. destruct (p x) eqn:PX; [|reflexivity]. destruct (p y) eqn:PY; [cbn [insert]; rewrite E; reflexivity|].
    assert (L : forall z, In z (filter p l) -> str_leb (fst x) (fst z) = true).
    { intros z I. apply filter_In in I. apply (leb_trans _ (fst y)); [exact E|]. apply H1, in_map, I. }
    destruct (filter p l) as [|z r]; [reflexivity|]. cbn [insert]. rewrite (L z (or_introl eq_refl)). reflexivity.
  - cbn [filter]. rewrite (IH H2 p). destruct (p y) eqn:PY; destruct (p x) eqn:PX; try reflexivity.
    cbn [insert]. rewrite E. reflexivity.
Qed.

Lemma by_key_filter {A} (p : string * A -> bool) l : by_key (filter p l) = filter p (by_key l).
Proof.
  induction l as [|x l IH]; [reflexivity|]. change (by_key (x :: l)) with (insert x (by_key l)).
  rewrite insert_skip by apply by_key_sorted. cbn [filter]. destruct (p x); [|exact IH].
  change (by_key (x :: filter p l)) with (insert x (by_key (filter p l))). rewrite IH. reflexivity.
Qed.

Lemma flat_filter {A B} (f : A -> list B) p l : flat_map f (filter p l) = flat_map (fun x => if p x then f x else []) l.
Proof. induction l as [|x l IH]; [reflexivity|]. cbn [filter flat_map]. destruct (p x); [cbn [flat_map]|]; rewrite IH; reflexivity. Qed.

Section Doc.
Variable u : unicode.
Variable env : string -> schema.
Variable np : bool.
Variable l : list (string * sref).
Let env' := blur_env env.
Let D := doc_decls u env l.
Let D' := doc_decls u env' (blur_doc env l).

Hypothesis OK : doc_ok l.
Hypothesis FIT : forall p, In p l -> fits_component env p.
Hypothesis ENV : forall n r, In (n, r) l -> env (ref_to n) = value env r.
Hypothesis REFS : forall p q, In p l -> In q (refs_ref (snd p)) -> exists n, q = ref_to n /\ In n (map fst l).

Definition top_decl (e : string -> schema) (p : string * sref) : decl :=
  (schemaNameToTypeName u (fst p), fst p, b_desc (s_base (value e (snd p))), alias_of (snd p), top_constants u (snd p), ty u e [fst p] (snd p)).
Lemma doc_decls_eq e m : doc_decls u e m = flat_map (fun p => top_decl e p :: inner_defs u e true [fst p] (snd p)) (by_key m).
Proof. reflexivity. Qed.

Lemma raw_union t : raw t = true -> snd (methods t) = true.
Proof. destruct t as [| | | | |[|] [|] []]; try discriminate; reflexivity. Qed.

(** The names of unions. *)
Variable ex : list string.
Hypothesis EX : forall d, In d D -> fate ex (raw (dty d)) (dname d).
Hypothesis HB : forall n, In n builtins -> mem n ex = false.

Lemma simple_good n : forall r q, depth_ref r <= n -> simple_ref r -> In q (refs_ref r) -> good_ref q.
Proof.
  induction n as [|n IH]; intros r q L S1 I; [pose proof (depth_pos r); lia|].
  destruct r as [r|[b ps it ad al an on]]; [destruct I as [<-|[]]; exact S1|].
  cbn [depth_ref depth] in L. cbn [simple_ref simple] in S1.
  destruct S1 as [-> [HAN [HON [HI [HA [HP HT]]]]]]. rewrite simple_props in HP. rewrite simple_elements in HAN, HON.
  cbn [refs_ref refs] in I. rewrite !in_app_iff in I. destruct I as [I|[I|[I|[I|I]]]].
  - apply in_flat_map in I. destruct I as [p [I J]]. pose proof (depth_props ps p I). apply (IH (snd p)); auto; lia.
  - destruct it as [r|]; [|destruct I]. apply (IH r); auto; lia.
  - destruct ad as [r|]; [|destruct I]. apply (IH r); auto; lia.
  - destruct an as [la|]; [|destruct I]. apply in_flat_map in I. destruct I as [r [I J]].
    pose proof (depth_elements la r I). pose proof (HAN r I). apply (IH r); auto; lia.
  - destruct on as [la|]; [|destruct I]. apply in_flat_map in I. destruct I as [r [I J]].
    pose proof (depth_elements la r I). pose proof (HON r I). apply (IH r); auto; lia.
Qed.

Lemma top_raw p : In p l -> raw (ty u env [fst p] (snd p)) = match snd p with Inl s => is_union s | Ref _ => false end.
Proof.
  intros I. pose proof (FIT p I) as F. unfold fits_component in F. destruct (snd p) as [q|s]; [reflexivity|].
  apply (raw_body u env [fst p] s false Field F).
Qed.

Lemma top_in p : In p l -> In (top_decl env p) D.
Proof. intros I. apply in_flat_map. exists p. split; [apply by_key_in, I|left; reflexivity]. Qed.
Lemma inner_in p d : In p l -> In d (inner_defs u env true [fst p] (snd p)) -> In d D.
Proof. intros I J. apply in_flat_map. exists p. split; [apply by_key_in, I|right; exact J]. Qed.

Lemma refs_ok p : In p l -> refs_fate u env ex (refs_ref (snd p)).
Proof.
  intros I q J. destruct (REFS p q I J) as [n [-> N]]. apply in_map_iff in N. destruct N as [[n' r] [E N]]. cbn [fst] in E. subst n'.
  destruct (OK p I) as [_ S0]. destruct (simple_good (depth_ref (snd p)) (snd p) _ (le_n _) S0 J) as [m [E [_ C]]].
  assert (m = n) by (unfold ref_to in E; injection E as E; congruence). subst m.
  rewrite (ref_name_of u n C). pose proof (EX _ (top_in _ N)) as X. cbn [top_decl dty dname fst snd] in X.
  pose proof (top_raw _ N) as R. cbn [fst snd] in R. rewrite R in X. rewrite (ENV n r N).
  pose proof (FIT _ N) as F. unfold fits_component in F. cbn [snd] in F. destruct r as [q|s]; [cbn [value]; rewrite F; exact X|exact X].
Qed.

Lemma alias_blur s : is_union s = false -> alias_of (Inl (blur env s)) = alias_of (Inl s).
Proof.
  destruct s as [b ps it ad al an on]. rewrite blur_eq. intros ->. cbn [alias_of]. unfold structlike, more_of.
  cbn [s_base s_props s_anyOf s_oneOf s_addl]. rewrite nonempty_map, !hollow_list. destruct ad; reflexivity.
Qed.

Lemma top_alive p : In p l -> alive (top_decl env p) = stays p.
Proof.
  intros I. unfold alive, dead, stays. cbn [top_decl dty djson fst snd]. rewrite (top_raw p I).
  destruct (OK p I) as [L _]. destruct (String.eqb_spec (fst p) ""); [rewrite e in L; discriminate|]. cbn [andb].
  destruct (snd p); [reflexivity|]. rewrite orb_false_r. reflexivity.
Qed.

Theorem doc_left : map (passed np ex) (filter alive D) = map (written np) D'.
Proof.
  unfold D, D'. rewrite !doc_decls_eq. unfold blur_doc.
  rewrite (by_key_map (fun p => blur_ref env (snd p)) (filter (stays) l)), by_key_filter.
  assert (X : forall (f : string * sref -> list decl) (g : string * sref -> string * sref) m, flat_map f (map g m) = flat_map (fun x => f (g x)) m).
  { intros f g m. induction m as [|x m IH]; [reflexivity|]. cbn [map flat_map]. rewrite IH. reflexivity. }
  rewrite X, flat_filter, filter_flat, !map_flat. apply flat_map_ext_in. intros p I0.
  assert (I : In p l) by (apply by_key_in; exact I0). clear I0 X.
  destruct (OK p I) as [L S0]. pose proof (FIT p I) as F. unfold fits_component in F.
  pose proof (refs_ok p I) as HR.
  assert (HD : defs_fate ex (inner_defs u env true [fst p] (snd p))).
  { intros d J. apply EX, (inner_in p d I J). }
  assert (FR : fits_ref env false Field (snd p)) by (destruct (snd p); [exact Logic.I|exact F]).
  pose proof (inner_left u env np ex HB (depth_ref (snd p)) (snd p) false Field [fst p] (le_n _) L S0 FR HD HR) as IN.
  cbn [filter]. rewrite (top_alive p I). unfold left_of in IN. cbn [negb] in IN. unfold stays.
  destruct (snd p) as [q|s] eqn:R.
  - cbn [map fst snd]. rewrite blur_q, F. cbn [top_decl fst snd]. f_equal. unfold passed, written, top_decl.
    cbn [fst snd dty]. rewrite R. cbn [ty value alias_of top_constants unptr].
    assert (B : b_desc (s_base (env' q)) = b_desc (s_base (env q))).
    { pose proof (blur_flags env (env q)) as X. injection X. auto. }
    rewrite B. f_equal. destruct (id_form (ref_name u q)) as [[x [y E]]|E]; rewrite E; reflexivity.
  - destruct (is_union s) eqn:U; cbn [negb].
    + rewrite IN. rewrite blur_inl. destruct s as [b ps it ad al an on]. rewrite blur_eq, U. rewrite inner_any. reflexivity.
    + cbn [map fst snd]. rewrite IN. f_equal. unfold passed, written, top_decl. cbn [fst snd dty]. rewrite R, blur_inl.
      cbn [ty value]. rewrite (alias_blur s U). cbn [top_constants]. rewrite (blur_base env s U). f_equal.
      apply (body_pass_top u env np ex HB s false [fst p] S0 U F HD HR).
Qed.
End Doc.

(** *** Files *)

(** Names that are no builtin types and not qualified. *)
Definition name_char (c : ascii) : bool := negb (Ascii.eqb c ".") && negb (Ascii.eqb c " ") && negb (Ascii.eqb c "010").
Definition go_name (n : string) : Prop := all name_char n = true /\ ~ In n builtins.

Definition comment_of (d : decl) : list string := comment_lines (dname d) (djson d) (ddesc d).

(** Only the comments of elements of unions look like that. *)
Definition comment_ok (d : decl) : Prop :=
  djson d <> "" \/ ddesc d <> "" -> forall c cs, comment_of d = c :: cs -> has_suffix c "defines model for ." = false.

(** What is left of a file. *)
Definition type_row (np : bool) (d : decl) : Gocode.decl :=
  DGen (comment_of d) [SType (dname d) (go_of (unptr np (dty d)))].
Definition const_row (d : decl) : list Gocode.decl :=
  match snd (fst d) with
  | [] => []
  | c => [DGen [("// Defines values for " ++ dname d ++ ".")%string]
            (map (fun kv => SValue [(dname d ++ fst kv)%string] (Some (TIdent (dname d)))) (by_key c))]
  end.
Definition import_rows (imports : list string) : list Gocode.decl :=
  match imports with [] => [] | _ => [DGen [] (map SImport imports)] end.

Lemma dot_free n : all name_char n = true -> split_str n "." = [n].
Proof.
  unfold split_str. induction n as [|c r IH]; [reflexivity|]. cbn [all]. intros H. apply andb_true_iff in H. destruct H as [H1 H2].
  unfold name_char in H1. apply andb_true_iff in H1. destruct H1 as [H1 _].
  apply andb_true_iff in H1. destruct H1 as [H1 _]. apply negb_true_iff in H1. cbn [split_aux].
  assert (P : String.prefix "." (String c r) = false).
  { cbn [String.prefix]. destruct (ascii_dec "." c) as [<-|]; [discriminate|reflexivity]. }
  rewrite P, (IH H2). reflexivity.
Qed.
Lemma no_dot n : go_name n -> go_of (GId n) = TIdent n.
Proof. intros [A _]. cbn [go_of]. rewrite (dot_free n A). reflexivity. Qed.

Lemma list_app a b : list_ascii_of_string (a ++ b) = list_ascii_of_string a ++ list_ascii_of_string b.
Proof. induction a as [|c a IH]; [reflexivity|]. cbn [append list_ascii_of_string app]. rewrite IH. reflexivity. Qed.
Lemma const_comment n : go_name n -> has_suffix ("// Defines values for " ++ n ++ ".") "defines model for ." = false.
Proof.
  intros [A _]. destruct (has_suffix _ _) eqn:E; [|reflexivity]. exfalso. apply has_suffix_spec in E. destruct E as [q E].
  apply (f_equal list_ascii_of_string) in E. rewrite !list_app in E.
  change (list_ascii_of_string "defines model for .") with (list_ascii_of_string "defines model for " ++ ["."%char]) in E.
  change (list_ascii_of_string ".") with ["."%char] in E. rewrite !app_assoc in E. apply app_inj_tail in E. destruct E as [E _].
  assert (B : forall c, In c (list_ascii_of_string n) -> c <> " "%char).
  { clear E. revert A. induction n as [|c r IH]; [intros _ c []|]. cbn [all list_ascii_of_string]. intros H. apply andb_true_iff in H.
    destruct H as [H1 H2]. intros d [<-|I]; [|apply IH; assumption]. intros ->. discriminate. }
  destruct (list_ascii_of_string n) as [|x r] using rev_ind.
  - rewrite app_nil_r in E.
    assert (X : has_suffix "// Defines values for " "defines model for " = true).
    { apply has_suffix_spec. exists q. rewrite <- (string_of_list_ascii_of_string "// Defines values for "), E.
      rewrite <- list_app. apply string_of_list_ascii_of_string. }
    discriminate.
  - change (list_ascii_of_string "defines model for ") with (list_ascii_of_string "defines model for" ++ [" "%char]) in E.
    rewrite !app_assoc in E. apply app_inj_tail in E. destruct E as [_ E]. apply (B x); [|exact E]. apply in_app_iff. right. left. reflexivity.
Qed.

Lemma element_comment n : go_name n -> nameless (split_str ("// " ++ n ++ " defines model for " ++ "" ++ ".") newline) = true.
Proof.
  intros [A _]. rewrite split_no_nl.
  - cbn [nameless]. apply has_suffix_spec. exists ("// " ++ n ++ " ")%string. rewrite !str_app_assoc. reflexivity.
  - unfold no_nl. rewrite !all_app. rewrite (all_impl name_char _ n); [reflexivity| |exact A].
    intros c H. unfold name_char in H. apply andb_true_iff in H. apply H.
Qed.

Lemma view_fields d (e : decl) : view d = sview e ->
  fst (fst d) = dname e /\ snd (fst d) = djson e /\ g_desc (snd d) = ddesc e /\ g_enum (snd d) = snd (fst e) /\
  typeDecl (snd d) = render (dty e) /\ (g_has (snd d), nonempty (g_union (snd d))) = methods (dty e).
Proof.
  destruct d as [[n j] g], e as [[[[[n' j'] dd] a] c] t]. unfold view, sview, dname, djson, ddesc, dty. cbn [fst snd].
  intros H. injection H as H1 H2 H3 H4 H5 H6 H7 H8. repeat split; assumption.
Qed.

Lemma views_in (ts : list (string * string * gsch)) (ds : list decl) : map view ts = map sview ds ->
  (forall d, In d ts -> exists e, In e ds /\ view d = sview e) /\ (forall e, In e ds -> exists d, In d ts /\ view d = sview e).
Proof.
  revert ds. induction ts as [|d ts IH]; intros [|e ds] H; try discriminate; [split; intros x []|].
  cbn [map] in H. injection H as H1 H. destruct (IH ds H) as [A B]. split.
  - intros x [<-|I]; [exists e; split; [left; reflexivity|exact H1]|]. destruct (A x I) as [y [Y1 Y2]]. exists y. split; [right; exact Y1|exact Y2].
  - intros x [<-|I]; [exists d; split; [left; reflexivity|exact H1]|]. destruct (B x I) as [y [Y1 Y2]]. exists y. split; [right; exact Y1|exact Y2].
Qed.

Lemma addl_in ts : forall seen d, In d (addl_types seen ts) -> In d ts /\ g_has (snd d) = true.
Proof.
  induction ts as [|[[n j] g] ts IH]; intros seen d I; [destruct I|]. cbn [addl_types] in I.
  destruct (existsb _ seen); [destruct (IH _ _ I); split; [right|]; assumption|].
  destruct (g_has g) eqn:E; [destruct I as [<-|I]; [split; [left; reflexivity|exact E]|]|];
    destruct (IH _ _ I); (split; [right|]; assumption).
Qed.

Section File.
Variable u : unicode.
Variable env : string -> schema.
Variable parse : string -> gtype.
Variable np : bool.

(** Boilerplate is methods of types with additional properties and of unions. *)
Definition method_for (n : string) (e : Gocode.decl) : Prop := exists p name sig, e = method p n name sig.
Lemma marshal_for n e : In e (marshal n) -> method_for n e.
Proof. intros [<-|[<-|[]]]; unfold method_for; eauto. Qed.
Lemma union_for d e : In e (union_methods u parse d) -> method_for (fst (fst d)) e.
Proof.
  destruct d as [[n j] g]. cbn [union_methods fst]. intros I. apply in_app_iff in I. destruct I as [I|I].
  - apply in_flat_map in I. destruct I as [x [_ [<-|[<-|[<-|[]]]]]]; unfold method_for; eauto.
  - destruct (g_has g); [destruct I|apply marshal_for, I].
Qed.
Lemma addl_for d e : In e (addl_methods parse d) -> method_for (fst (fst d)) e.
Proof.
  destruct d as [[n j] g]. cbn [addl_methods fst]. intros I. apply in_app_iff in I. destruct I as [[<-|[<-|[]]]|I]; unfold method_for; eauto.
  destruct (g_union g); [apply marshal_for, I|destruct I].
Qed.
Lemma boilerplate_for ts e : In e (boilerplate u parse ts) ->
  exists d, In d ts /\ (g_has (snd d) = true \/ nonempty (g_union (snd d)) = true) /\ method_for (fst (fst d)) e.
Proof.
  unfold boilerplate. rewrite !in_app_iff, !in_flat_map. intros [[d [I J]]|[[d [I J]]|[d [I J]]]].
  - apply addl_in in I. exists d. split; [tauto|]. split; [tauto|]. apply addl_for, J.
  - apply filter_In in I. exists d. split; [tauto|]. split; [right; exact (proj2 I)|]. apply union_for, J.
  - apply filter_In in I. destruct I as [I X]. apply andb_true_iff in X. exists d. split; [exact I|]. split; [left; tauto|]. apply marshal_for, J.
Qed.
Lemma boilerplate_union ts d : In d ts -> nonempty (g_union (snd d)) = true ->
  exists e, In e (boilerplate u parse ts) /\ method_for (fst (fst d)) e.
Proof.
  intros I N. destruct (union_methods u parse d) as [|e es] eqn:E.
  - exfalso. destruct d as [[n j] g]. cbn [union_methods snd] in *. destruct (g_union g); discriminate.
  - exists e. split; [|apply union_for; rewrite E; left; reflexivity].
    unfold boilerplate. rewrite !in_app_iff, !in_flat_map. right. left. exists d. split; [|rewrite E; left; reflexivity].
    apply filter_In. split; [exact I|exact N].
Qed.

Lemma method_visit n e : method_for n e -> plain_func (visit_decl (depoint_field np) e) /\ (forall m, method_of (visit_decl (depoint_field np) e) m <-> m = n)
  /\ forall ex, deletes ex (visit_decl (depoint_field np) e) = 1.
Proof.
  intros [p [name [sig ->]]]. split; [|split; [|reflexivity]].
  - cbn [method visit_decl option_map map plain_func]. constructor; [|constructor]. exists n. unfold visit_field. cbn [fst snd].
    destruct p; cbn; [destruct np; auto|auto].
  - intros m. unfold method_of. cbn [method visit_decl option_map map]. unfold visit_field at 1. cbn [fst snd]. split.
    + intros [c [l [m' [sg [ns [t [E [I T]]]]]]]]. injection E as <- <- <- <-. destruct I as [I|[]]. injection I as <- <-.
      destruct p; cbn in T; [destruct np|]; destruct T as [T|T]; congruence.
    + intros ->. do 6 eexists. split; [reflexivity|]. split; [left; reflexivity|]. destruct p; cbn; [destruct np; auto|auto].
Qed.

(** The constants. *)
Lemma consts_pass ts : forall (ds : list decl) seen, map view ts = map sview ds -> NoDup (dnames ds) ->
  (forall n, In n seen -> ~ In n (dnames ds)) -> (forall d, In d ds -> good_consts (snd (fst d))) ->
  map const_decl (enum_types u seen ts) = flat_map const_row ds.
Proof.
  induction ts as [|[[n j] g] ts IH]; intros [|e ds] seen V N F G; try discriminate; [reflexivity|].
  cbn [map] in V. injection V as V1 V. destruct (view_fields _ _ V1) as [E1 [_ [_ [E4 _]]]]. cbn [fst snd] in E1, E4. subst n.
  inversion N as [|? ? N1 N2]; subst. cbn [enum_types]. fold (dname e) in N1.
  destruct (existsb (String.eqb (dname e)) seen) eqn:X.
  { apply existsb_exists in X. destruct X as [x [X1 X2]]. apply String.eqb_eq in X2. subst x. exfalso. apply (F (dname e) X1). left. reflexivity. }
  assert (R : map const_decl (enum_types u (dname e :: seen) ts) = flat_map const_row ds).
  { apply IH; [exact V|exact N2| |intros d I; apply G; right; exact I].
    intros m [<-|I]; [exact N1|]. intros Q. apply (F m I). right. exact Q. }
  cbn [flat_map]. unfold const_row at 1. rewrite E4. destruct (snd (fst e)) as [|kv c0] eqn:C; [exact R|].
  cbn [map app]. rewrite R. f_equal. unfold const_decl.
  destruct (G e (or_introl eq_refl)) as [G1 G2]. rewrite C in G1, G2.
  rewrite (fold_put u env (dname e) (kv :: c0) []); [|rewrite <- Forall_forall; exact G1|exact G2|intros k _ []].
  cbn [app]. rewrite by_key_prefix, map_map. reflexivity.
Qed.

Lemma visit_const d : map (visit_decl (depoint_field np)) (const_row d) = const_row d.
Proof.
  unfold const_row. destruct (snd (fst d)) as [|kv c]; [reflexivity|]. cbn [map visit_decl]. rewrite map_map. reflexivity.
Qed.
Lemma visit_imports is_ : map (visit_decl (depoint_field np)) (import_rows is_) = import_rows is_.
Proof. destruct is_ as [|i is_]; [reflexivity|]. unfold import_rows. cbn [map visit_decl]. rewrite map_map. reflexivity. Qed.

(** The types. *)
Lemma types_pass ts : forall ds : list decl, map view ts = map sview ds -> (forall d, In d ds -> parse (render (dty d)) = go_of (dty d)) ->
  map (visit_decl (depoint_field np)) (map (type_decl parse) ts) = map (type_row np) ds.
Proof.
  induction ts as [|[[n j] g] ts IH]; intros [|e ds] V P; try discriminate; [reflexivity|].
  cbn [map] in V. injection V as V1 V. destruct (view_fields _ _ V1) as [E1 [E2 [E3 [_ [E5 _]]]]]. cbn [fst snd] in *.
  cbn [map]. rewrite (IH ds V) by (intros d I; apply P; right; exact I). f_equal.
  unfold type_decl, type_row, comment_of. cbn [visit_decl map visit_spec]. rewrite E1, E2, E3, E5, (P e (or_introl eq_refl)).
  rewrite (unptr_pass np (gsize (dty e)) (dty e) (le_n _)). reflexivity.
Qed.

(** *** The result *)

Lemma single_field fs a un ns : go_of (unptr np (GStruct fs a un)) = TStruct [(ns, TSel "json" "RawMessage")] ->
  a <> None \/ un = true -> raw (GStruct fs a un) = true.
Proof.
  rewrite go_struct. intros E H. injection E as E.
  destruct fs as [|f fs]; cbn [map app] in E.
  - destruct a as [t|]; cbn [app] in E; [discriminate|]. destruct un; [reflexivity|]. destruct H; congruence.
  - exfalso. injection E as _ _ E. apply app_eq_nil in E. destruct E as [_ E]. apply app_eq_nil in E. destruct E as [E1 E2].
    destruct H as [H|H]; [destruct a; [discriminate|congruence]|]. rewrite H in E2. discriminate.
Qed.

Lemma raw_go t : raw t = true -> go_of (unptr np t) = TStruct [(["union"], TSel "json" "RawMessage")].
Proof. destruct t as [| | | | |[|] [|] []]; try discriminate; reflexivity. Qed.

Variable l : list (string * sref).
Let D := doc_decls u env l.
Let D' := doc_decls u (blur_env env) (blur_doc env l).
Hypothesis OK : doc_ok l.
Hypothesis FIT : forall p, In p l -> fits_component env p.
Hypothesis ENV : forall n r, In (n, r) l -> env (ref_to n) = value env r.
Hypothesis REFS : forall p q, In p l -> In q (refs_ref (snd p)) -> exists n, q = ref_to n /\ In n (map fst l).
Hypothesis ND : NoDup (dnames D).
Hypothesis NAMES : forall d, In d D -> go_name (dname d).
Hypothesis COMMENTS : forall d, In d D -> comment_ok d.
Hypothesis CONSTS : forall d, In d D -> good_consts (snd (fst d)).
Hypothesis PARSE : forall d, In d D -> parse (render (dty d)) = go_of (dty d).

(** Elements of unions are not unions; nothing removed has constants. *)
Definition inert (d : decl) : Prop :=
  (djson d = "" -> raw (dty d) = false) /\ (dead d = true -> snd (fst d) = []).

Lemma consts_obj s : objectlike (s_base s) = true -> constants u (s_base s) = [].
Proof. unfold constants, enumlike. intros ->. reflexivity. Qed.
Lemma raw_is_union path s : raw (body u env path s) = true -> is_union s = true.
Proof.
  intros H. apply raw_union in H. rewrite body_methods in H. cbn [snd] in H. unfold is_union. unfold structlike in H.
  destruct (objectlike (s_base s)); [|discriminate]. apply andb_true_iff in H. tauto.
Qed.
Lemma body_inert n j desc a path s : j <> "" -> inert (n, j, desc, a, constants u (s_base s), body u env path s).
Proof.
  intros J. split; cbn [djson fst snd dty]; [congruence|]. unfold dead. cbn [dty djson fst snd].
  destruct (String.eqb_spec j ""); [congruence|]. cbn [andb]. rewrite orb_false_r. intros R.
  apply consts_obj, union_obj, (raw_is_union path s R).
Qed.
Lemma own_inert path sfx r d : path_ok path -> In d (own u env path sfx r) -> inert d.
Proof.
  intros P I. destruct r as [q|s]; [destruct I|]. unfold own in I. destruct (_ && _).
  - destruct I as [<-|[]]. apply body_inert, dotted_ne, P.
  - destruct (owned _); [|destruct I]. destruct I as [<-|[]]. apply body_inert, dotted_ne, path_app, P.
Qed.
Lemma elements_inert path es : (forall r, In r es -> plain_element r) ->
  forall i d, In d (elements_from u env i path es) -> inert d.
Proof.
  intros H. induction es as [|r es IH]; intros i d I; [destruct I|]. cbn [elements_from] in I. apply in_app_iff in I.
  destruct I as [I|I]; [|apply (IH (fun q Q => H q (or_intror Q)) _ _ I)].
  pose proof (H r (or_introl eq_refl)) as P. destruct r as [q|s]; [destruct I|]. destruct I as [<-|[]].
  destruct P as [_ [U E]]. cbn [enum_of] in E. rewrite E. cbn [andb]. split; cbn [djson dty fst snd].
  - intros _. destruct (raw _) eqn:R; [|reflexivity]. apply raw_is_union in R. congruence.
  - intros _. unfold constants. rewrite E. reflexivity.
Qed.
Lemma inner_inert n : forall r inside sp path, depth_ref r <= n -> path_ok path -> simple_ref r -> fits_ref env inside sp r ->
  forall d, In d (inner_defs u env (negb inside) path r) -> inert d.
Proof.
  induction n as [|n IH]; intros r inside sp path L P S0 F d I; [pose proof (depth_pos r); lia|].
  destruct r as [q|s]; [destruct I|]. destruct s as [b ps it ad al an on].
  change (fits env inside sp (Sch b ps it ad al an on)) in F. cbn [depth_ref depth] in L.
  cbn [simple_ref simple] in S0. destruct S0 as [-> [HAN [HON [HI [HA [HP HT]]]]]]. rewrite simple_props in HP. rewrite simple_elements in HAN, HON.
  assert (DEFS : forall r inside sp path sfx, depth_ref r <= n -> path_ok path -> simple_ref r -> fits_ref env inside sp r ->
    forall d, In d (defs u env (negb inside) path sfx r) -> inert d).
  { clear - IH. intros r inside sp path sfx L P S0 F d I. rewrite defs_split in I. apply in_app_iff in I.
    destruct I as [I|I]; [apply (IH r inside sp path L P S0 F d I)|apply (own_inert path sfx r d P I)]. }
  cbn [inner_defs] in I. rewrite defs_in_eq in I. cbn [fits] in F. destruct (objectlike b).
  - destruct (nonempty (elements an ++ elements on)) eqn:U.
    + destruct F as [-> [_ [-> F]]]. change (by_key (map _ [])) with (@nil (string * list decl)) in I. cbn [flat_map app] in I.
      assert (X : In d (elements_from u env 0 path (elements an)) \/ In d (elements_from u env 0 path (elements on))).
      { destruct (negb inside); apply in_app_iff; exact I. }
      destruct X as [X|X].
      * apply (elements_inert path (elements an)) with (i := 0); [|exact X]. intros r J. apply F, in_app_iff; tauto.
      * apply (elements_inert path (elements on)) with (i := 0); [|exact X]. intros r J. apply F, in_app_iff; tauto.
    + destruct F as [FI [FV [FE [FP0 FA]]]]. pose proof (proj1 (fits_props env inside ps) FP0) as FP. clear FP0.
      assert (E : elements an = [] /\ elements on = []).
      { apply app_eq_nil. destruct (elements an ++ elements on); [reflexivity|discriminate]. }
      destruct E as [E1 E2]. rewrite E1, E2 in I. cbn [elements_from] in I. rewrite !app_nil_r in I. apply in_app_iff in I.
      destruct I as [I|I].
      * destruct inside; cbn [negb] in I; [destruct I|].
        rewrite (by_key_map (fun p => defs u env true (path ++ [fst p]) [] (snd p))), flat_snd in I.
        apply in_flat_map in I. destruct I as [p [I J]]. rewrite by_key_in in I. pose proof (depth_props ps p I).
        apply (DEFS (snd p) false Field (path ++ [fst p]) []); auto; try lia. apply path_app, P.
      * destruct ad as [r|]; [|destruct I]. apply (DEFS r true Value path ["AdditionalProperties"]); auto; lia.
  - destruct (arraylike b); [|destruct I]. destruct it as [r|]; [|destruct I]. apply (DEFS r inside Elem path ["Item"]); auto; lia.
Qed.
Lemma doc_inert d : In d D -> inert d.
Proof.
  intros I. apply in_flat_map in I. destruct I as [p [I J]]. rewrite by_key_in in I. destruct (OK p I) as [L S0].
  pose proof (FIT p I) as F. unfold fits_component in F. destruct J as [<-|J].
  - destruct (snd p) as [q|s]; cbn [value alias_of top_constants ty].
    + split; cbn [djson dty fst snd]; [intros _; reflexivity|intros _; reflexivity].
    + apply body_inert. intros E. rewrite E in L. discriminate.
  - apply (inner_inert (depth_ref (snd p)) (snd p) false Field [fst p]); auto. destruct (snd p); [exact Logic.I|exact F].
Qed.

Lemma same_decl d e : In d D -> In e D -> dname d = dname e -> d = e.
Proof.
  clear -ND. unfold D in *. induction (doc_decls u env l) as [|x xs IH]; [intros []|]. cbn [dnames map] in ND.
  inversion ND as [|? ? N1 N2]; subst. intros [<-|I] [<-|J] E; auto.
  - exfalso. apply N1. change (In (dname x) (map dname xs)). rewrite E. apply in_map, J.
  - exfalso. apply N1. change (In (dname x) (map dname xs)). rewrite <- E. apply in_map, I.
Qed.

Lemma imports_stay ex is_ : filter (raw_dead_spec ex) (map SImport is_) = [].
Proof. induction is_ as [|x xs IH]; [reflexivity|exact IH]. Qed.

Theorem union_file same imports k : doc_depth l <= k ->
  exists ts f, generateTypesForSchemas u env k l = Ok ts /\ generated u parse same imports ts = Ok f /\
    passes np f = fixUnderscoreInTypeName (import_rows imports ++ flat_map const_row D' ++ map (type_row np) D').
Proof.
  intros K. destruct (generate_spec u env k l OK K) as [ts [E V]]. fold D in V.
  exists ts. unfold generated. rewrite unique_all; [|rewrite (view_names _ _ V); exact ND|intros d []]. cbn [bind].
  eexists. split; [exact E|]. split; [reflexivity|].
  set (vis := visit_decl (depoint_field np)).
  assert (P : depointerizer np (match imports with [] => [] | _ => [DGen [] (map SImport imports)] end
      ++ map const_decl (enum_types u [] ts) ++ map (type_decl parse) ts ++ boilerplate u parse ts)
    = import_rows imports ++ flat_map const_row D ++ map (type_row np) D ++ map vis (boilerplate u parse ts)).
  { unfold depointerizer. rewrite !map_app. f_equal; [apply visit_imports|]. f_equal; [|f_equal].
    - rewrite (consts_pass ts D [] V ND); [|intros n []|exact CONSTS]. rewrite map_flat.
      apply flat_map_ext_in. intros d _. apply visit_const.
    - apply types_pass; [exact V|exact PARSE].
    }
  unfold passes. rewrite P. clear P.
  set (B := map vis (boilerplate u parse ts)).
  set (G := import_rows imports ++ flat_map const_row D ++ map (type_row np) D).
  assert (FG : import_rows imports ++ flat_map const_row D ++ map (type_row np) D ++ B = G ++ B) by (unfold G; rewrite !app_assoc; reflexivity).
  rewrite FG. clear FG.
  destruct (views_in ts D V) as [V1 V2].
  (* functions *)
  assert (FB : forall e, In e B -> exists d, In d D /\ (fst (methods (dty d)) = true \/ snd (methods (dty d)) = true) /\
      plain_func e /\ (forall m, method_of e m <-> m = dname d) /\ forall ex, deletes ex e = 1).
  { intros e I. apply in_map_iff in I. destruct I as [e0 [<- I]]. apply boilerplate_for in I. destruct I as [t [I [M F]]].
    destruct (V1 t I) as [d [J W]]. exists d. split; [exact J|]. destruct (view_fields _ _ W) as [N1 [_ [_ [_ [_ N6]]]]].
    rewrite <- N6, <- N1. cbn [fst snd]. split; [exact M|]. apply method_visit, F. }
  assert (BU : forall d, In d D -> snd (methods (dty d)) = true -> exists e, In e B /\ method_of e (dname d)).
  { intros d I M. destruct (V2 d I) as [t [J W]]. destruct (view_fields _ _ W) as [N1 [_ [_ [_ [_ N6]]]]].
    rewrite <- N6 in M. cbn [snd] in M. destruct (boilerplate_union ts t J M) as [e [Q F]].
    exists (vis e). split; [apply in_map, Q|]. rewrite <- N1. apply (method_visit _ e F). reflexivity. }
  assert (GG : forall e, In e G -> exists c ss, e = DGen c ss).
  { unfold G. intros e. rewrite !in_app_iff. intros [I|[I|I]].
    - unfold import_rows in I. destruct imports; [destruct I|]. destruct I as [<-|[]]. eauto.
    - apply in_flat_map in I. destruct I as [d [_ I]]. unfold const_row in I. destruct (snd (fst d)); [destruct I|]. destruct I as [<-|[]]. eauto.
    - apply in_map_iff in I. destruct I as [d [<- _]]. unfold type_row. eauto. }
  assert (PF : Forall plain_func (G ++ B)).
  { apply Forall_forall. intros e I. apply in_app_iff in I. destruct I as [I|I].
    - destruct (GG e I) as [c [ss ->]]. exact Logic.I.
    - destruct (FB e I) as [d [_ [_ [X _]]]]. exact X. }
  destruct (raw_collect_ok (G ++ B) [] [] PF) as [ex [EC S0]].
  (* names of unions *)
  assert (WR : forall n, (exists e, In e G /\ wrapper e n) <-> exists d ns, In d D /\ dname d = n /\ go_of (unptr np (dty d)) = TStruct [(ns, TSel "json" "RawMessage")]).
  { intros n. split.
    - intros [e [I W]]. unfold G in I. rewrite !in_app_iff in I. destruct W as [c [ss [ns [-> W]]]]. destruct I as [I|[I|I]].
      + exfalso. unfold import_rows in I. destruct imports as [|s0 is0]; [destruct I|]. destruct I as [I|[]]. injection I as <- <-. apply (in_map_iff SImport (s0 :: is0)) in W.
        destruct W as [x [W _]]. discriminate.
      + exfalso. apply in_flat_map in I. destruct I as [d [_ I]]. unfold const_row in I. destruct (snd (fst d)); [destruct I|].
        destruct I as [I|[]]. injection I as <- <-. apply in_map_iff in W. destruct W as [x [W _]]. discriminate.
      + apply in_map_iff in I. destruct I as [d [I J]]. unfold type_row in I. injection I as <- <-. destruct W as [W|[]]. injection W as W1 W2.
        exists d, ns. auto.
    - intros [d [ns [I [N T]]]]. exists (type_row np d). split; [unfold G; rewrite !in_app_iff; right; right; apply in_map, I|].
      unfold type_row. exists (comment_of d), [SType (dname d) (go_of (unptr np (dty d)))], ns. split; [reflexivity|]. left. rewrite N, T. reflexivity. }
  assert (UN : forall n, In n ex <-> exists d, In d D /\ dname d = n /\ raw (dty d) = true).
  { intros n. rewrite S0. split.
    - intros [[]|[[[] _]|U]]. destruct U as [a [w [m [e [b [EQ [W M]]]]]]].
      assert (IW : In w (G ++ B)) by (rewrite EQ; apply in_app_iff; right; left; reflexivity).
      assert (IE : In e (G ++ B)) by (rewrite EQ; apply in_app_iff; right; right; apply in_app_iff; right; left; reflexivity).
      apply in_app_iff in IW, IE.
      destruct IE as [IE|IE].
      { exfalso. destruct (GG e IE) as [c [ss ->]]. destruct M as [? [? [? [? [? [? [M _]]]]]]]. discriminate. }
      destruct IW as [IW|IW].
      2:{ exfalso. destruct (FB w IW) as [d [_ [_ [_ [_ X]]]]]. destruct W as [c [ss [ns [-> W]]]]. specialize (X []).
          destruct (in_map_iff vis (boilerplate u parse ts) (DGen c ss)) as [Y _]. destruct (Y IW) as [e0 [Y1 Y2]].
          apply boilerplate_for in Y2. destruct Y2 as [t [_ [_ [p [nm [sg ->]]]]]]. discriminate. }
      destruct (proj1 (WR n) (ex_intro _ w (conj IW W))) as [d [ns [ID [N T]]]]. exists d. split; [exact ID|]. split; [exact N|].
      destruct (FB e IE) as [d' [ID' [MM [_ [X _]]]]]. apply X in M. assert (d' = d) by (apply same_decl; auto; congruence). subst d'.
      destruct (dty d) as [| | | | |fs a0 un]; cbn [methods fst snd] in MM; try (destruct MM; discriminate).
      apply (single_field fs a0 un ns T). destruct MM as [MM|MM]; [left; destruct a0; [discriminate|discriminate]|right; exact MM].
    - intros [d [ID [N R]]]. right. right. destruct (BU d ID (raw_union _ R)) as [e [IE M]].
      destruct (proj2 (WR n)) as [w [IW W]]; [exists d, ["union"]; split; [exact ID|]; split; [exact N|apply raw_go, R]|].
      apply in_split in IW, IE. destruct IW as [a [m ->]]. destruct IE as [m' [b ->]].
      exists a, w, (m ++ m'), e, b. split; [rewrite <- !app_assoc; reflexivity|]. rewrite <- N in *. split; assumption. }
  assert (MEM : forall d, In d D -> mem (dname d) ex = raw (dty d)).
  { intros d I. destruct (raw (dty d)) eqn:R.
    - apply mem_in, UN. eauto.
    - destruct (mem (dname d) ex) eqn:M; [|reflexivity]. apply mem_in, UN in M. destruct M as [d' [I' [N R']]].
      assert (d' = d) by (apply same_decl; auto). congruence. }
  assert (HB : forall n, In n builtins -> mem n ex = false).
  { intros n I. destruct (mem n ex) eqn:M; [|reflexivity]. apply mem_in, UN in M. destruct M as [d [J [N _]]].
    exfalso. destruct (NAMES d J) as [_ X]. apply X. rewrite N. exact I. }
  assert (FATE : forall d, In d D -> fate ex (raw (dty d)) (dname d)).
  { intros d I. unfold fate. rewrite (MEM d I). destruct (raw (dty d)) eqn:R; [|reflexivity]. split; [reflexivity|]. apply no_dot, NAMES, I. }
  pose proof (doc_left u env np l OK FIT ENV REFS ex FATE HB) as LEFT. fold D D' in LEFT.
  (* deletions *)
  assert (DT : forall d, In d D -> deletes ex (type_row np d) = if dead d then 1 else 0).
  { intros d I. unfold type_row. cbn [deletes filter raw_dead_spec]. rewrite (MEM d I). destruct (doc_inert d I) as [N1 _].
    unfold dead. destruct (String.eqb_spec (djson d) "") as [J|J].
    - rewrite (N1 J). cbn [orb andb length Nat.add]. rewrite Nat.add_0_r. destruct (String.eqb_spec (ddesc d) "") as [Q|Q].
      + assert (X : nameless (comment_of d) = true); [|rewrite X; reflexivity].
        unfold comment_of, comment_lines. rewrite J, Q. cbn [String.eqb]. apply element_comment, NAMES, I.
      + assert (X : nameless (comment_of d) = false); [|rewrite X; reflexivity].
        unfold nameless. destruct (comment_of d) as [|c cs] eqn:C; [reflexivity|]. apply (COMMENTS d I (or_intror Q) c cs C).
    - assert (X : nameless (comment_of d) = false).
      { unfold nameless. destruct (comment_of d) as [|c cs] eqn:C; [reflexivity|]. apply (COMMENTS d I (or_introl J) c cs C). }
      rewrite X. cbn [andb Nat.add]. rewrite orb_false_r. destruct (raw (dty d)); reflexivity. }
  assert (DC : forall e, In e (flat_map const_row D) -> deletes ex e = 0 /\ raw_rewrite ex e = e).
  { intros e I. apply in_flat_map in I. destruct I as [d [I J]]. unfold const_row in J. destruct (snd (fst d)) as [|kv c]; [destruct J|].
    destruct J as [<-|[]]. split.
    - cbn [deletes nameless]. rewrite (const_comment _ (NAMES d I)). cbn [Nat.add].
      induction (by_key (kv :: c)) as [|x xs IH]; [reflexivity|]. cbn [map filter raw_dead_spec]. exact IH.
    - cbn [raw_rewrite]. f_equal. rewrite map_map. reflexivity. }
  assert (DI : forall e, In e (import_rows imports) -> deletes ex e = 0 /\ raw_rewrite ex e = e).
  { intros e I. unfold import_rows in I. destruct imports as [|i is_]; [destruct I|]. destruct I as [<-|[]]. split.
    - cbn [deletes nameless Nat.add]. rewrite imports_stay. reflexivity.
    - cbn [raw_rewrite]. f_equal. rewrite map_map. reflexivity. }
  unfold fixRawData. rewrite EC. cbn [bind].
  pose proof (raw_loop_single ex (G ++ B) (S (length (G ++ B))) []) as RL. cbn [app length] in RL. rewrite RL; [|  |lia].
  2:{ intros d I. apply in_app_iff in I. destruct I as [I|I].
      - unfold G in I. rewrite !in_app_iff in I. destruct I as [I|[I|I]]; [rewrite (proj1 (DI d I)); lia|rewrite (proj1 (DC d I)); lia|].
        apply in_map_iff in I. destruct I as [e [<- I]]. rewrite (DT e I). destruct (dead e); lia.
      - destruct (FB d I) as [_ [_ [_ [_ [_ X]]]]]. rewrite X. lia. }
  cbn [bind]. f_equal. unfold G. rewrite !filter_app, !map_app.
  assert (KEEP : forall xs, (forall e, In e xs -> deletes ex e = 0 /\ raw_rewrite ex e = e) ->
    map (raw_rewrite ex) (filter (fun d => Nat.eqb (deletes ex d) 0) xs) = xs).
  { induction xs as [|x xs IH]; intros H; [reflexivity|]. cbn [filter]. destruct (H x (or_introl eq_refl)) as [-> H2]. cbn [Nat.eqb map].
    rewrite H2, IH; [reflexivity|]. intros e I. apply H. right. exact I. }
  rewrite (KEEP _ DI), (KEEP _ DC).
  assert (NB : filter (fun d => Nat.eqb (deletes ex d) 0) B = []).
  { clear -FB. induction B as [|b bs IH]; [reflexivity|]. cbn [filter]. destruct (FB b (or_introl eq_refl)) as [_ [_ [_ [_ [_ X]]]]].
    rewrite X. cbn [Nat.eqb]. apply IH. intros e I. apply FB. right. exact I. }
  rewrite NB. cbn [map]. rewrite app_nil_r. f_equal. f_equal.
  - (* constants *)
    assert (C1 : flat_map const_row D = flat_map const_row (filter alive D)).
    { assert (H := doc_inert). clear -H. revert H. unfold D. induction (doc_decls u env l) as [|x xs IH]; intros H; [reflexivity|]. cbn [flat_map filter].
      rewrite (IH (fun d I => H d (or_intror I))). unfold alive at 2. destruct (dead x) eqn:X; cbn [negb flat_map]; [|reflexivity].
      destruct (H x (or_introl eq_refl)) as [_ Z]. unfold const_row at 1. rewrite (Z X). reflexivity. }
    rewrite C1. clear -LEFT. revert LEFT. generalize (filter alive D) D'. intros xs. induction xs as [|x xs IH]; intros [|y ys] H; try discriminate; [reflexivity|].
    cbn [map] in H. injection H as H1 H2 H. cbn [flat_map]. rewrite (IH ys H). f_equal. unfold const_row, dname. rewrite H1. reflexivity.
  - (* types *)
    assert (C1 : map (raw_rewrite ex) (filter (fun d => Nat.eqb (deletes ex d) 0) (map (type_row np) D)) = map (fun d =>
      DGen (comment_of d) [SType (dname d) (iterate_spec (withoutRawData ex) (go_of (unptr np (dty d))))]) (filter alive D)).
    { clear -DT MEM. unfold D in *. induction (doc_decls u env l) as [|x xs IH]; [reflexivity|]. cbn [map filter].
      rewrite (DT x (or_introl eq_refl)). unfold alive at 1. destruct (dead x) eqn:X; cbn [Nat.eqb negb map].
      - apply IH; intros d I; [apply MEM|apply DT]; right; exact I.
      - rewrite IH; [|intros d I; apply MEM; right; exact I|intros d I; apply DT; right; exact I]. f_equal.
        unfold type_row. cbn [raw_rewrite map raw_rewrite_spec]. rewrite (MEM x (or_introl eq_refl)).
        unfold dead in X. apply orb_false_iff in X. destruct X as [-> _]. reflexivity. }
    rewrite C1. clear -LEFT. revert LEFT. generalize (filter alive D) D'. intros xs. induction xs as [|x xs IH]; intros [|y ys] H; try discriminate; [reflexivity|].
    cbn [map] in H. injection H as H1 H2 H. cbn [map]. rewrite (IH ys H). f_equal. unfold type_row, comment_of, dname, djson, ddesc. rewrite H1, H2. reflexivity.
Qed.
End File.
