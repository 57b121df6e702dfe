(** Further facts about files with unions: what is left is complete, and data goes
    through it. *)
From Verif Require Import Prelude Strings Gocode GocodeProofs GocodeFacts Version Util UtilProofs GenName GenNameProofs GenSpellProofs
  GenCommentProofs GenType GenTypeSpec GenTypeProofs GenDeclProofs GenEnumProofs GenTypeFacts GoJson GoJsonSpec GoJsonProofs GoJsonFacts
  GenFile GenUnionSpec GenUnionProofs GenUnionDocProofs.
Local Open Scope string_scope.
Local Open Scope list_scope.
Local Notation decl := GenTypeSpec.decl.

Section Facts.
Variable u : unicode.
Variable env : string -> schema.
Let env' := blur_env env.

Lemma simple_any b : simple (any_of b).
Proof. cbn. repeat split. left. reflexivity. Qed.
Lemma simple_hollow o : match hollow o with None => True | Some es =>
  (fix go (l : list sref) : Prop := match l with [] => True | r :: l => simple_ref r /\ go l end) es end.
Proof. destruct o; exact I. Qed.
Lemma simple_blur n : forall r, depth_ref r <= n -> simple_ref r -> simple_ref (blur_ref env r).
Proof.
  induction n as [|n IH]; intros r L S0; [pose proof (depth_pos r); lia|].
  destruct r as [q|s]; [rewrite blur_q; destruct (is_union (env q)); [apply simple_any|exact S0]|].
  rewrite blur_inl. destruct s as [b ps it ad al an on]. rewrite blur_eq. destruct (is_union _); [apply simple_any|].
  cbn [depth_ref depth] in L. cbn [simple_ref simple] in *. destruct S0 as [-> [HAN [HON [HI [HA [HP HT]]]]]]. rewrite simple_props in HP.
  split; [reflexivity|]. split; [apply simple_hollow|]. split; [apply simple_hollow|].
  split; [destruct it as [r|]; [apply IH; [lia|exact HI]|exact I]|]. split; [destruct ad as [r|]; [apply IH; [lia|exact HA]|exact I]|].
  split; [|exact HT]. rewrite simple_props. intros p J. apply in_map_iff in J. destruct J as [p0 [<- J]]. cbn [snd].
  pose proof (depth_props ps p0 J). apply IH; [lia|apply HP, J].
Qed.

Lemma needs_blur n : forall r, depth_ref r <= n -> needs_ref r = false -> needs_ref (blur_ref env r) = false.
Proof.
  induction n as [|n IH]; intros r L N; [pose proof (depth_pos r); lia|].
  destruct r as [q|s]; [rewrite blur_q; destruct (is_union (env q)); reflexivity|].
  rewrite blur_inl. destruct (is_union s) eqn:U.
  { destruct s as [b ps it ad al an on]. rewrite blur_eq, U. reflexivity. }
  pose proof (blur_owned env s U) as OW. destruct s as [b ps it ad al an on]. rewrite blur_eq, U in *.
  cbn [depth_ref depth] in L. cbn [needs_ref needs] in *. rewrite OW. destruct (objectlike b).
  - apply orb_false_iff in N. destruct N as [N N3]. apply orb_false_iff in N. destruct N as [-> N2]. cbn [orb].
    apply orb_false_iff. split.
    + apply not_true_iff_false. intros E. apply existsb_exists in E. destruct E as [p [J E]]. apply in_map_iff in J. destruct J as [p0 [<- J]].
      cbn [snd] in E. pose proof (depth_props ps p0 J). rewrite IH in E; [discriminate|lia|].
      destruct (needs_ref (snd p0)) eqn:Q; [|reflexivity].
      assert (X : existsb (fun p => needs_ref (snd p)) ps = true) by (apply existsb_exists; eauto). congruence.
    + destruct ad as [r|]; [|reflexivity]. apply IH; [lia|exact N3].
  - apply orb_false_iff in N. destruct N as [-> N2]. cbn [orb]. destruct (arraylike b); [|reflexivity]. cbn [andb] in *.
    destruct it as [r|]; [|reflexivity]. apply IH; [lia|exact N2].
Qed.

Lemma kept_blur n : forall r inside sp, depth_ref r <= n -> fits_ref env inside sp r -> kept_ref inside (blur_ref env r).
Proof.
  induction n as [|n IH]; intros r inside sp L F; [pose proof (depth_pos r); lia|].
  assert (KA : forall b, kept_ref inside (Inl (any_of b))) by (intros b; repeat split; intros r0 []).
  destruct r as [q|s]; [rewrite blur_q; destruct (is_union (env q)); [apply KA|exact I]|].
  rewrite blur_inl. destruct (is_union s) eqn:U.
  { destruct s as [b ps it ad al an on]. rewrite blur_eq, U. apply KA. }
  destruct s as [b ps it ad al an on]. change (fits env inside sp (Sch b ps it ad al an on)) in F. rewrite blur_eq, U.
  unfold is_union, union_of in U. cbn [s_base s_anyOf s_oneOf] in U.
  cbn [depth_ref depth] in L. cbn [kept_ref kept]. cbn [fits] in F. destruct (objectlike b); cbn [andb] in U.
  - rewrite U in F. destruct F as [FI [FV [FE [FP0 FA]]]]. pose proof (proj1 (fits_props env inside ps) FP0) as FP. clear FP0.
    split; [|split].
    + rewrite kept_props. intros p J. apply in_map_iff in J. destruct J as [p0 [<- J]]. cbn [snd]. pose proof (depth_props ps p0 J).
      destruct inside; [apply (needs_blur n); [lia|apply FI; auto]|]. apply (IH (snd p0) false Field); [lia|apply FP, J].
    + destruct ad as [r|]; [|exact I]. apply (IH r true Value); [lia|exact FA].
    + rewrite !hollow_elements. intros r [].
  - destruct (arraylike b); [|exact I]. destruct it as [r|]; [|exact I]. apply (IH r inside Elem); [lia|exact F].
Qed.

Lemma refs_blur n : forall r q, depth_ref r <= n -> In q (refs_ref (blur_ref env r)) -> In q (refs_ref r) /\ is_union (env q) = false.
Proof.
  induction n as [|n IH]; intros r q L J; [pose proof (depth_pos r); lia|].
  destruct r as [q0|s].
  { rewrite blur_q in J. destruct (is_union (env q0)) eqn:U; [destruct J|]. destruct J as [<-|[]]. split; [left; reflexivity|exact U]. }
  rewrite blur_inl in J. destruct s as [b ps it ad al an on]. rewrite blur_eq in J. destruct (is_union _); [destruct J|].
  cbn [depth_ref depth] in L. cbn [refs_ref refs] in *. rewrite !in_app_iff in *. destruct J as [J|[J|[J|[J|J]]]].
  - apply in_flat_map in J. destruct J as [p [J K]]. apply in_map_iff in J. destruct J as [p0 [<- J]]. cbn [snd] in K.
    pose proof (depth_props ps p0 J). destruct (IH (snd p0) q ltac:(lia) K) as [A B]. split; [left; apply in_flat_map; eauto|exact B].
  - destruct it as [r|]; [|destruct J]. destruct (IH r q ltac:(lia) J). tauto.
  - destruct ad as [r|]; [|destruct J]. destruct (IH r q ltac:(lia) J). tauto.
  - destruct an as [la|]; destruct J.
  - destruct on as [la|]; destruct J.
Qed.

Variable np : bool.
Variable l : list (string * sref).
Let D := doc_decls u env l.
Let l' := blur_doc env l.
Let D' := doc_decls u env' l'.
Hypothesis OK : doc_ok l.
Hypothesis FIT : forall p, In p l -> fits_component env p.
Hypothesis ENV : forall n r, In (n, r) l -> env (ref_to n) = value env r.
Hypothesis REFS : forall p q, In p l -> In q (refs_ref (snd p)) -> exists n, q = ref_to n /\ In n (map fst l).
Hypothesis ND : NoDup (dnames D).
Hypothesis NAMES : forall d, In d D -> go_name (dname d).

Lemma in_left p : In p l' -> exists r, In (fst p, r) l /\ stays (fst p, r) = true /\ snd p = blur_ref env r.
Proof.
  intros J. apply in_map_iff in J. destruct J as [[n r] [<- J]]. apply filter_In in J. destruct J as [J1 J2]. exists r. auto.
Qed.
Lemma left_ok : doc_ok l'.
Proof.
  intros p J. destruct (in_left p J) as [r [J1 [_ ->]]]. destruct (OK _ J1) as [A B]. split; [exact A|].
  apply (simple_blur (depth_ref r)); [apply le_n|exact B].
Qed.
Lemma left_kept p : In p l' -> kept_ref false (snd p).
Proof.
  intros J. destruct (in_left p J) as [r [J1 [J2 ->]]]. apply (kept_blur (depth_ref r) r false Field); [apply le_n|].
  pose proof (FIT _ J1) as F. destruct r; [exact I|exact F].
Qed.
Lemma left_env n s : In (n, Inl s) l' -> env' (ref_to n) = s.
Proof.
  intros J. destruct (in_left _ J) as [r [J1 [J2 E]]]. cbn [fst snd] in *. unfold env', blur_env. rewrite (ENV n r J1).
  pose proof (FIT _ J1) as F. unfold fits_component in F. cbn [snd] in F.
  destruct r as [q|s0]; [rewrite blur_q, F in E; discriminate|]. rewrite blur_inl in E. injection E as E. rewrite E. reflexivity.
Qed.
Lemma left_refs p q : In p l' -> In q (refs_ref (snd p)) -> exists n, q = ref_to n /\ In n (map fst l').
Proof.
  intros J K. destruct (in_left p J) as [r [J1 [J2 E]]]. rewrite E in K.
  destruct (refs_blur (depth_ref r) r q (le_n _) K) as [A B]. destruct (REFS (fst p, r) q J1 A) as [n [-> N]].
  exists n. split; [reflexivity|]. apply in_map_iff in N. destruct N as [[n0 r0] [<- N]]. cbn [fst] in *.
  change (In n0 (map fst l')). apply (in_map fst l' (n0, blur_ref env r0)). unfold l', blur_doc.
  apply in_map_iff. exists (n0, r0). split; [reflexivity|]. apply filter_In. split; [exact N|].
  unfold stays. cbn [snd]. rewrite (ENV n0 r0 N) in B. destruct r0; [reflexivity|]. cbn [value] in B. rewrite B. reflexivity.
Qed.

(** The names of unions. *)
Let ex := map dname (filter (fun d => raw (dty d)) D).
Lemma same_decl d e : In d D -> In e D -> dname d = dname e -> d = e.
Proof.
  clear -ND. unfold D in *. induction (doc_decls u env l) as [|x xs IH]; [intros []|]. cbn [dnames map] in ND.
  inversion ND as [|? ? N1 N2]; subst. intros [<-|I] [<-|J] E; auto.
  - exfalso. apply N1. change (In (dname x) (map dname xs)). rewrite E. apply in_map, J.
  - exfalso. apply N1. change (In (dname x) (map dname xs)). rewrite <- E. apply in_map, I.
Qed.
Lemma left_names : map fst (filter alive D) = map fst D'.
Proof.
  assert (MEM : forall d, In d D -> mem (dname d) ex = raw (dty d)).
  { intros d J. destruct (raw (dty d)) eqn:R.
    - apply mem_in, in_map. apply filter_In. auto.
    - destruct (mem (dname d) ex) eqn:M; [|reflexivity]. apply mem_in, in_map_iff in M. destruct M as [e [E M]].
      apply filter_In in M. destruct M as [M R']. rewrite (same_decl e d M J E) in R'. congruence. }
  pose proof (doc_left u env np l OK FIT ENV REFS ex) as LEFT. fold D in LEFT.
  apply (f_equal (map fst)) in LEFT.
  - rewrite !map_map in LEFT. unfold passed, written in LEFT. cbn [fst] in LEFT. exact LEFT.
  - intros d J. unfold fate. rewrite (MEM d J). destruct (raw (dty d)); [|reflexivity]. split; [reflexivity|]. apply no_dot, NAMES, J.
  - intros n J. destruct (mem n ex) eqn:M; [|reflexivity]. apply mem_in, in_map_iff in M. destruct M as [d [<- M]].
    apply filter_In in M. destruct (NAMES d (proj1 M)) as [_ X]. contradiction.
Qed.
Lemma left_nodup : NoDup (dnames D').
Proof.
  assert (E : dnames D' = map dname (filter alive D)).
  { change (map dname D' = map dname (filter alive D)). unfold dname.
    transitivity (map (fun x => fst (fst (fst (fst x)))) (map fst D')); [rewrite map_map; reflexivity|].
    rewrite <- left_names, map_map. reflexivity. }
  rewrite E. clear -ND. unfold D in *. change (NoDup (map dname (doc_decls u env l))) in ND.
  induction (doc_decls u env l) as [|x xs IH]; [constructor|]. cbn [map] in ND. inversion ND as [|? ? N1 N2]; subst. cbn [filter].
  destruct (alive x); [|apply IH, N2]. cbn [map]. constructor; [|apply IH, N2].
  intros I. apply N1. apply in_map_iff in I. destruct I as [y [<- I]]. apply filter_In in I. apply in_map, I.
Qed.

(** Nothing that is gone is used. *)
Theorem left_resolved d id : In d D' -> In id (ids (dty d)) -> In id builtins \/ In id (dnames D').
Proof. intros J K. apply (doc_resolved u env' l' left_ok left_kept left_refs d id J K). Qed.

(** Names without underscores stay. *)
Lemma ids_unptr n : forall t, gsize t <= n -> forall i, In i (ids (unptr np t)) -> In i (ids t).
Proof.
  induction n as [|n IH]; intros t L i J; [destruct t; cbn in L; lia|].
  destruct t as [x|x t|t|t|t|fs ad un]; cbn [unptr ids gsize] in *; try exact J; try (apply (IH t); [lia|exact J]).
  rewrite !in_app_iff in *. destruct J as [J|[J|J]]; [|destruct ad as [t|]; [|destruct J]; right; left; apply (IH t); [lia|exact J]|tauto].
  left. apply in_flat_map in J. destruct J as [f [J K]]. apply in_map_iff in J. destruct J as [f0 [<- J]]. cbn [snd] in K.
  apply in_flat_map. exists f0. split; [exact J|]. apply (IH (snd f0)); [pose proof (gsize_field fs f0 J); lia|].
  unfold unptr_field in K. destruct (unptr np (snd f0)) as [| | [] | | |]; try exact K; destruct np; exact K.
Qed.
Lemma idents_go n : forall t, gsize t <= n -> forall i, In i (idents (go_of t)) -> i = "string" \/ In i (ids t) /\ go_of (GId i) = TIdent i.
Proof.
  induction n as [|n IH]; intros t L i J; [destruct t; cbn in L; lia|].
  destruct t as [x|x t|t|t|t|fs ad un]; cbn [ids gsize] in *.
  - destruct (id_form x) as [[a [b E]]|E]; rewrite E in J; [destruct J|]. destruct J as [<-|[]]. right. split; [left; reflexivity|exact E].
  - change (go_of (GAs x t)) with (go_of (GId x)) in J.
    destruct (id_form x) as [[a [b E]]|E]; rewrite E in J; [destruct J|]. destruct J as [<-|[]]. right. split; [left; reflexivity|exact E].
  - apply (IH t); [lia|exact J].
  - apply (IH t); [lia|exact J].
  - cbn [go_of idents] in J. destruct J as [J|J]; [left; auto|]. apply (IH t); [lia|exact J].
  - cbn [go_of idents] in J. rewrite !flat_map_app, !in_app_iff in J. destruct J as [J|[J|J]].
    + apply in_flat_map in J. destruct J as [f [J K]]. apply in_map_iff in J. destruct J as [f0 [<- J]]. cbn [snd] in K.
      pose proof (gsize_field fs f0 J). destruct (IH (snd f0) ltac:(lia) i K) as [->|[A B]]; [auto|]. right. split; [|exact B].
      rewrite in_app_iff. left. apply in_flat_map. eauto.
    + destruct ad as [t|]; [|destruct J]. cbn [flat_map snd idents app] in J. rewrite app_nil_r in J. destruct J as [J|J]; [auto|].
      destruct (IH t ltac:(lia) i J) as [->|[A B]]; [auto|]. right. split; [|exact B]. rewrite !in_app_iff. auto.
    + destruct un; destruct J.
Qed.
Hypothesis PLAIN : forall d, In d D -> contains (dname d) "_" = false.
Lemma left_plain d : In d D' -> contains (dname d) "_" = false.
Proof.
  intros J. assert (X : In (fst d) (map fst (filter alive D))) by (rewrite left_names; apply in_map, J).
  apply in_map_iff in X. destruct X as [e [E X]]. apply filter_In in X. pose proof (PLAIN e (proj1 X)) as P. unfold dname in *. rewrite E in P. exact P.
Qed.
Lemma left_clean d : In d D' -> GocodeProofs.clean (go_of (unptr np (dty d))) = true.
Proof.
  intros J. apply forallb_forall. intros i K. apply negb_true_iff.
  destruct (idents_go _ _ (le_n _) i K) as [->|[A B]]; [reflexivity|].
  apply (ids_unptr _ _ (le_n _)) in A. destruct (left_resolved d i J A) as [R|R].
  - assert (X : forallb (fun b => match go_of (GId b) with TIdent _ => negb (contains b "_") | _ => true end) builtins = true) by reflexivity.
    rewrite forallb_forall in X. specialize (X i R). rewrite B in X. apply negb_true_iff, X.
  - apply in_map_iff in R. destruct R as [e [<- R]]. apply left_plain, R.
Qed.
Lemma underscore_plain f : (forall d, In d f -> supported_decl d = true /\ rename_decl strip d = d) -> fixUnderscoreInTypeName f = Ok f.
Proof.
  intros H. rewrite underscore_renames; [|apply forallb_forall; intros d J; apply H, J]. f_equal.
  rewrite <- (map_id f) at 2. apply map_ext_in. intros d J. apply H, J.
Qed.
Theorem left_exact imports : fixUnderscoreInTypeName (import_rows imports ++ flat_map const_row D' ++ map (type_row np) D')
  = Ok (import_rows imports ++ flat_map const_row D' ++ map (type_row np) D').
Proof.
  apply underscore_plain. intros d J. rewrite !in_app_iff in J. destruct J as [J|[J|J]].
  - unfold import_rows in J. destruct imports as [|i is_]; [destruct J|]. destruct J as [<-|[]].
    split; [cbn; induction is_ as [|x xs IH]; [reflexivity|exact IH]|]. cbn [rename_decl]. do 2 f_equal. rewrite map_map. reflexivity.
  - apply in_flat_map in J. destruct J as [e [J K]]. unfold const_row in K. destruct (snd (fst e)) as [|kv c]; [destruct K|]. destruct K as [<-|[]].
    pose proof (left_plain e J) as P. destruct (by_key (kv :: c)) as [|x xs] eqn:B.
    { apply by_key_nil in B. discriminate. }
    split.
    + cbn [supported_decl map]. apply forallb_forall. intros s K. change (In s (map (fun kv0 => SValue [(dname e ++ fst kv0)%string] (Some (TIdent (dname e)))) (x :: xs))) in K.
      apply in_map_iff in K. destruct K as [y [<- _]]. unfold clean_spec, GocodeProofs.clean. cbn [idents forallb]. rewrite P. reflexivity.
    + cbn [rename_decl map rename_spec]. apply contains_strip in P. cbn [rename option_map]. rewrite P. do 2 f_equal. rewrite map_map. apply map_ext. intros y.
      cbn [rename_spec rename option_map]. rewrite P. reflexivity.
  - apply in_map_iff in J. destruct J as [e [<- J]]. pose proof (left_plain e J) as P. pose proof (left_clean e J) as C. unfold type_row. split.
    + cbn [supported_decl forallb]. unfold supported_type. rewrite P, C. reflexivity.
    + cbn [rename_decl map rename_spec]. apply contains_strip in P. rewrite P. rewrite (rename_id strip _ (proj1 (clean_spec_iff _) C)).
      unfold rename_comment. destruct (comment_of e); [reflexivity|]. rewrite P, String.eqb_refl. reflexivity.
Qed.

(** Data. *)
Theorem left_data n s j : In (n, Inl s) l -> is_union s = false -> keeps env' l' np (Inl (blur env s)) j ->
  exists m, forall k, m <= k -> through (doc_types u env' np l') k (GId (schemaNameToTypeName u n)) j = Ok j.
Proof.
  intros J U. apply (component_keeps u env' l' np left_ok left_kept left_nodup left_env).
  apply in_map_iff. exists (n, Inl s). split; [reflexivity|]. apply filter_In. split; [exact J|]. unfold stays. cbn [snd]. rewrite U. reflexivity.
Qed.
End Facts.

Lemma left_file u env parse np l :
  doc_ok l -> (forall p, In p l -> fits_component env p) ->
  (forall n r, In (n, r) l -> env (ref_to n) = value env r) ->
  (forall p q, In p l -> In q (refs_ref (snd p)) -> exists n, q = ref_to n /\ In n (map fst l)) ->
  NoDup (dnames (doc_decls u env l)) ->
  (forall d, In d (doc_decls u env l) -> go_name (dname d) /\ comment_ok d /\ good_consts (snd (fst d)) /\
     parse (render (dty d)) = go_of (dty d)) ->
  forall same imports k, doc_depth l <= k ->
  exists ts f, generateTypesForSchemas u env k l = Ok ts /\ generated u parse same imports ts = Ok f /\
    let rest := doc_decls u (blur_env env) (blur_doc env l) in
    let left := import_rows imports ++ flat_map const_row rest ++ map (type_row np) rest in
    passes np f = fixUnderscoreInTypeName left /\
    ((forall d, In d (doc_decls u env l) -> contains (dname d) "_" = false) -> passes np f = Ok left).
Proof.
  intros OK FIT ENV REFS ND G same imports k K.
  destruct (union_file u env parse np l OK FIT ENV REFS ND (fun d J => proj1 (G d J)) (fun d J => proj1 (proj2 (G d J)))
    (fun d J => proj1 (proj2 (proj2 (G d J)))) (fun d J => proj2 (proj2 (proj2 (G d J)))) same imports k K) as [ts [f [E1 [E2 E3]]]].
  exists ts, f. split; [exact E1|]. split; [exact E2|]. cbv zeta. split; [exact E3|]. intros PLAIN. rewrite E3.
  apply left_exact; auto. intros d J. apply G, J.
Qed.

(** *** The file before the passes *)
Definition types_of (f : list Gocode.decl) : list string :=
  flat_map (fun d => match d with
    | DGen _ ss => flat_map (fun s => match s with SType n _ => [n] | _ => [] end) ss
    | DFunc _ _ _ _ => []
    end) f.

(** Methods that change their receiver. *)
Definition stores (name : string) : bool :=
  String.prefix "From" name || String.prefix "Merge" name || String.eqb name "UnmarshalJSON" || String.eqb name "Set".

Lemma types_app f g : types_of (f ++ g) = types_of f ++ types_of g.
Proof. apply flat_map_app. Qed.
Lemma types_none f : (forall d, In d f -> types_of [d] = []) -> types_of f = [].
Proof.
  induction f as [|d f IH]; intros H; [reflexivity|]. change (types_of (d :: f)) with (types_of ([d] ++ f)).
  rewrite types_app, (H d (or_introl eq_refl)). apply IH. intros e I. apply H. right. exact I.
Qed.

Lemma boiler_method u parse l d : In d (boilerplate u parse l) -> exists t p name sig, In t l /\
  d = method p (fst (fst t)) name sig /\ p = stores name.
Proof.
  assert (M : forall t, In t l -> In d (marshal (fst (fst t))) -> exists t p name sig, In t l /\
    d = method p (fst (fst t)) name sig /\ p = stores name).
  { intros t I [<-|[<-|[]]]; exists t; do 3 eexists; (split; [exact I|]); (split; [reflexivity|]); reflexivity. }
  assert (A : forall ts seen t, In t (addl_types seen ts) -> In t ts).
  { induction ts as [|[[n j] g] ts IH]; intros seen t I; [destruct I|]. cbn [addl_types] in I.
    destruct (existsb _ seen); [right; exact (IH _ _ I)|]. destruct (g_has g); [|right; exact (IH _ _ I)].
    destruct I as [<-|I]; [left; reflexivity|right; exact (IH _ _ I)]. }
  unfold boilerplate. rewrite !in_app_iff, !in_flat_map. intros [[t [I J]]|[[t [I J]]|[t [I J]]]].
  - apply A in I. destruct t as [[n j] g]. unfold addl_methods in J. apply in_app_iff in J as [[<-|[<-|[]]]|J].
    + exists (n, j, g). do 3 eexists. split; [exact I|]. split; reflexivity.
    + exists (n, j, g). do 3 eexists. split; [exact I|]. split; reflexivity.
    + destruct (g_union g); [apply (M (n, j, g)); assumption|destruct J].
  - apply filter_In in I as [I _]. destruct t as [[n j] g]. unfold union_methods in J. apply in_app_iff in J as [J|J].
    + apply in_flat_map in J as [e [_ [<-|[<-|[<-|[]]]]]]; exists (n, j, g); do 3 eexists; (split; [exact I|]); (split; [reflexivity|]); destruct (method_name u e); reflexivity.
    + destruct (g_has g); [destruct J|apply (M (n, j, g)); assumption].
  - apply filter_In in I as [I _]. apply (M t); assumption.
Qed.

Lemma generated_file u parse same imports l f : generated u parse same imports l = Ok f ->
  NoDup (types_of f) /\ (forall n, In n (types_of f) <-> In n (tnames l)) /\
  (forall c r n sig, In (DFunc c r n sig) f -> exists t, In t (tnames l) /\
     r = Some [(["t"], if stores n then TStar (TIdent t) else TIdent t)]).
Proof.
  unfold generated. destruct (unique_types same [] l) as [ts| | |] eqn:E; try discriminate. cbn [bind]. intros F. injection F as <-.
  destruct (unique_sound same l [] ts E) as [N [B C]].
  assert (T : types_of (map (type_decl parse) ts) = tnames ts).
  { clear. induction ts as [|[[n j] g] ts IH]; [reflexivity|]. cbn [map types_of flat_map type_decl tnames fst]. cbn [app]. f_equal. exact IH. }
  assert (K : types_of (map const_decl (enum_types u [] l)) = []).
  { apply types_none. intros d I. apply in_map_iff in I as [[[n v] vs] [<- _]]. cbn [types_of flat_map const_decl]. rewrite app_nil_r.
    generalize (by_key vs). intros ws. induction ws as [|w ws IH]; [reflexivity|]. cbn [map flat_map app]. exact IH. }
  assert (I0 : types_of (match imports with [] => [] | _ => [DGen [] (map SImport imports)] end) = []).
  { destruct imports as [|i is]; [reflexivity|]. cbn [types_of flat_map]. rewrite app_nil_r. clear. generalize (i :: is). intros ws.
    induction ws as [|w ws IH]; [reflexivity|]. cbn [map flat_map app]. exact IH. }
  assert (Q : types_of (boilerplate u parse l) = []).
  { apply types_none. intros d I. apply boiler_method in I as [t [p [nm [sig [_ [-> _]]]]]]. reflexivity. }
  rewrite !types_app, T, K, I0, Q, app_nil_r. cbn [app]. split; [exact N|]. split.
  - intros n. split.
    + intros I. apply in_map_iff in I as [d [<- I]]. apply in_map_iff. exists d. split; [reflexivity|apply B, I].
    + intros I. destruct (C n I) as [[]|G]. exact G.
  - intros c r n sig I. rewrite !in_app_iff in I. destruct I as [I|[I|[I|I]]].
    + destruct imports; [destruct I|]. destruct I as [I|[]]. discriminate.
    + apply in_map_iff in I as [[[? ?] ?] [I _]]. discriminate.
    + apply in_map_iff in I as [[[? ?] ?] [I _]]. discriminate.
    + apply boiler_method in I as [t [p [nm [sg [J [I ->]]]]]]. unfold method in I. injection I as _ -> -> _.
      exists (fst (fst t)). split; [apply in_map_iff; exists t; auto|reflexivity].
Qed.

(** *** Documents that do not fit *)

(** A parser that is right about the types of the declarations. *)
Definition parse_in (ds : list decl) (s : string) : gtype :=
  match find (fun d => String.eqb (render (dty d)) s) ds with Some d => go_of (dty d) | None => go_of (GId s) end.
Definition env_of (l : list (string * sref)) (q : string) : schema :=
  match find (fun p => String.eqb (ref_to (fst p)) q) l with Some (_, Inl s) => s | _ => object_of [] end.

(** The declarations of a document, and what is left of its file. *)
Definition planned (u : unicode) (l : list (string * sref)) : list decl := doc_decls u (env_of l) l.
Definition final (u : unicode) (np : bool) (l : list (string * sref)) : outcome (list Gocode.decl) :=
  ts <- generateTypesForSchemas u (env_of l) (doc_depth l) l ;;
  f <- generated u (parse_in (planned u l)) (fun _ _ => false) [] ts ;;
  passes np f.

(** The declarations were complete, but what is left uses a name that is not
    declared. *)
Definition complete (ds : list decl) : Prop :=
  NoDup (dnames ds) /\ forall d id, In d ds -> In id (ids (dty d)) -> In id builtins \/ In id (dnames ds).
Definition dangles (u : unicode) (np : bool) (l : list (string * sref)) (n : string) : Prop :=
  complete (planned u l) /\
  exists g, final u np l = Ok g /\ In n (GocodeProofs.refs g) /\ ~ In n (declared g) /\ ~ In n builtins.

Fixpoint nodup_b (l : list string) : bool := match l with [] => true | x :: r => negb (mem x r) && nodup_b r end.
Lemma nodup_b_sound l : nodup_b l = true -> NoDup l.
Proof.
  induction l as [|x l IH]; [constructor|]. cbn [nodup_b]. intros H. apply andb_true_iff in H. destruct H as [H1 H2].
  constructor; [|apply IH, H2]. intros J. apply mem_in in J. rewrite J in H1. discriminate.
Qed.
Definition complete_b (ds : list decl) : bool :=
  nodup_b (dnames ds) && forallb (fun d => forallb (fun i => mem i builtins || mem i (dnames ds)) (ids (dty d))) ds.
Lemma complete_of ds : complete_b ds = true -> complete ds.
Proof.
  intros H. apply andb_true_iff in H. destruct H as [H1 H2]. split; [apply nodup_b_sound, H1|]. intros d id J K.
  rewrite forallb_forall in H2. specialize (H2 d J). rewrite forallb_forall in H2. specialize (H2 id K).
  apply orb_true_iff in H2. destruct H2 as [H2|H2]; apply mem_in in H2; auto.
Qed.
Definition dangles_b (u : unicode) (np : bool) (l : list (string * sref)) (n : string) : bool :=
  complete_b (planned u l) && match final u np l with
  | Ok g => mem n (GocodeProofs.refs g) && negb (mem n (declared g)) && negb (mem n builtins)
  | _ => false
  end.
Lemma dangles_of u np l n : dangles_b u np l n = true -> dangles u np l n.
Proof.
  intros H. apply andb_true_iff in H. destruct H as [H1 H2]. split; [apply complete_of, H1|].
  destruct (final u np l) as [g| | |]; try discriminate. exists g. split; [reflexivity|].
  apply andb_true_iff in H2. destruct H2 as [H2 H4]. apply andb_true_iff in H2. destruct H2 as [H2 H3].
  apply negb_true_iff in H3. apply negb_true_iff in H4. split; [apply mem_in, H2|].
  split; intros J; apply mem_in in J; congruence.
Qed.

(** No character has special properties, as for ASCII names. *)
Definition plain_unicode : unicode :=
  Build_unicode (fun _ => false) (fun _ => false) (fun _ => false) (fun _ => false) (fun _ => false) (fun r => r).

Definition to (n : string) : sref := Ref (ref_to n).
Definition union_schema (es : list sref) : schema :=
  Sch (base_of "" [] false false) [] None None None None (Some es).
Definition bools : sref := Inl (Sch (plain_base "boolean") [] None None None None None).
Definition list_of (r : sref) : sref := Inl (Sch (plain_base "array") [] (Some r) None None None None).
Definition map_of (r : sref) : sref := Inl (Sch (plain_base "object") [] None (Some r) None None None).
Definition required (ps : list (string * sref)) : schema := Sch (base_of "object" (map fst ps) false false) ps None None None None None.
Definition the_union : string * sref := ("U", Inl (union_schema [strs; bools])).

Definition maps_doc : list (string * sref) := [the_union; ("A", Inl (required [("p", list_of (map_of (to "U")))]))].
Definition structs_doc : list (string * sref) := [the_union; ("A", Inl (required [("p", map_of (Inl (required [("q", to "U")])))]))].
Definition alias_doc : list (string * sref) := [the_union; ("A", to "U")].
Definition enum_doc : list (string * sref) := [("A", Inl (union_schema [enum_schema ["x"]; strs]))].
Definition nested_doc : list (string * sref) :=
  [("A", Inl (required [("p", to "C")])); ("B", Inl (union_schema [strs; Inl (union_schema [to "A"; to "C"])])); ("C", Inl (required [("q", strs)]))].
Definition mixed_doc : list (string * sref) :=
  [("A", Inl (Sch (plain_base "object") [("p", strs)] None None None None (Some [bools])))].

Lemma all_dangle : forall np,
  dangles plain_unicode np maps_doc "U" /\ dangles plain_unicode np structs_doc "U" /\ dangles plain_unicode np alias_doc "U" /\
  dangles plain_unicode np enum_doc "A0" /\ dangles plain_unicode np nested_doc "C".
Proof.
  intros []; (split; [|split; [|split; [|split]]]); apply dangles_of; vm_compute; reflexivity.
Qed.
Lemma mixed_left : exists c t, final plain_unicode true mixed_doc =
  Ok [DGen c [SType "A" (TStruct [(["P"], t); (["union"], TSel "json" "RawMessage")])]].
Proof. do 2 eexists. vm_compute. reflexivity. Qed.
