(** Lemmas about the constants of the security schemes. *)
From Verif Require Import Prelude Strings Version Util GenName GenNameProofs GenType Gocode GenTypeProofs GenTagProofs
  GoJsonSpec GoJsonProofs GenEnumProofs Utf8Proofs GenCommentProofs GenUnionFacts ScopeConst.
From Coq Require Import Sorting.Permutation.
Local Open Scope string_scope.
Local Open Scope list_scope.

(** *** Decoding gives characters *)

Lemma cont_some lo hi r b s : cont lo hi r = Some (b, s) -> (128 <= lo)%N -> (lo - 128 <= b <= hi - 128)%N.
Proof.
  destruct r as [|c r]; [discriminate|]. cbn [cont]. unfold in_range.
  destruct (N.leb_spec lo (byte c)) as [A|A]; [|discriminate].
  destruct (N.leb_spec (byte c) hi) as [B|B]; [|discriminate]. cbn [andb]. intros E. injection E as <- _. lia.
Qed.

Lemma bad_scalar : scalar (fst bad).
Proof. right. cbn. lia. Qed.

Lemma decode_scalar a r : scalar (fst (decode_rune a r)).
Proof.
  unfold decode_rune, in_range. set (x := byte a). clearbody x.
  destruct (N.ltb_spec x 128) as [H|H]; [left; cbn; lia|].
  destruct (N.leb_spec 194 x) as [H1|H1], (N.leb_spec x 223) as [H2|H2]; cbn [andb].
  1:{ unfold decode2. destruct (cont 128 191 r) as [[b s]|] eqn:E; [|apply bad_scalar].
      pose proof (cont_some _ _ _ _ _ E). left. cbn [fst]. lia. }
  all: destruct (N.eqb_spec x 224) as [Q|Q]; [|destruct (N.eqb_spec x 237) as [Q1|Q1]].
  all: destruct (N.leb_spec 225 x) as [H3|H3], (N.leb_spec x 239) as [H4|H4]; try lia; cbn [andb];
    destruct (N.eqb_spec x 240) as [Q2|Q2]; try lia;
    destruct (N.leb_spec 241 x) as [H5|H5], (N.leb_spec x 243) as [H6|H6]; try lia; cbn [andb];
    destruct (N.eqb_spec x 244) as [Q3|Q3]; try lia; try apply bad_scalar.
  all: unfold decode3, decode4;
    repeat match goal with |- context [cont ?lo ?hi ?r] =>
      let E := fresh "E" in destruct (cont lo hi r) as [[? ?]|] eqn:E; [apply cont_some in E; [|lia]|apply bad_scalar] end;
    cbn [fst]; unfold scalar; lia.
Qed.

Lemma runes_scalar s : Forall scalar (runes s).
Proof.
  unfold runes. generalize 0 as k. induction s as [|a r IH]; intros k; [constructor|]. cbn [runes_from].
  destruct k as [|k]; [|apply IH]. pose proof (decode_scalar a r) as H. destruct (decode_rune a r) as [x w].
  constructor; [exact H|apply IH].
Qed.

(** *** A sanitized name stays as it is *)

Lemma underscore_valid u f : isValidRuneForGoID u f (rune "_") = true.
Proof. destruct f; reflexivity. Qed.

Lemma valid_later u f r : isValidRuneForGoID u f r = true -> isValidRuneForGoID u false r = true.
Proof. destruct f; [|auto]. unfold isValidRuneForGoID. cbn [andb]. destruct (is_number u r); [discriminate|auto]. Qed.

Lemma clean_again u rs : forall f g, (g = f \/ g = false) ->
  sanitize_runes u g (sanitize_runes u f rs) = sanitize_runes u f rs.
Proof.
  induction rs as [|r rs IH]; intros f g G; [reflexivity|]. cbn [sanitize_runes]. rewrite IH by auto.
  destruct (isValidRuneForGoID u f r) eqn:E.
  - replace (isValidRuneForGoID u g r) with true; [reflexivity|].
    destruct G as [-> | ->]; [congruence|]. symmetry. apply (valid_later u f), E.
  - rewrite underscore_valid. reflexivity.
Qed.

Lemma clean_scalar u rs : Forall scalar rs -> forall f, Forall scalar (sanitize_runes u f rs).
Proof.
  induction 1 as [|r rs V F IH]; intros f; [constructor|]. cbn [sanitize_runes]. constructor; [|apply IH].
  destruct (isValidRuneForGoID u f r); [exact V|]. left. reflexivity.
Qed.

Lemma sanitize_again u s t : sanitizeGoIdentity u s = Ok t -> sanitizeGoIdentity u t = Ok t.
Proof.
  intros E. destruct (sanitize_total u t) as [t' E']. rewrite E'. unfold sanitizeGoIdentity in E, E'. cbv zeta in E, E'.
  pose proof (clean_scalar u _ (runes_scalar s) true) as V. 
  set (rs := sanitize_runes u true (runes s)) in *.
  assert (I : sanitize_runes u true rs = rs) by (apply clean_again; auto).
  assert (J : sanitize_runes u false rs = rs) by (apply clean_again; auto). clearbody rs.
  destruct (isGoKeyword (encode rs) || isPredeclared (encode rs)) eqn:K.
  - destruct (isValidGoIdentity u _) in E; [|discriminate].
    assert (T : t = ("_" ++ encode rs)%string) by congruence. clear E.
    assert (R : runes t = rune "_" :: rs).
    { rewrite T. change ("_" ++ encode rs)%string with (encode (rune "_" :: rs)). apply runes_encode.
      constructor; [left; reflexivity|exact V]. }
    assert (R' : encode (sanitize_runes u true (rune "_" :: rs)) = t).
    { cbn [sanitize_runes]. rewrite underscore_valid, J, T. reflexivity. }
    rewrite R, R' in E'.
    assert (K' : isGoKeyword t || isPredeclared t = false).
    { rewrite T. unfold isGoKeyword, isPredeclared. rewrite !underscore_not by reflexivity. reflexivity. }
    rewrite K' in E'. destruct (isValidGoIdentity u t) in E'; [|discriminate]. congruence.
  - destruct (isValidGoIdentity u (encode rs)) eqn:Q in E; [|discriminate]. injection E as <-.
    rewrite runes_encode, I, K, Q in E' by exact V. congruence.
Qed.

(** *** Lists *)

Lemma omap_in {A B} (f : A -> outcome B) : forall l ys, omap f l = Ok ys ->
  forall y, In y ys <-> exists x, In x l /\ f x = Ok y.
Proof.
  induction l as [|x l IH]; intros ys E y; cbn [omap] in E.
  - injection E as <-. split; [intros []|intros [x [[] _]]].
  - destruct (f x) as [z| | |] eqn:F; try discriminate. cbn [bind] in E.
    destruct (omap f l) as [zs| | |] eqn:G; try discriminate. injection E as <-. cbn [In]. rewrite (IH zs eq_refl y). split.
    + intros [<-|[x' [A1 A2]]]; eauto.
    + intros [x' [[<-|A1] A2]]; [left; congruence|right; eauto].
Qed.

Lemma omap_total {A B} (f : A -> outcome B) : (forall x, exists y, f x = Ok y) -> forall l, exists ys, omap f l = Ok ys.
Proof.
  intros T. induction l as [|x l [ys E]]; [eexists; reflexivity|]. cbn [omap]. destruct (T x) as [y ->]. cbn [bind].
  rewrite E. eexists. reflexivity.
Qed.

Lemma omap_map {A B C} (f : A -> outcome B) (g : B -> C) (h : A -> C) : forall l ys, omap f l = Ok ys ->
  (forall x y, In x l -> f x = Ok y -> g y = h x) -> map g ys = map h l.
Proof.
  induction l as [|x l IH]; intros ys E H; cbn [omap] in E.
  - injection E as <-. reflexivity.
  - destruct (f x) as [z| | |] eqn:F; try discriminate. cbn [bind] in E.
    destruct (omap f l) as [zs| | |] eqn:G; try discriminate. injection E as <-. cbn [map].
    rewrite (H x z (or_introl eq_refl) F), (IH zs eq_refl); [reflexivity|]. intros; eapply H; [right|]; eauto.
Qed.

Section S.
Context (u : unicode).

Lemma names_ok ops : exists ns, providerNames u ops = Ok ns /\ increasing ns /\
  forall n, In n ns <-> exists op def, In op ops /\ In def op /\ sanitizeGoIdentity u (fst def) = Ok n.
Proof.
  unfold providerNames. set (f := fun def : string * list string => _).
  destruct (omap_total f (fun def => sanitize_total u (fst def)) (flat_map (fun op => op) ops)) as [ns E].
  rewrite E. cbn [bind]. eexists. split; [reflexivity|].
  assert (Q : map fst (map (fun n : string => (n, tt)) (nodup string_dec ns)) = nodup string_dec ns).
  { rewrite map_map. apply map_id. }
  split.
  - apply by_key_increasing. rewrite Q. apply NoDup_nodup.
  - intros n. transitivity (In n ns).
    + rewrite <- (nodup_In string_dec ns n). rewrite <- Q at 2. split; apply Permutation_in.
      * apply Permutation_map, by_key_perm.
      * apply Permutation_map, Permutation_sym, by_key_perm.
    + rewrite (omap_in f _ _ E n). split.
      * intros [def [A B]]. apply in_flat_map in A. destruct A as [op [A1 A2]]. exists op, def. auto.
      * intros [op [def [A [B C]]]]. exists def. split; [|exact C]. apply in_flat_map. eauto.
Qed.

Lemma constant_ok p : sanitizeGoIdentity u p = Ok p ->
  scopesConstant u p = Ok ((uppercaseFirst u p ++ "Scopes")%string, (p ++ ".Scopes")%string).
Proof. intros E. unfold scopesConstant. rewrite E. reflexivity. Qed.

Lemma constants_ok ops : exists ns, providerNames u ops = Ok ns /\
  generateConstants u ops
  = Ok (map (fun n => ((uppercaseFirst u n ++ "Scopes")%string, (n ++ ".Scopes")%string)) ns).
Proof.
  destruct (names_ok ops) as [ns [E [_ H]]]. exists ns. split; [exact E|]. unfold generateConstants. rewrite E. cbn [bind].
  assert (A : forall n, In n ns -> sanitizeGoIdentity u n = Ok n).
  { intros n I. apply H in I. destruct I as [op [def [_ [_ I]]]]. eapply sanitize_again, I. }
  clear E H. induction ns as [|n ns IH]; [reflexivity|]. cbn [omap map]. rewrite constant_ok by (apply A; left; reflexivity).
  cbn [bind]. rewrite IH by (intros; apply A; right; assumption). reflexivity.
Qed.

Lemma declared ops : exists cs, generateConstants u ops = Ok cs /\
  forall op def, In op ops -> In def op ->
  exists n, scopesUsed u def = Ok n /\ In n (map fst cs).
Proof.
  destruct (names_ok ops) as [ns [E [_ H]]]. destruct (constants_ok ops) as [ns' [E' C]].
  rewrite E in E'. injection E' as <-. eexists. split; [exact C|]. intros op def I J.
  destruct (sanitize_total u (fst def)) as [t T]. unfold scopesUsed. rewrite T. cbn [bind]. eexists. split; [reflexivity|].
  rewrite map_map. cbn [fst]. apply in_map_iff. exists t. split; [reflexivity|]. apply H. eauto.
Qed.

Lemma only_used ops cs n v : generateConstants u ops = Ok cs -> In (n, v) cs ->
  exists op def t, In op ops /\ In def op /\ sanitizeGoIdentity u (fst def) = Ok t /\
    scopesUsed u def = Ok n /\ v = (t ++ ".Scopes")%string.
Proof.
  destruct (names_ok ops) as [ns [E [_ H]]]. destruct (constants_ok ops) as [ns' [E' C]].
  rewrite E in E'. injection E' as <-. rewrite C. intros X. injection X as <-. intros I.
  apply in_map_iff in I. destruct I as [t [I1 I2]]. injection I1 as <- <-. apply H in I2.
  destruct I2 as [op [def [A [B T]]]]. exists op, def, t. repeat split; auto. unfold scopesUsed. rewrite T. reflexivity.
Qed.

Lemma append_inj_r a b s : (a ++ s)%string = (b ++ s)%string -> a = b.
Proof.
  revert b. induction a as [|c a IH]; intros [|d b] E; auto.
  - exfalso. apply (f_equal String.length) in E. cbn in E. rewrite str_length_app in E. lia.
  - exfalso. apply (f_equal String.length) in E. cbn in E. rewrite str_length_app in E. lia.
  - cbn in E. injection E as <- E. f_equal. apply IH, E.
Qed.

Lemma values_apart ops cs : generateConstants u ops = Ok cs -> NoDup (map snd cs).
Proof.
  destruct (names_ok ops) as [ns [E [S' _]]]. destruct (constants_ok ops) as [ns' [E' C]].
  rewrite E in E'. injection E' as <-. rewrite C. intros X. injection X as <-. rewrite map_map. cbn [snd].
  apply FinFun.Injective_map_NoDup; [|apply increasing_nodup, S']. intros a b Q. eapply append_inj_r, Q.
Qed.

Lemma names_apart ops cs : (forall op def, In op ops -> In def op -> word (fst def)) ->
  generateConstants u ops = Ok cs ->
  NoDup (map fst cs) /\
  forall p, (exists op def, In op ops /\ In def op /\ fst def = p) <-> In ((p ++ "Scopes")%string, (p ++ ".Scopes")%string) cs.
Proof.
  intros W. destruct (names_ok ops) as [ns [E [S' H]]]. destruct (constants_ok ops) as [ns' [E' C]].
  rewrite E in E'. injection E' as <-. rewrite C. intros X. injection X as <-.
  assert (A : forall n, In n ns -> word n).
  { intros n I. apply H in I. destruct I as [op [def [I [J T]]]]. pose proof (W op def I J) as V.
    rewrite sanitize_word in T by exact V. congruence. }
  assert (M : map (fun n => ((uppercaseFirst u n ++ "Scopes")%string, (n ++ ".Scopes")%string)) ns
    = map (fun n => ((n ++ "Scopes")%string, (n ++ ".Scopes")%string)) ns).
  { apply map_ext_in. intros n I. rewrite (upper_word u (fun _ => GenUnionFacts.union_schema []) n (A n I)). reflexivity. }
  rewrite M. split.
  - rewrite map_map. cbn [fst].
    apply FinFun.Injective_map_NoDup; [|apply increasing_nodup, S']. intros a b Q. eapply append_inj_r, Q.
  - intros p. split.
    + intros [op [def [I [J <-]]]]. apply in_map_iff. exists (fst def). split; [reflexivity|]. apply H. exists op, def.
      repeat split; auto. apply sanitize_word. eauto.
    + intros I. apply in_map_iff in I. destruct I as [n [Q I]]. injection Q as Q _. apply append_inj_r in Q. subst n.
      apply H in I. destruct I as [op [def [I [J T]]]]. exists op, def. repeat split; auto.
      rewrite sanitize_word in T by eauto. congruence.
Qed.
End S.

Lemma twice : exists u ops cs, generateConstants u ops = Ok cs /\ ~ NoDup (map fst cs).
Proof.
  exists plain_unicode, [[("apiKey", [])]; [("ApiKey", [])]],
    [("ApiKeyScopes", "ApiKey.Scopes"); ("ApiKeyScopes", "apiKey.Scopes")].
  split; [reflexivity|]. intros N. inversion N as [|x l A B]. apply A. left. reflexivity.
Qed.

Lemma shared : exists u a b cs n, fst a <> fst b /\ snd a <> snd b /\
  generateConstants u [[a; b]] = Ok cs /\ scopesUsed u a = Ok n /\ scopesUsed u b = Ok n /\ map fst cs = [n].
Proof.
  exists plain_unicode, ("api-key", ["read"]), ("api_key", ["write"]), [("Api_keyScopes", "api_key.Scopes")], "Api_keyScopes".
  cbn [fst snd]. repeat split; try discriminate; reflexivity.
Qed.

Lemma in_order u ops cs : generateConstants u ops = Ok cs ->
  exists ns, increasing ns /\ map snd cs = map (fun n => (n ++ ".Scopes")%string) ns.
Proof.
  destruct (names_ok u ops) as [ns [E [S' _]]]. destruct (constants_ok u ops) as [ns' [E' C]].
  rewrite E in E'. injection E' as <-. rewrite C. intros X. injection X as <-. exists ns. split; [exact S'|].
  rewrite map_map. reflexivity.
Qed.
