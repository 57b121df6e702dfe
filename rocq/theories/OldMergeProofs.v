(** Proofs about the old way of merging compositions. *)
From Verif Require Import Prelude Strings Version GenName RespCase GenType OldMerge OldMergeSpec.
Local Open Scope string_scope.
Local Open Scope list_scope.

Lemma equal_iff : forall a b, propertiesEqual a b = true <->
  p_name (fst a) = p_name (fst b) /\ typeDecl (snd a) = typeDecl (snd b) /\ p_req (fst a) = p_req (fst b).
Proof.
  intros a b. unfold propertiesEqual. rewrite !andb_true_iff, !String.eqb_eq, eqb_true_iff. tauto.
Qed.

Lemma clash_none : forall ps p,
  find (fun e => String.eqb (p_name (fst e)) (p_name (fst p)) && negb (propertiesEqual e p)) ps = None <->
  forall e, In e ps -> agree e p.
Proof.
  intros ps p. split.
  - intros F e I N. pose proof (find_none _ _ F e I) as X. cbv beta in X.
    rewrite (proj2 (String.eqb_eq _ _) N) in X. cbn in X. apply negb_false_iff, equal_iff in X. tauto.
  - intros A. induction ps as [|e r IH]; [reflexivity|]. cbn [find].
    destruct (String.eqb (p_name (fst e)) (p_name (fst p))) eqn:N.
    + apply String.eqb_eq in N. destruct (A e (or_introl eq_refl) N) as [T R].
      rewrite (proj2 (equal_iff e p) (conj N (conj T R))). cbn. apply IH. intros x I. apply A. right. exact I.
    + cbn. apply IH. intros x I. apply A. right. exact I.
Qed.

Lemma agree_sym : forall p q, agree p q -> agree q p.
Proof. intros p q A N. destruct (A (eq_sym N)). split; congruence. Qed.
Lemma agree_refl : forall p, agree p p.
Proof. intros p _. split; reflexivity. Qed.

Definition all_agree (ps : list (pinfo * gsch)) : Prop := forall p q, In p ps -> In q ps -> agree p q.

Lemma add_ok : forall qs ps, all_agree (ps ++ qs) -> addProperties ps qs = Ok (ps ++ qs).
Proof.
  induction qs as [|q r IH]; intros ps A; cbn [addProperties].
  - rewrite app_nil_r. reflexivity.
  - unfold addProperty.
    rewrite (proj2 (clash_none ps q)).
    2:{ intros e I. apply A; apply in_or_app; [left; exact I | right; left; reflexivity]. }
    cbn [because bind]. change (ps ++ q :: r) with (ps ++ [q] ++ r) in A |- *. rewrite app_assoc in A |- *. apply IH. exact A.
Qed.

Lemma add_only : forall qs ps out, all_agree ps -> addProperties ps qs = Ok out -> out = ps ++ qs /\ all_agree out.
Proof.
  induction qs as [|q r IH]; intros ps out A E; cbn [addProperties] in E.
  - injection E as <-. rewrite app_nil_r. split; [reflexivity | exact A].
  - unfold addProperty in E.
    destruct (find _ ps) as [e|] eqn:F; cbn [because bind] in E; [discriminate|].
    pose proof (proj1 (clash_none ps q) F) as C.
    destruct (IH (ps ++ [q]) out) as [X Y]; [|exact E|].
    + intros x y I J. apply in_app_or in I, J. destruct I as [I|[<-|[]]], J as [J|[<-|[]]].
      * apply A; assumption.
      * apply C. exact I.
      * apply agree_sym, C. exact J.
      * apply agree_refl.
    + rewrite <- app_assoc in X. split; [exact X | exact Y].
Qed.

Section Merge.
Variable u : unicode.
Variable gen : sref -> list string -> outcome gsch.
Variable path : list string.

Definition made (r : sref) (g : gsch) : Prop := gen r path = Ok g.

(** The state after some parts. *)
Definition state_of (done : list gsch) (st : list (pinfo * gsch) * bool * string) : Prop :=
  let '(ps, has, addl) := st in
  ps = flat_map g_props done /\ has = existsb g_has done /\ first_addl done addl /\ compatible done.

Lemma first_more : forall done g a, first_addl done a -> existsb g_has done = true -> first_addl (done ++ [g]) a.
Proof.
  intros done g a [[N _]|(b & h & c & -> & B & H & ->)] X.
  - exfalso. apply existsb_exists in X as (h & I & H). rewrite (N h I) in H. discriminate.
  - right. exists b, h, (c ++ [g]). rewrite <- app_assoc. repeat split; auto.
Qed.

Lemma has_false : forall (gs : list gsch), existsb g_has gs = false -> forall g, In g gs -> g_has g = false.
Proof.
  intros gs E g I. destruct (g_has g) eqn:H; [|reflexivity].
  exfalso. assert (existsb g_has gs = true) by (apply existsb_exists; eauto). congruence.
Qed.

Lemma first_same : forall gs a g, compatible gs -> first_addl gs a -> In g gs -> g_has g = true -> g_addl g = a.
Proof.
  intros gs a g [_ C] [[N _]|(b & h & c & -> & B & H & ->)] I G.
  - rewrite (N g I) in G. discriminate.
  - apply C; auto. apply in_or_app. right. left. reflexivity.
Qed.

Lemma compatible_prefix : forall a b, compatible (a ++ b) -> compatible a.
Proof.
  intros a b [C D]. split.
  - intros p q I J. apply C; rewrite flat_map_app; apply in_or_app; left; assumption.
  - intros g h I J. apply D; apply in_or_app; left; assumption.
Qed.

Lemma step_ok : forall done st r g,
  state_of done st -> made r g -> named_refs u [r] -> compatible (done ++ [g]) ->
  exists st', old_step u gen path st r = Ok st' /\ state_of (done ++ [g]) st'.
Proof.
  intros done [[ps has] addl] r g (-> & -> & F & C) M N D. unfold made in M. cbn [old_step].
  assert (G : exists x, (if isGoTypeReference (ref_of r)
        then because "error converting reference path to a go type: " (refPathToGoType u (ref_of r)) else Ok "") = Ok x).
  { destruct (isGoTypeReference (ref_of r)) eqn:I; [|eauto].
    destruct (N r (or_introl eq_refl) I) as [t T]. rewrite T. cbn. eauto. }
  destruct G as [x G]. rewrite G. cbn [bind]. rewrite M. cbn [because bind].
  rewrite add_ok.
  2:{ intros p q I J. apply (proj1 D); rewrite flat_map_app; cbn [flat_map]; rewrite app_nil_r; assumption. }
  cbn [bind].
  assert (P : flat_map g_props done ++ g_props g = flat_map g_props (done ++ [g]))
    by (rewrite flat_map_app; cbn [flat_map]; rewrite app_nil_r; reflexivity).
  assert (H1 : existsb g_has (done ++ [g]) = existsb g_has done || g_has g)
    by (rewrite existsb_app; cbn; rewrite orb_false_r; reflexivity).
  destruct (g_has g) eqn:HG; [destruct (existsb g_has done) eqn:HD|].
  - apply existsb_exists in HD as X. destruct X as (h & I & H).
    pose proof (first_same _ _ h C F I H) as E1.
    assert (I1 : In g (done ++ [g])) by (apply in_or_app; right; left; reflexivity).
    assert (I2 : In h (done ++ [g])) by (apply in_or_app; left; exact I).
    pose proof (proj2 D g h I1 I2 HG H) as E2.
    rewrite E2, E1, String.eqb_refl. eexists. split; [reflexivity|].
    cbn. rewrite H1. split; [exact P|]. split; [reflexivity|]. split; [apply first_more; assumption | exact D].
  - eexists. split; [reflexivity|]. cbn. rewrite H1. split; [exact P|]. split; [reflexivity|]. split; [|exact D].
    right. exists done, g, []. repeat split; auto. apply has_false. exact HD.
  - eexists. split; [reflexivity|]. cbn. rewrite H1, orb_false_r. split; [exact P|]. split; [reflexivity|].
    split; [|exact D].
    destruct (existsb g_has done) eqn:HD; [apply first_more; assumption|].
    left. destruct F as [[N0 ->]|(b & h & c & -> & B & H & ->)].
    + split; [|reflexivity]. intros h I. apply in_app_or in I as [I|[<-|[]]]; auto.
    + exfalso. rewrite existsb_app in HD. cbn in HD. rewrite H in HD. cbn in HD. rewrite orb_true_r in HD. discriminate.
Qed.

Lemma loop_ok : forall l gs done st,
  state_of done st -> Forall2 made l gs -> named_refs u l -> compatible (done ++ gs) ->
  exists st', old_loop u gen path st l = Ok st' /\ state_of (done ++ gs) st'.
Proof.
  induction l as [|r l IH]; intros gs done st S0 F N C; inversion F as [|? g ? gs' M F']; subst; cbn [old_loop].
  - rewrite app_nil_r. eauto.
  - change (done ++ g :: gs') with (done ++ [g] ++ gs') in C |- *. rewrite app_assoc in C |- *.
    destruct (step_ok done st r g) as (st1 & E & S1); auto.
    + intros x [<-|[]]. apply N. left. reflexivity.
    + apply compatible_prefix in C. exact C.
    + rewrite E. cbn [bind]. apply IH; auto. intros x I. apply N. right. exact I.
Qed.

Lemma step_only : forall done st r st',
  state_of done st -> old_step u gen path st r = Ok st' ->
  exists g, made r g /\ state_of (done ++ [g]) st' /\ named_refs u [r].
Proof.
  intros done [[ps has] addl] r st' (-> & -> & F & C) E. cbn [old_step] in E.
  destruct (if isGoTypeReference (ref_of r) then _ else Ok "") as [x| | |] eqn:G in E; cbn [bind] in E; try discriminate.
  assert (N : named_refs u [r]).
  { intros y [<-|[]] I. rewrite I in G. destruct (refPathToGoType u (ref_of r)) eqn:T; cbn in G; try discriminate. eauto. }
  destruct (gen r path) as [g| | |] eqn:M; cbn [because bind] in E; try discriminate.
  exists g. split; [exact M|]. split; [|exact N].
  destruct (addProperties (flat_map g_props done) (g_props g)) as [ps'| | |] eqn:A; cbn [bind] in E; try discriminate.
  destruct (add_only _ _ _ (proj1 C) A) as [-> AA].
  assert (P : flat_map g_props done ++ g_props g = flat_map g_props (done ++ [g]))
    by (rewrite flat_map_app; cbn [flat_map]; rewrite app_nil_r; reflexivity).
  assert (H1 : existsb g_has (done ++ [g]) = existsb g_has done || g_has g)
    by (rewrite existsb_app; cbn; rewrite orb_false_r; reflexivity).
  rewrite P in AA.
  assert (K : (g_has g = true -> existsb g_has done = true -> g_addl g = addl) -> compatible (done ++ [g])).
  { intros K. split; [exact AA|]. intros a b I J HA HB.
    apply in_app_or in I, J. destruct I as [I|[<-|[]]], J as [J|[<-|[]]]; auto.
    - apply (proj2 C); assumption.
    - rewrite (K HB) by (apply existsb_exists; eauto). apply (first_same done); auto.
    - rewrite (K HA) by (apply existsb_exists; eauto). symmetry. apply (first_same done); auto. }
  destruct (g_has g) eqn:HG; [destruct (existsb g_has done) eqn:HD|].
  - destruct (String.eqb (g_addl g) addl) eqn:EA; [|discriminate]. injection E as <-. apply String.eqb_eq in EA.
    cbn. rewrite H1. split; [exact P|]. split; [reflexivity|]. split; [apply first_more; assumption | apply K; auto].
  - injection E as <-. cbn. rewrite H1. split; [exact P|]. split; [reflexivity|].
    split; [right; exists done, g, []; repeat split; auto; apply has_false; exact HD | apply K; congruence].
  - injection E as <-. cbn. rewrite H1, orb_false_r. split; [exact P|]. split; [reflexivity|]. split; [|apply K; congruence].
    destruct (existsb g_has done) eqn:HD; [apply first_more; assumption|].
    left. destruct F as [[N0 ->]|(b & h & c & -> & B & H & ->)].
    + split; [|reflexivity]. intros h I. apply in_app_or in I as [I|[<-|[]]]; auto.
    + exfalso. rewrite existsb_app in HD. cbn in HD. rewrite H in HD. cbn in HD. rewrite orb_true_r in HD. discriminate.
Qed.

Lemma loop_only : forall l done st st',
  state_of done st -> old_loop u gen path st l = Ok st' ->
  exists gs, Forall2 made l gs /\ state_of (done ++ gs) st' /\ named_refs u l.
Proof.
  induction l as [|r l IH]; intros done st st' S0 E; cbn [old_loop] in E.
  - injection E as <-. exists []. rewrite app_nil_r. repeat split; auto. intros r [].
  - destruct (old_step u gen path st r) as [st1| | |] eqn:E1; cbn [bind] in E; try discriminate.
    destruct (step_only _ _ _ _ S0 E1) as (g & M & S1 & N1).
    destruct (IH _ _ _ S1 E) as (gs & F & S2 & N2). exists (g :: gs).
    rewrite <- app_assoc in S2. repeat split; auto.
    intros x [<-|I]; [apply N1; left; reflexivity | apply N2; exact I].
Qed.

Lemma start : state_of [] ([], false, "").
Proof.
  cbn. repeat split; try contradiction; try reflexivity. left. split; [intros ? []|reflexivity].
Qed.

Lemma in_array : forall s l, stringInArray s l = true <-> In s l.
Proof.
  intros s l. unfold stringInArray. rewrite existsb_exists. split.
  - intros (x & I & E). apply String.eqb_eq in E. subst. exact I.
  - intros I. exists s. split; [exact I | apply String.eqb_refl].
Qed.

Lemma lines_ok : forall l gs before, Forall2 made l gs -> named_refs u l ->
  exists after, written u before (combine l gs) after /\ old_lines u gen path before l = Ok (after ++ ["}"]).
Proof.
  induction l as [|r l IH]; intros gs before F N; inversion F as [|? g ? gs' M F']; subst; cbn [old_lines combine].
  - exists before. split; [constructor | reflexivity].
  - assert (N' : named_refs u l) by (intros x I; apply N; right; exact I).
    destruct (isGoTypeReference (ref_of r)) eqn:R.
    + destruct (N r (or_introl eq_refl) R) as [t T]. rewrite T. cbn [bind].
      destruct (IH gs' (before ++ [("   // Embedded struct due to allOf(" ++ ref_of r ++ ")")%string;
         ("   " ++ t ++ " " ++ backquote ++ "yaml:" ++ dquote ++ ",inline" ++ dquote ++ backquote)%string]) F' N')
        as (after & W & E).
      exists after. split; [|exact E]. eapply w_ref; eauto.
    + unfold made in M. rewrite M. cbn [bind].
      set (fields := "   // Embedded fields due to inline allOf schema" :: genFields u (g_props g)).
      change (["   // Embedded fields due to inline allOf schema"] ++ genFields u (g_props g)) with fields.
      fold (addl_line (g_addl g)).
      destruct (g_has g && negb (stringInArray (addl_line (g_addl g)) (before ++ fields))) eqn:X.
      * apply andb_true_iff in X as [HG X]. apply negb_true_iff in X.
        destruct (IH gs' ((before ++ fields) ++ [addl_line (g_addl g)]) F' N') as (after & W & E).
        exists after. split; [|exact E]. eapply w_inline with (extra := [addl_line (g_addl g)]); eauto.
        -- left. repeat split; auto. intros I. apply in_array in I. fold fields in I. congruence.
        -- fold fields. rewrite app_assoc. exact W.
      * destruct (IH gs' (before ++ fields) F' N') as (after & W & E).
        exists after. split; [|exact E]. eapply w_inline with (extra := []); eauto.
        -- right. split; [|reflexivity]. destruct (g_has g); [right|left; reflexivity].
           cbn in X. apply negb_false_iff, in_array in X. exact X.
        -- fold fields. rewrite app_nil_r. exact W.
Qed.

Lemma merged_ok : forall l gs, Forall2 made l gs -> named_refs u l -> compatible gs ->
  exists lines a,
    written u ["struct {"] (combine l gs) lines /\ first_addl gs a /\
    mergeSchemasV1 u gen path l
    = Ok (GSch (String.concat newline (lines ++ ["}"])) "" "" false false [] (flat_map g_props gs)
               (existsb g_has gs) a [] [] None).
Proof.
  intros l gs F N C. unfold mergeSchemasV1, genStructFromAllOf.
  destruct (loop_ok l gs [] _ start F N C) as ([[ps has] addl] & E & (-> & -> & A & _)).
  destruct (lines_ok l gs ["struct {"] F N) as (lines & W & EL).
  exists lines, addl. split; [exact W|]. split; [exact A|].
  rewrite E. cbn [bind]. rewrite EL. reflexivity.
Qed.

Lemma merged_only : forall l m, mergeSchemasV1 u gen path l = Ok m ->
  exists gs, Forall2 made l gs /\ compatible gs /\ named_refs u l.
Proof.
  intros l m E. unfold mergeSchemasV1 in E.
  destruct (old_loop u gen path ([], false, "") l) as [st| | |] eqn:L; cbn [bind] in E; try discriminate.
  destruct (loop_only _ _ _ _ start L) as (gs & F & S1 & N). destruct st as [[ps has] addl].
  destruct S1 as (_ & _ & _ & C). exists gs. split; [exact F|]. split; [exact C | exact N].
Qed.
End Merge.

Lemma collision : forall ps p, 
  (exists e, In e ps /\ p_name (fst e) = p_name (fst p) /\
     (typeDecl (snd e) <> typeDecl (snd p) \/ p_req (fst e) <> p_req (fst p))) <->
  addProperty ps p = Err (new_err ("property '" ++ p_name (fst p) ++ "' already exists with a different type")%string).
Proof.
  intros ps p. unfold addProperty.
  destruct (find _ ps) as [e|] eqn:F.
  - destruct (find_some _ _ F) as [I X]. apply andb_true_iff in X as [N X]. apply String.eqb_eq in N.
    rewrite N. split; [reflexivity|]. intros _. exists e. split; [exact I|]. split; [exact N|].
    apply negb_true_iff in X. destruct (string_dec (typeDecl (snd e)) (typeDecl (snd p))) as [T|T]; [|left; exact T].
    right. intros R. rewrite (proj2 (equal_iff e p) (conj N (conj T R))) in X. discriminate.
  - split; [|discriminate]. intros (e & I & N & D). pose proof (proj1 (clash_none ps p) F e I N) as [T R]. tauto.
Qed.

Lemma appended : forall ps p, (forall e, In e ps -> agree e p) <-> addProperty ps p = Ok (ps ++ [p]).
Proof.
  intros ps p. unfold addProperty. rewrite <- clash_none. destruct (find _ ps); split; congruence.
Qed.

(** *** Configurations *)

Lemma accepted_iff : forall n g, validate n g = Ok tt <-> n <> "" /\ one_server [ge_chi g; ge_echo g; ge_gin g].
Proof.
  intros n [c e gi go s cl m sp]. unfold validate, one_server. cbn [ge_chi ge_echo ge_gin].
  destruct (String.eqb n "") eqn:N.
  - apply String.eqb_eq in N. split; [discriminate | tauto].
  - apply String.eqb_neq in N. destruct c, e, gi; cbn; split; try discriminate; try tauto; try (intros; split; [exact N | lia]);
      intros [_ X]; lia.
Qed.

Lemma refused : forall n g,
  (n = "" -> validate n g = Err (new_err "package name must be specified")) /\
  (n <> "" -> ~ one_server [ge_chi g; ge_echo g; ge_gin g] ->
   validate n g = Err (new_err "only one server type is supported at a time")).
Proof.
  intros n g. split.
  - intros ->. reflexivity.
  - intros N S1. pose proof (accepted_iff n g) as A. unfold validate in *.
    apply String.eqb_neq in N as N'. rewrite N' in *.
    destruct (Nat.ltb 1 _); [reflexivity|]. exfalso. apply S1. apply A. reflexivity.
Qed.

Lemma defaults : forall g,
  (nothing_set g -> updateDefaults g = mkGen false true false false false false true true) /\
  (~ nothing_set g -> updateDefaults g = g).
Proof.
  intros [c e gi go s cl m sp]. unfold nothing_set, servers. cbn.
  destruct c, e, gi, go, s, cl, m, sp; (split; [intros (X & ? & ? & ? & ?); try discriminate; reflexivity | intros X; try reflexivity]);
    exfalso; apply X; repeat split; reflexivity.
Qed.
