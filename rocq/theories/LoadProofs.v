(** Proofs about Load.v. *)
From Verif Require Import Prelude Strings Util UtilProofs Load.
Local Open Scope string_scope.
Local Open Scope list_scope.

(** *** Module check *)

(** The module file of a file system names the module [name]. *)
Definition names_module (module_of : string -> string + string) (n : fsnode) (name : string) : Prop :=
  exists c, at_path n ["cue.mod"; "module.cue"] (FFile (Some c)) /\ module_of c = inl name.

(** Below cue.mod, leaving out gen and usr. *)
Definition looked_at (p : list string) : Prop :=
  exists q, p = "cue.mod" :: q /\ (forall r, q <> "gen" :: r) /\ (forall r, q <> "usr" :: r).

(** What makes a file system unusable: a directory that cannot be listed, thema
    already there. *)
Definition obstructed (n : fsnode) : Prop :=
  (exists p, looked_at p /\ at_path n p (FDir None)) \/
  (exists es, at_path n ["cue.mod"; "pkg"; "github.com"; "grafana"; "thema"] (FDir es)).

Definition usable (module_of : string -> string + string) (n : fsnode) (name : string) : Prop :=
  names_module module_of n name /\ name <> "" /\ ~ obstructed n.

(** The walk over a list of entries. *)
Fixpoint mod_walk_list module_of (path : list string) (l : list (string * fsnode)) (mn : string) : string * option err :=
  match l with
  | [] => (mn, None)
  | (name, d) :: r =>
      match mod_walk module_of (path ++ [name]) d mn with
      | (m, Some e) => (m, Some e)
      | (m, None) => mod_walk_list module_of path r m
      end
  end.

Lemma mod_walk_dir f path es mn :
  mod_walk f path (FDir (Some es)) mn =
  if path_eqb path ["cue.mod"; "gen"] || path_eqb path ["cue.mod"; "usr"] then (mn, None)
  else if path_eqb path themapath then (mn, Some exists_err)
  else mod_walk_list f path es mn.
Proof.
  cbn. destruct (_ || _); [reflexivity|]. destruct (path_eqb path themapath); [reflexivity|].
  revert mn. induction es as [|[x d] r IH]; intros mn; [reflexivity|]. cbn.
  destruct (mod_walk f (path ++ [x]) d mn) as [m [e|]]; [reflexivity|apply IH].
Qed.

(** Where the walk fails at [n], found at [path]. *)
Definition bad_at (f : string -> string + string) (path : list string) (n : fsnode) : Prop :=
  (exists p, at_path n p (FDir None) /\ looked_at (path ++ p)) \/
  (exists p es, at_path n p (FDir es) /\ path ++ p = themapath) \/
  (exists p, at_path n p (FFile None) /\ path ++ p = modulefile) \/
  (exists p c, at_path n p (FFile (Some c)) /\ path ++ p = modulefile /\ ((exists e, f c = inr e) \/ f c = inl "")).

Definition named_at (f : string -> string + string) (path : list string) (n : fsnode) (name : string) : Prop :=
  exists p c, at_path n p (FFile (Some c)) /\ path ++ p = modulefile /\ f c = inl name.

Definition walked_mod (bad : Prop) (named : string -> Prop) (mn : string) (r : string * option err) : Prop :=
  (exists m e, r = (m, Some e) /\ bad) \/
  (exists m, r = (m, None) /\ ~ bad /\ (named m \/ (m = mn /\ forall x, ~ named x))).

Lemma at_file oc p m : at_path (FFile oc) p m -> p = [] /\ m = FFile oc.
Proof. intros H. inversion H; subst; auto. Qed.
Lemma at_nodir p m : at_path (FDir None) p m -> p = [] /\ m = FDir None.
Proof. intros H. inversion H; subst; auto. Qed.

Lemma path_eqb_refl a : path_eqb a a = true.
Proof. apply path_eqb_spec. reflexivity. Qed.
Lemma path_eqb_no a b : path_eqb a b = false -> a <> b.
Proof. intros H E. apply path_eqb_spec in E. congruence. Qed.

Lemma at_child es p m : at_path (FDir (Some es)) p m ->
  (p = [] /\ m = FDir (Some es)) \/ exists x d q, p = x :: q /\ In (x, d) es /\ at_path d q m.
Proof. intros H. inversion H as [|es' x d q m' H1 H2]; subst; [auto|]. right. exists x, d, q. auto. Qed.

Lemma names_once_file n p oc oc' : names_once n -> at_path n p (FFile oc) -> at_path n p (FFile oc') -> oc = oc'.
Proof.
  intros W. revert n W. induction p as [|x p IH]; intros n W H H'.
  - inversion H; subst. inversion H'; subst. reflexivity.
  - inversion H as [|es y d q m I H1]; subst. inversion H' as [|es2 y2 d2 q2 m2 I2 H2]; subst.
    inversion W as [| |es2 N K]; subst.
    assert (d = d2).
    { clear - N I I2. induction es as [|[a b] r IHr]; [destruct I|]. cbn in N. inversion N as [|? ? N1 N2]; subst.
      destruct I as [I|I], I2 as [I2|I2].
      - congruence.
      - injection I as -> ->. exfalso. apply N1. apply in_map_iff. exists (x, d2). auto.
      - injection I2 as -> ->. exfalso. apply N1. apply in_map_iff. exists (x, d). auto.
      - auto. }
    subst. apply (IH d2); auto. apply (K x). exact I2.
Qed.

Definition skipped (path : list string) : bool :=
  path_eqb path ["cue.mod"; "gen"] || path_eqb path ["cue.mod"; "usr"].

Lemma skipped_cases path : skipped path = true -> path = ["cue.mod"; "gen"] \/ path = ["cue.mod"; "usr"].
Proof. intros H. apply orb_true_iff in H as [H|H]; apply path_eqb_spec in H; auto. Qed.

Lemma skipped_ok f path n : skipped path = true -> ~ bad_at f path n /\ forall m, ~ named_at f path n m.
Proof.
  intros H. split.
  - intros [[p [_ [q [A [G U]]]]]|[[p [es [_ A]]]|[[p [_ A]]|[p [c [_ [A _]]]]]]];
      apply skipped_cases in H as [-> | ->]; cbn in A.
    + injection A as <-. apply (G p). reflexivity.
    + injection A as <-. apply (U p). reflexivity.
    + discriminate.
    + discriminate.
    + discriminate.
    + discriminate.
    + discriminate.
    + discriminate.
  - intros m [p [c [_ [A _]]]]. apply skipped_cases in H as [-> | ->]; discriminate.
Qed.

Lemma skipped_walk f path n mn : skipped path = true -> mod_walk f path n mn = (mn, None).
Proof.
  intros H. destruct n as [oc|oes]; cbn.
  - destruct (path_eqb path modulefile) eqn:M; [|reflexivity]. apply path_eqb_spec in M. subst. discriminate.
  - unfold skipped in H. rewrite H. reflexivity.
Qed.

Lemma looked_next path x : looked_at path -> looked_at (path ++ [x]) \/ skipped (path ++ [x]) = true.
Proof.
  intros [q [-> [G U]]]. destruct q as [|b q].
  - destruct (String.eqb_spec x "gen") as [->|Ng]; [right; reflexivity|].
    destruct (String.eqb_spec x "usr") as [->|Nu]; [right; reflexivity|].
    left. exists [x]. cbn. split; [reflexivity|]. split; intros r K; injection K as K _; contradiction.
  - left. exists (b :: q ++ [x]). cbn. split; [reflexivity|]. split; intros r K; injection K as -> _.
    + apply (G q). reflexivity.
    + apply (U q). reflexivity.
Qed.

Lemma mod_walk_spec f k : forall n, size n <= k -> forall path mn,
  looked_at path \/ skipped path = true ->
  walked_mod (bad_at f path n) (named_at f path n) mn (mod_walk f path n mn).
Proof.
  induction k as [|k IH]; intros n Hk path mn [LA|SK]; [destruct n as [|[|]]; cbn in Hk; lia|destruct n as [|[|]]; cbn in Hk; lia| |].
  2: { destruct (skipped_ok f path n SK) as [A B]. right. exists mn. rewrite (skipped_walk f path n mn SK).
       split; [reflexivity|]. split; [exact A|]. right. split; [reflexivity|exact B]. }
  destruct n as [oc|oes].
  - cbn. destruct (path_eqb path modulefile) eqn:E.
    + apply path_eqb_spec in E. destruct oc as [c|].
      * destruct (f c) as [m|e] eqn:F.
        -- destruct (String.eqb_spec m "") as [Em|Em].
           ++ left. exists m, empty_err. split; [reflexivity|]. right. right. right. exists [], c.
              split; [constructor|]. rewrite app_nil_r. split; [exact E|]. right. congruence.
           ++ right. exists m. split; [reflexivity|]. split.
              ** intros [[p [A _]]|[[p [es [A _]]]|[[p [A _]]|[p [c' [A [_ B]]]]]]];
                   try (apply at_file in A as [_ A]; discriminate).
                 apply at_file in A as [_ A]. injection A as ->. destruct B as [[e B]|B]; congruence.
              ** left. exists [], c. split; [constructor|]. rewrite app_nil_r. auto.
        -- left. exists "", (new_err e). split; [reflexivity|]. right. right. right. exists [], c.
           split; [constructor|]. rewrite app_nil_r. split; [exact E|]. left. exists e. exact F.
      * left. exists mn, io_err. split; [reflexivity|]. right. right. left. exists []. split; [constructor|].
        rewrite app_nil_r. exact E.
    + apply path_eqb_no in E. right. exists mn. split; [reflexivity|]. split.
      * intros [[p [A _]]|[[p [es [A _]]]|[[p [A B]]|[p [c' [A [B _]]]]]]];
          try (apply at_file in A as [_ A]; discriminate);
          apply at_file in A as [-> A]; rewrite app_nil_r in B; contradiction.
      * right. split; [reflexivity|]. intros x [p [c [A [B _]]]]. apply at_file in A as [-> A].
        rewrite app_nil_r in B. contradiction.
  - assert (NS : path_eqb path ["cue.mod"; "gen"] || path_eqb path ["cue.mod"; "usr"] = false).
    { destruct LA as [q [-> [G U]]]. apply orb_false_iff. split.
      - destruct (path_eqb _ _) eqn:E; [|reflexivity]. apply path_eqb_spec in E. injection E as ->. exfalso. apply (G []). reflexivity.
      - destruct (path_eqb _ ["cue.mod"; "usr"]) eqn:E; [|reflexivity]. apply path_eqb_spec in E. injection E as ->. exfalso. apply (U []). reflexivity. }
    destruct (path_eqb path themapath) eqn:E.
    { left. exists mn, exists_err. split; [destruct oes; cbn; rewrite NS, E; reflexivity|].
      apply path_eqb_spec in E. right. left. exists [], oes. split; [constructor|]. rewrite app_nil_r. exact E. }
    destruct oes as [es|].
    2: { left. exists mn, io_err. split; [cbn; rewrite NS, E; reflexivity|]. left. exists []. split; [constructor|].
         rewrite app_nil_r. exact LA. }
    rewrite mod_walk_dir, NS, E. apply path_eqb_no in E.
    assert (L : forall es, (forall x d, In (x, d) es -> size d <= k) -> forall mn,
      walked_mod (exists x d, In (x, d) es /\ bad_at f (path ++ [x]) d)
        (fun m => exists x d, In (x, d) es /\ named_at f (path ++ [x]) d m) mn (mod_walk_list f path es mn)).
    { clear - IH LA. induction es as [|[x d] r IHr]; intros Sz mn.
      - right. exists mn. split; [reflexivity|]. split; [intros [x [d [[] _]]]|]. right. split; [reflexivity|].
        intros m [x [d [[] _]]].
      - cbn. assert (IHr' := IHr (fun y e H => Sz y e (or_intror H))).
        destruct (IH d (Sz x d (or_introl eq_refl)) (path ++ [x]) mn (looked_next path x LA)) as [[m [e [R B]]]|[m [R [B C]]]]; rewrite R.
        { left. exists m, e. split; [reflexivity|]. exists x, d. split; [left; reflexivity|auto]. }
        destruct (IHr' m) as [[m' [e [R' B']]]|[m' [R' [B' C']]]]; rewrite R'.
        + left. exists m', e. split; [reflexivity|]. destruct B' as [y [d' [I B']]]. exists y, d'. split; [right; exact I|exact B'].
        + right. exists m'. split; [reflexivity|]. split.
          * intros [y [d' [[I|I] B1]]]; [injection I as <- <-; auto|]. apply B'. exists y, d'. auto.
          * destruct C' as [[y [d' [I C']]]|[-> C']]; [left; exists y, d'; split; [right; exact I|exact C']|].
            destruct C as [C|[-> C]]; [left; exists x, d; split; [left; reflexivity|exact C]|].
            right. split; [reflexivity|]. intros m' [y [d' [[I|I] D]]]; [injection I as <- <-; apply (C m' D)|].
            apply (C' m'). exists y, d'. auto. }
    assert (Sz : forall x d, In (x, d) es -> size d <= k).
    { intros x d Hx. pose proof (size_in _ _ _ Hx). lia. }
    assert (BD : bad_at f path (FDir (Some es)) <-> exists x d, In (x, d) es /\ bad_at f (path ++ [x]) d).
    { split.
      - intros [[p [A B]]|[[p [es' [A B]]]|[[p [A B]]|[p [c [A [B C]]]]]]]; apply at_child in A as [[-> A]|[x [d [q [-> [I A]]]]]];
          try discriminate; try (rewrite app_nil_r in B; contradiction); exists x, d; (split; [exact I|]);
          change (x :: q) with ([x] ++ q) in B; rewrite app_assoc in B.
        + left. exists q. auto.
        + right. left. exists q, es'. auto.
        + right. right. left. exists q. auto.
        + right. right. right. exists q, c. auto.
      - intros [x [d [I [[p [A B]]|[[p [es' [A B]]]|[[p [A B]]|[p [c [A [B C]]]]]]]]]]; rewrite <- app_assoc in B; cbn in B.
        + left. exists (x :: p). split; [apply (ap_in es x d); assumption|exact B].
        + right. left. exists (x :: p), es'. split; [apply (ap_in es x d); assumption|exact B].
        + right. right. left. exists (x :: p). split; [apply (ap_in es x d); assumption|exact B].
        + right. right. right. exists (x :: p), c. split; [apply (ap_in es x d); assumption|auto]. }
    assert (NM : forall m, named_at f path (FDir (Some es)) m <-> exists x d, In (x, d) es /\ named_at f (path ++ [x]) d m).
    { intros m. split.
      - intros [p [c [A [B C]]]]. apply at_child in A as [[-> A]|[x [d [q [-> [I A]]]]]]; [discriminate|].
        exists x, d. split; [exact I|]. exists q, c. change (x :: q) with ([x] ++ q) in B. rewrite app_assoc in B. auto.
      - intros [x [d [I [p [c [A [B C]]]]]]]. rewrite <- app_assoc in B. cbn in B. exists (x :: p), c.
        split; [apply (ap_in es x d); assumption|auto]. }
    destruct (L es Sz mn) as [[m [e [R B]]]|[m [R [B C]]]]; rewrite R.
    + left. exists m, e. split; [reflexivity|]. apply BD. exact B.
    + right. exists m. split; [reflexivity|]. split; [rewrite BD; exact B|].
      destruct C as [C|[-> C]]; [left; apply NM; exact C|]. right. split; [reflexivity|]. intros x K. apply NM in K. apply (C x K).
Qed.

(** *** The module name *)

Lemma child_at n x d : names_once n -> child n x = Some d <-> at_path n [x] d.
Proof.
  intros W. split.
  - destruct n as [oc|[es|]]; cbn; try discriminate. destruct (find _ es) as [[y e]|] eqn:F; [|discriminate].
    intros H. injection H as <-. apply find_some in F as [I E]. cbn in E. apply String.eqb_eq in E as <-.
    apply (ap_in es x e); [exact I|constructor].
  - intros H. inversion H as [|es y e p m I H1]; subst. inversion H1; subst. inversion W as [| |es2 N K]; subst.
    cbn. clear - N I. induction es as [|[a b] r IH]; [destruct I|]. cbn in N |- *. inversion N as [|? ? N1 N2]; subst.
    destruct (String.eqb_spec x a) as [E|E]; cbn.
    + subst. destruct I as [I|I]; [congruence|]. exfalso. apply N1. apply in_map_iff. exists (a, d). auto.
    + destruct I as [I|I]; [congruence|]. apply (IH I N2).
Qed.

Lemma at_once n p d : names_once n -> at_path n p d -> names_once d.
Proof. intros W H. induction H; [exact W|]. inversion W as [| |es2 N K]; subst. eauto. Qed.

Lemma at_cons n x q m : names_once n -> at_path n (x :: q) m <-> exists d, child n x = Some d /\ at_path d q m.
Proof.
  intros W. split.
  - intros H. inversion H as [|es y e p k I H1]; subst. exists e. split; [|exact H1].
    apply (child_at _ _ _ W). apply (ap_in es x e); [exact I|constructor].
  - intros [d [C H]]. apply (child_at _ _ _ W) in C. inversion C as [|es y e p k I H1]; subst. inversion H1; subst.
    apply (ap_in es x d); assumption.
Qed.

Lemma node_at_path p : forall n m, names_once n -> node_at n p = Some m <-> at_path n p m.
Proof.
  induction p as [|x p IH]; intros n m W; cbn.
  - split; [intros H; injection H as ->; constructor|]. intros H. inversion H; reflexivity.
  - rewrite (at_cons _ _ _ _ W). destruct (child n x) as [d|] eqn:C.
    + assert (Wd : names_once d) by (apply (at_once n [x]); [exact W|]; apply child_at; assumption).
      rewrite (IH d m Wd). split; [eauto|]. intros [d' [E H]]. injection E as <-. exact H.
    + split; [discriminate|]. intros [d' [E H]]. discriminate.
Qed.

Lemma at_fun n p a b : names_once n -> at_path n p a -> at_path n p b -> a = b.
Proof. intros W A B. apply (node_at_path p n a W) in A. apply (node_at_path p n b W) in B. congruence. Qed.

Lemma looked_top : looked_at ["cue.mod"].
Proof. exists []. split; [reflexivity|]. split; intros r; discriminate. Qed.

Lemma module_name_spec f n name : names_once n -> module_name f n = inl name <-> usable f n name.
Proof.
  intros W. unfold module_name. destruct (child n "cue.mod") as [d|] eqn:C.
  2: { split; [discriminate|]. intros [[c [A _]] _]. apply (at_cons _ _ _ _ W) in A as [d [K _]]. congruence. }
  assert (AC : forall p m, at_path d p m <-> at_path n ("cue.mod" :: p) m).
  { intros p m. rewrite (at_cons _ _ _ _ W). split; [eauto|]. intros [d' [K H]]. congruence. }
  assert (NM : forall m, named_at f ["cue.mod"] d m <-> names_module f n m).
  { intros m. split.
    - intros [p [c [A [B D]]]]. cbn in B. injection B as ->. apply AC in A. exists c. auto.
    - intros [c [A D]]. apply AC in A. exists ["module.cue"], c. auto. }
  assert (NU : forall m m', names_module f n m -> names_module f n m' -> m = m').
  { intros m m' [c [A D]] [c' [A' D']]. pose proof (at_fun _ _ _ _ W A A') as K. injection K as ->. congruence. }
  assert (BD : forall m, names_module f n m -> m <> "" -> (bad_at f ["cue.mod"] d <-> obstructed n)).
  { intros m [c0 [A0 D0]] Ne. split.
    - intros [[p [A B]]|[[p [es [A B]]]|[[p [A B]]|[p [c [A [B D]]]]]]]; apply AC in A.
      + left. exists ("cue.mod" :: p). auto.
      + right. exists es. unfold themapath in B. cbn in B. injection B as ->. exact A.
      + cbn in B. injection B as ->. pose proof (at_fun _ _ _ _ W A A0). discriminate.
      + cbn in B. injection B as ->. pose proof (at_fun _ _ _ _ W A A0) as K. injection K as ->.
        destruct D as [[e D]|D]; congruence.
    - intros [[p [L A]]|[es A]].
      + destruct L as [q [-> L]]. left. exists q. apply AC in A. split; [exact A|]. exists q. auto.
      + right. left. eexists _, es. split; [apply AC; exact A|reflexivity]. }
  destruct (mod_walk_spec f (size d) d (le_n _) ["cue.mod"] "" (or_introl looked_top)) as [[m [e [R B]]]|[m [R [B D]]]]; rewrite R.
  - split; [discriminate|]. intros [A [Ne O]]. exfalso. apply O. apply (BD name A Ne). exact B.
  - destruct (String.eqb_spec m "") as [->|Ne].
    + split; [discriminate|]. intros [A [Ne O]]. destruct D as [D|[_ D]].
      * apply NM in D. rewrite (NU _ _ A D) in Ne. contradiction.
      * exfalso. apply (D name). apply NM. exact A.
    + destruct D as [D|[-> _]]; [|contradiction]. apply NM in D. split.
      * intros K. injection K as <-. split; [exact D|]. split; [exact Ne|]. rewrite <- (BD m D Ne). exact B.
      * intros [A _]. rewrite (NU _ _ A D). reflexivity.
Qed.

(** *** Overlay, directory and package *)

Lemma split_one s : split_aux "/" 0 s =
  match s with
  | EmptyString => [""]
  | String c r => if Ascii.eqb c "/" then "" :: split_aux "/" 0 r
                  else match split_aux "/" 0 r with p :: ps => String c p :: ps | [] => [String c ""] end
  end.
Proof.
  destruct s as [|c r]; [reflexivity|]. cbn [split_aux String.prefix].
  destruct (ascii_dec "/" c) as [<-|E].
  - destruct r; reflexivity.
  - destruct (Ascii.eqb_spec c "/") as [->|_]; [contradiction|]. reflexivity.
Qed.

Lemma split_one_ne s : split_aux "/" 0 s <> [].
Proof.
  rewrite split_one. destruct s as [|c r]; [discriminate|]. destruct (Ascii.eqb c "/"); [discriminate|].
  destruct (split_aux "/" 0 r); discriminate.
Qed.

Lemma slash_split a b : split_str (a ++ String "/" b) "/" = split_str a "/" ++ split_str b "/".
Proof.
  unfold split_str. induction a as [|c r IH].
  - cbn [append]. rewrite split_one. reflexivity.
  - cbn [append]. rewrite split_one. rewrite (split_one (String c r)). destruct (Ascii.eqb c "/").
    + rewrite IH. reflexivity.
    + rewrite IH. pose proof (split_one_ne r). destruct (split_aux "/" 0 r) as [|p ps]; [contradiction|reflexivity].
Qed.

Lemma clean_slash a b : clean_abs (a ++ String "/" b) = fold_left clean_step (split_str b "/") (clean_abs a).
Proof. unfold clean_abs. rewrite slash_split, fold_left_app. reflexivity. Qed.

(** An element of a path that stands for itself. *)
Definition plain (x : string) : Prop :=
  x <> "" /\ x <> "." /\ x <> ".." /\ ~ exists a b, x = (a ++ String "/" b)%string.

Lemma plain_split x : (~ exists a b, x = (a ++ String "/" b)%string) -> split_str x "/" = [x].
Proof.
  unfold split_str. induction x as [|c r IH]; intros N; [reflexivity|]. rewrite split_one.
  destruct (Ascii.eqb_spec c "/") as [->|E]; [exfalso; apply N; exists "", r; reflexivity|].
  rewrite IH; [reflexivity|]. intros [a [b ->]]. apply N. exists (String c a), b. reflexivity.
Qed.

Lemma split_plain ps : ps <> [] -> Forall plain ps -> split_str (String.concat "/" ps) "/" = ps.
Proof.
  intros NE F. induction F as [|x r P F IH]; [contradiction|]. destruct P as [P1 [P2 [P3 P4]]].
  destruct r as [|y r]; [cbn; apply plain_split; exact P4|].
  change (String.concat "/" (x :: y :: r)) with (x ++ String "/" (String.concat "/" (y :: r)))%string.
  rewrite slash_split, plain_split by exact P4. cbn [app]. f_equal. apply IH. discriminate.
Qed.

Lemma clean_plain ps acc : Forall plain ps -> fold_left clean_step ps acc = acc ++ ps.
Proof.
  intros F. revert acc. induction F as [|x r [P1 [P2 [P3 _]]] F IH]; intros acc; cbn; [rewrite app_nil_r; reflexivity|].
  unfold clean_step at 2. apply String.eqb_neq in P1, P2, P3. rewrite P1, P2, P3. cbn. rewrite IH, <- app_assoc. reflexivity.
Qed.

Lemma themapath_plain : Forall plain themapath.
Proof.
  assert (S : forall x, existsb (Ascii.eqb "/") (list_ascii_of_string x) = false -> ~ exists a b, x = (a ++ String "/" b)%string).
  { intros x E [a [b ->]]. induction a as [|c a IH]; cbn in E; [discriminate|].
    apply orb_false_iff in E as [_ E]. auto. }
  unfold themapath. repeat constructor; try discriminate; apply S; reflexivity.
Qed.

(** Where the module's files go, and thema's. *)
Definition root_of (name : string) : list string := clean_abs ("/" ++ name).

Lemma thema_root name :
  clean_abs (("/" ++ name) ++ "/" ++ String.concat "/" themapath) = root_of name ++ themapath.
Proof.
  unfold root_of. change ("/" ++ String.concat "/" themapath)%string with (String "/" (String.concat "/" themapath)).
  rewrite clean_slash, split_plain; [|discriminate|apply themapath_plain]. apply clean_plain, themapath_plain.
Qed.

(** [leads d es d']: following the elements [es] from [d] leads to [d']; the root
    is its own parent. *)
Inductive leads : list string -> list string -> list string -> Prop :=
| ld_end d : leads d [] d
| ld_stay d x es d' : x = "" \/ x = "." -> leads d es d' -> leads d (x :: es) d'
| ld_up_root es d' : leads [] es d' -> leads [] (".." :: es) d'
| ld_up d y es d' : leads d es d' -> leads (d ++ [y]) (".." :: es) d'
| ld_down d x es d' : plain x -> leads (d ++ [x]) es d' -> leads d (x :: es) d'.

Lemma split_elems s : (forall x, In x (split_str s "/") -> ~ exists a b, x = (a ++ String "/" b)%string) /\
  String.concat "/" (split_str s "/") = s.
Proof.
  unfold split_str. induction s as [|c r IH].
  - cbn. split; [|reflexivity]. intros x [<-|[]] [a [b E]]. destruct a; discriminate.
  - rewrite split_one. destruct IH as [IH1 IH2]. pose proof (split_one_ne r) as NE.
    destruct (split_aux "/" 0 r) as [|p ps]; [contradiction|]. destruct (Ascii.eqb_spec c "/") as [->|N].
    + split.
      * intros x [<-|I]; [intros [a [b E]]; destruct a; discriminate|auto].
      * rewrite <- IH2. reflexivity.
    + split.
      * intros x [<-|I]; [|apply IH1; right; exact I]. intros [a [b E]]. destruct a as [|d a]; [injection E as E _; contradiction|].
        injection E as _ E. apply (IH1 p (or_introl eq_refl)). exists a, b. exact E.
      * rewrite <- IH2. destruct ps; reflexivity.
Qed.

Lemma leads_clean es : (forall x, In x es -> ~ exists a b, x = (a ++ String "/" b)%string) ->
  forall d, leads d es (fold_left clean_step es d).
Proof.
  induction es as [|x es IH]; intros N d; [constructor|]. cbn.
  assert (IH' := IH (fun y I => N y (or_intror I))). unfold clean_step at 2.
  destruct (String.eqb_spec x "") as [E1|E1]; [apply ld_stay; auto|].
  destruct (String.eqb_spec x ".") as [E2|E2]; [apply ld_stay; auto|]. cbn [orb].
  destruct (String.eqb_spec x "..") as [E3|E3].
  - subst x. destruct d as [|y d _] using rev_ind; [apply ld_up_root, IH'|]. rewrite removelast_last. apply ld_up, IH'.
  - apply ld_down; [|apply IH']. repeat split; auto. apply N. left. reflexivity.
Qed.

Lemma clean_abs_leads p : exists es, p = String.concat "/" es /\
  (forall x, In x es -> ~ exists a b, x = (a ++ String "/" b)%string) /\ leads [] es (clean_abs p).
Proof.
  exists (split_str p "/"). destruct (split_elems p) as [A B]. split; [symmetry; exact B|]. split; [exact A|].
  apply leads_clean. exact A.
Qed.

Lemma abs_slash s : is_abs ("/" ++ s) = true.
Proof. unfold is_abs, has_prefix. cbn. destruct s; reflexivity. Qed.

Lemma load_config_overlay cueFS joint modFS dir opts name :
  names_once modFS -> readable modFS -> names_once cueFS -> readable cueFS -> ~ obstructed modFS ->
  (forall oc, cueFS <> FFile oc) -> name <> thema_name ->
  exists cfg, load_config cueFS joint modFS dir opts name = Loaded cfg /\
    cf_root cfg = root_of name /\ cf_module cfg = name /\
    (forall p c, at_path modFS p (FFile (Some c)) -> ov_lookup (cf_overlay cfg) (root_of name ++ p) = Some c) /\
    (forall p c, at_path cueFS p (FFile (Some c)) -> ov_lookup (cf_overlay cfg) (root_of name ++ themapath ++ p) = Some c) /\
    (forall k, (forall p c, k = root_of name ++ p -> ~ at_path modFS p (FFile (Some c))) ->
               (forall p c, k = root_of name ++ themapath ++ p -> ~ at_path cueFS p (FFile (Some c))) ->
               ov_lookup (cf_overlay cfg) k = None).
Proof.
  intros W R W2 R2 O DR NT. unfold load_config, add_overlay.
  destruct (overlay_readable ("/" ++ name) modFS [] (abs_slash _) W R) as [m [E [M1 M2]]]. rewrite E.
  apply String.eqb_neq in NT. rewrite NT.
  destruct (overlay_readable (("/" ++ name) ++ "/" ++ String.concat "/" themapath) cueFS m (abs_slash _) W2 R2) as [m2 [E2 [N1 N2]]].
  rewrite E2, thema_root in *. fold (root_of name) in *.
  eexists. split; [reflexivity|]. cbn [cf_root cf_module cf_overlay]. split; [reflexivity|]. split; [reflexivity|].
  assert (Sep : forall p q c c', root_of name ++ p = (root_of name ++ themapath) ++ q ->
            at_path modFS p (FFile c) -> ~ at_path cueFS q (FFile c')).
  { intros p q c c' K A B. rewrite <- app_assoc in K. apply app_inv_head in K. subst p.
    destruct q as [|x q].
    - inversion B; subst. apply (DR c'). reflexivity.
    - apply O. right. assert (S : forall t n r m, at_path n (t ++ x :: r) m -> exists es, at_path n t (FDir es)).
      { clear. induction t as [|y t IH]; intros n r m H; cbn in H.
        - inversion H; subst. eexists. constructor.
        - inversion H as [|es y' e p k I H1]; subst. destruct (IH e r m H1) as [es' H2]. exists es'. apply (ap_in es y e); assumption. }
      apply (S themapath modFS q (FFile c)). exact A. }
  split; [|split].
  - intros p c A. rewrite N2; [apply M1; exact A|]. intros q c' K. apply (Sep p q (Some c) (Some c') K A).
  - intros p c A. rewrite app_assoc. apply N1. exact A.
  - intros k K1 K2. rewrite N2; [rewrite M2; [reflexivity|]|].
    + intros p c ->. apply K1. reflexivity.
    + intros p c ->. apply K2. rewrite app_assoc. reflexivity.
Qed.

Lemma load_config_thema cueFS joint modFS dir opts :
  names_once modFS -> readable modFS -> names_once joint -> readable joint ->
  exists cfg, load_config cueFS joint modFS dir opts thema_name = Loaded cfg /\
    cf_root cfg = ["github.com"; "grafana"; "thema"] /\ cf_module cfg = thema_name /\
    (forall p c, at_path joint p (FFile (Some c)) -> ov_lookup (cf_overlay cfg) (cf_root cfg ++ p) = Some c) /\
    (forall p, (forall c, ~ at_path joint p (FFile (Some c))) ->
       forall c, at_path modFS p (FFile (Some c)) <-> ov_lookup (cf_overlay cfg) (cf_root cfg ++ p) = Some c) /\
    (forall k, (forall p, k <> cf_root cfg ++ p) -> ov_lookup (cf_overlay cfg) k = None).
Proof.
  intros W R W2 R2. unfold load_config, add_overlay.
  destruct (overlay_readable ("/" ++ thema_name) modFS [] (abs_slash _) W R) as [m [E [M1 M2]]]. rewrite E.
  rewrite String.eqb_refl.
  destruct (overlay_readable ("/" ++ thema_name) joint m (abs_slash _) W2 R2) as [m2 [E2 [N1 N2]]]. rewrite E2.
  change (clean_abs ("/" ++ thema_name)) with ["github.com"; "grafana"; "thema"] in *.
  set (root := ["github.com"; "grafana"; "thema"]) in *.
  eexists. split; [reflexivity|]. cbn [cf_root cf_module cf_overlay]. split; [reflexivity|]. split; [reflexivity|].
  split; [exact N1|]. split.
  - intros p NJ c. rewrite N2; [|intros q c' K; apply app_inv_head in K; subst q; apply NJ]. split; [apply M1|].
    intros L. destruct (ov_lookup m (root ++ p)) as [c'|] eqn:L'; [|discriminate]. injection L as ->.
    assert (D : (exists c', at_path modFS p (FFile (Some c'))) \/ ~ exists c', at_path modFS p (FFile (Some c'))).
    { destruct (node_at modFS p) as [[[c'|]|es]|] eqn:F.
      - left. exists c'. apply node_at_path; assumption.
      - right. intros [c' A]. apply (node_at_path p _ _ W) in A. congruence.
      - right. intros [c' A]. apply (node_at_path p _ _ W) in A. congruence.
      - right. intros [c' A]. apply (node_at_path p _ _ W) in A. congruence. }
    destruct D as [[c' A]|D].
    + pose proof (M1 p c' A). congruence.
    + exfalso. rewrite M2 in L'; [discriminate|]. intros q c' K A. apply app_inv_head in K. subst q. eauto.
  - intros k K. rewrite N2; [apply M2|]; intros p c E'; exfalso; apply (K p E').
Qed.

Lemma load_config_unreadable cueFS joint modFS dir opts name :
  ~ readable modFS -> load_config cueFS joint modFS dir opts name = Failed io_err.
Proof.
  intros R. unfold load_config, add_overlay.
  destruct (overlay_unreadable ("/" ++ name) modFS [] (abs_slash _) R) as [m [E _]]. rewrite E. reflexivity.
Qed.

(** The directory and package part of the configuration. *)
Lemma load_config_dir cueFS joint modFS dir opts name cfg :
  load_config cueFS joint modFS dir opts name = Loaded cfg ->
  let special := String.eqb dir "" || String.eqb dir "." in
  cf_dir cfg = (if special then root_of name else clean_abs (("/" ++ name) ++ "/" ++ dir)) /\
  cf_package cfg = fold_left apply_option opts (if special then base_abs (root_of name) else base dir) /\
  cf_datafiles cfg = true.
Proof.
  unfold load_config. destruct (add_overlay _ modFS []) as [[m|e]|]; try discriminate.
  destruct (if String.eqb name thema_name then _ else _) as [[m2|e]|]; try discriminate.
  intros H. injection H as <-. cbn. auto.
Qed.

Lemma last_filter ps : ps <> [] -> Forall plain ps ->
  last (filter (fun x => negb (String.eqb x "")) ps) "/" = last ps "/".
Proof.
  intros _ F. assert (E : filter (fun x => negb (String.eqb x "")) ps = ps).
  { induction F as [|x r [P _] F IH]; [reflexivity|]. cbn. apply String.eqb_neq in P. rewrite P. cbn. rewrite IH. reflexivity. }
  rewrite E. reflexivity.
Qed.

Lemma concat_special ps : ps <> [] -> Forall plain ps ->
  String.eqb (String.concat "/" ps) "" || String.eqb (String.concat "/" ps) "." = false.
Proof.
  intros NE F. pose proof (split_plain ps NE F) as E.
  destruct (String.eqb_spec (String.concat "/" ps) "") as [K|K]; [rewrite K in E; cbn in E; subst ps; inversion F as [|? ? [P _] F']; exfalso; apply P; reflexivity|].
  destruct (String.eqb_spec (String.concat "/" ps) ".") as [K2|K2]; [|reflexivity].
  rewrite K2 in E. cbn in E. subst ps. inversion F as [|? ? [_ [P _]] F']. exfalso. apply P. reflexivity.
Qed.

Lemma load_dir cueFS joint modFS ps opts name cfg : ps <> [] -> Forall plain ps ->
  load_config cueFS joint modFS (String.concat "/" ps) opts name = Loaded cfg ->
  cf_dir cfg = root_of name ++ ps /\ (opts = [] -> cf_package cfg = last ps "").
Proof.
  intros NE F H. apply load_config_dir in H as [D [P _]]. rewrite (concat_special ps NE F) in D, P. split.
  - rewrite D. change ("/" ++ String.concat "/" ps)%string with (String "/" (String.concat "/" ps)).
    rewrite clean_slash, split_plain by assumption. apply clean_plain. exact F.
  - intros ->. rewrite P. cbn [fold_left]. unfold base. pose proof (concat_special ps NE F) as S.
    apply orb_false_iff in S as [S _]. rewrite S, split_plain, last_filter by assumption.
    destruct ps as [|x r]; [contradiction|]. clear. revert x. induction r as [|y r IH]; intros x; [reflexivity|]. apply (IH y).
Qed.

Lemma root_plain ps : Forall plain ps -> ps <> [] -> root_of (String.concat "/" ps) = ps.
Proof.
  intros F NE. unfold root_of. change ("/" ++ String.concat "/" ps)%string with ("" ++ String "/" (String.concat "/" ps))%string.
  rewrite clean_slash, split_plain by assumption. rewrite clean_plain by assumption. reflexivity.
Qed.

Lemma load_root cueFS joint modFS dir opts ps cfg : dir = "" \/ dir = "." -> ps <> [] -> Forall plain ps ->
  load_config cueFS joint modFS dir opts (String.concat "/" ps) = Loaded cfg ->
  cf_dir cfg = ps /\ (opts = [] -> cf_package cfg = last ps "").
Proof.
  intros S NE F H. apply load_config_dir in H as [D [P _]].
  assert (E : String.eqb dir "" || String.eqb dir "." = true) by (destruct S as [-> | ->]; reflexivity).
  rewrite E, root_plain in D, P by assumption. split; [exact D|]. intros ->. rewrite P. cbn. unfold base_abs.
  destruct ps as [|x r]; [contradiction|]. clear. revert x. induction r as [|y r IH]; intros x; [reflexivity|]. apply (IH y).
Qed.

Lemma load_package cueFS joint modFS dir opts n name cfg :
  load_config cueFS joint modFS dir (opts ++ [OPackage n]) name = Loaded cfg -> cf_package cfg = n.
Proof. intros H. apply load_config_dir in H as [_ [P _]]. rewrite P, fold_left_app. reflexivity. Qed.

Lemma instance_not_module B f cueFS joint (inst : config -> list (B * option err)) modFS dir opts :
  names_once modFS ->
  ((exists e, instanceWithThema f cueFS joint inst modFS dir opts = NotModule e) <-> ~ exists name, usable f modFS name).
Proof.
  intros W. unfold instanceWithThema. destruct (module_name f modFS) as [name|e] eqn:M.
  - apply (module_name_spec f modFS name W) in M. split; [|intros N; exfalso; eauto].
    intros [e H]. exfalso. revert H. unfold load_config.
    destruct (add_overlay _ modFS []) as [[m|x]|]; try discriminate.
    destruct (if String.eqb name thema_name then _ else _) as [[m2|x]|]; try discriminate.
    destruct (inst _) as [|[b [x|]] r]; discriminate.
  - split; [|eauto]. intros _ [name U]. apply (module_name_spec f modFS name W) in U. congruence.
Qed.

Lemma instance_module B f cueFS joint (inst : config -> list (B * option err)) modFS dir opts name :
  names_once modFS -> usable f modFS name ->
  instanceWithThema f cueFS joint inst modFS dir opts =
  match load_config cueFS joint modFS dir opts name with
  | Loaded cfg =>
      match inst cfg with
      | (b, None) :: _ => Loaded b
      | (_, Some e) :: _ => Failed e
      | [] => Crash
      end
  | Failed e => Failed e
  | NotModule e => NotModule e
  | Crash => Crash
  end.
Proof.
  intros W U. apply (module_name_spec f modFS name W) in U. unfold instanceWithThema. rewrite U.
  destruct (load_config _ _ _ _ _ _) as [cfg| | |]; try reflexivity.
Qed.

(** *** AsModFS *)

Lemma in_set_child x d es y e : NoDup (map fst es) ->
  In (y, e) (set_child x d es) <-> (y = x /\ e = d) \/ (y <> x /\ In (y, e) es).
Proof.
  intros N. induction es as [|[a b] r IH]; cbn in *.
  - split; [intros [H|[]]; injection H as <- <-; auto|]. intros [[-> ->]|[_ []]]. auto.
  - inversion N as [|? ? N1 N2]; subst. destruct (String.eqb_spec x a) as [<-|E]; cbn.
    + split.
      * intros [H|H]; [injection H as <- <-; auto|]. right. split; [|auto]. intros ->. apply N1. apply in_map_iff. exists (x, e). auto.
      * intros [[-> ->]|[Ne [H|H]]]; [auto|congruence|auto].
    + rewrite (IH N2). split.
      * intros [H|[H|[Ne H]]]; [injection H as <- <-; auto|auto|auto].
      * intros [H|[Ne [H|H]]]; auto.
Qed.

Lemma set_child_once x d es : NoDup (map fst es) -> NoDup (map fst (set_child x d es)).
Proof.
  intros N. assert (F : forall y, In y (map fst (set_child x d es)) -> y = x \/ In y (map fst es)).
  { clear. induction es as [|[a b] r IH]; cbn; intros y; [intuition|]. destruct (String.eqb x a); cbn; [intuition|].
    intros [H|H]; [auto|]. destruct (IH y H); auto. }
  induction es as [|[a b] r IH]; cbn in *; [repeat constructor; auto|]. inversion N as [|? ? N1 N2]; subst.
  destruct (String.eqb_spec x a) as [<-|E]; cbn; [constructor; assumption|]. constructor.
  - clear F. intros K. assert (F : forall y, In y (map fst (set_child x d r)) -> y = x \/ In y (map fst r)).
    { clear. induction r as [|[a b] r IH]; cbn; intros y; [intuition|]. destruct (String.eqb x a); cbn; [intuition|].
      intros [H|H]; [auto|]. destruct (IH y H); auto. }
    destruct (F a K) as [->|F']; [contradiction|contradiction].
  - apply IH; [exact N2|]. clear. induction r as [|[a b] r IH]; cbn; intros y; [intuition|]. destruct (String.eqb x a); cbn; [intuition|].
    intros [H|H]; [auto|]. destruct (IH y H); auto.
Qed.

Lemma set_child_at x d es p n : NoDup (map fst es) ->
  at_path (FDir (Some (set_child x d es))) p n <->
  (p = [] /\ n = FDir (Some (set_child x d es))) \/
  (exists q, p = x :: q /\ at_path d q n) \/
  (exists y q, p = y :: q /\ y <> x /\ at_path (FDir (Some es)) p n).
Proof.
  intros N. split.
  - intros H. inversion H as [|es' y e q k I H1]; subst; [auto|]. right. apply (in_set_child _ _ _ _ _ N) in I as [[-> ->]|[Ne I]].
    + left. exists q. auto.
    + right. exists y, q. split; [reflexivity|]. split; [exact Ne|]. apply (ap_in es y e); assumption.
  - intros [[-> ->]|[[q [-> H]]|[y [q [-> [Ne H]]]]]]; [constructor| |].
    + apply (ap_in _ x d); [|exact H]. apply in_set_child; auto.
    + inversion H as [|es' y' e q' k I H1]; subst. apply (ap_in _ y e); [|exact H1]. apply in_set_child; auto.
Qed.

Definition entries (n : fsnode) : list (string * fsnode) := match n with FDir (Some es) => es | _ => [] end.

Lemma entries_once n : names_once n -> NoDup (map fst (entries n)).
Proof. intros W. destruct W; cbn; [constructor|constructor|assumption]. Qed.
Lemma entries_in n x d : names_once n -> In (x, d) (entries n) -> names_once d.
Proof. intros W. destruct W as [| |es N K]; cbn; [intros []|intros []|apply K]. Qed.
Lemma entries_at n x q m : at_path (FDir (Some (entries n))) (x :: q) m <-> at_path n (x :: q) m.
Proof. destruct n as [oc|[es|]]; cbn; [|tauto|]; split; intros H; inversion H as [|es y e p k I H1]; subst; try destruct I. Qed.

Lemma with_module_eq inp t : with_module inp t =
  FDir (Some (set_child "cue.mod" (FDir (Some (set_child "module.cue" (FFile (Some t))
    (match child inp "cue.mod" with Some d => entries d | None => [] end)))) (entries inp))).
Proof.
  unfold with_module. destruct (child inp "cue.mod") as [[oc|[es|]]|]; cbn; destruct inp as [ic|[ies|]]; reflexivity.
Qed.

Definition sub_entries (inp : fsnode) := match child inp "cue.mod" with Some d => entries d | None => [] end.

Lemma sub_once inp : names_once inp -> NoDup (map fst (sub_entries inp)).
Proof.
  intros W. unfold sub_entries. destruct (child inp "cue.mod") as [d|] eqn:C; [|constructor].
  apply (child_at _ _ _ W) in C. apply entries_once. apply (at_once inp ["cue.mod"]); assumption.
Qed.

Lemma sub_at inp x q m : names_once inp ->
  at_path (FDir (Some (sub_entries inp))) (x :: q) m <-> at_path inp ("cue.mod" :: x :: q) m.
Proof.
  intros W. rewrite (at_cons _ _ _ _ W). unfold sub_entries. destruct (child inp "cue.mod") as [d|] eqn:C.
  - rewrite entries_at. split; [eauto|]. intros [d' [E H]]. injection E as <-. exact H.
  - split; [intros H; inversion H as [|es y e p k I H1]; subst; destruct I|]. intros [d' [E H]]. discriminate.
Qed.

Lemma with_module_at inp t p n : names_once inp -> (forall m, ~ at_path inp modulefile m) ->
  (forall es, n <> FDir (Some es)) ->
  at_path (with_module inp t) p n <->
  (p = modulefile /\ n = FFile (Some t)) \/ (p <> [] /\ p <> ["cue.mod"] /\ at_path inp p n).
Proof.
  intros W NM ND. rewrite with_module_eq. fold (sub_entries inp).
  rewrite set_child_at by (apply entries_once; exact W). split.
  - intros [[-> K]|[[q [-> H]]|[y [q [-> [Ne H]]]]]].
    + exfalso. apply (ND _ K).
    + apply set_child_at in H; [|apply sub_once; exact W].
      destruct H as [[-> K]|[[r [-> H]]|[y [r [-> [Ne H]]]]]].
      * exfalso. apply (ND _ K).
      * apply at_file in H as [-> ->]. left. auto.
      * right. split; [discriminate|]. split; [discriminate|]. apply sub_at in H; assumption.
    + right. split; [discriminate|]. split; [congruence|]. apply (proj1 (entries_at inp y q n) H).
  - intros [[-> ->]|[N1 [N2 H]]].
    + right. left. eexists. split; [reflexivity|]. apply set_child_at; [apply sub_once; exact W|]. right. left.
      eexists. split; [reflexivity|constructor].
    + destruct p as [|x q]; [contradiction|]. destruct (String.eqb_spec x "cue.mod") as [->|E].
      * destruct q as [|y r]; [contradiction|]. right. left. eexists. split; [reflexivity|].
        apply set_child_at; [apply sub_once; exact W|]. right. right. exists y, r. split; [reflexivity|]. split.
        -- intros ->. apply (at_cons _ _ _ _ W) in H as [d [C H]].
           inversion H as [|es y' e p k I H1]; subst. apply (NM e). apply (at_cons _ _ _ _ W). exists (FDir (Some es)).
           split; [exact C|]. apply (ap_in es "module.cue" e); [exact I|constructor].
        -- apply sub_at; assumption.
      * right. right. exists x, q. split; [reflexivity|]. split; [exact E|]. apply entries_at. exact H.
Qed.

Lemma with_module_once inp t : names_once inp -> names_once (with_module inp t).
Proof.
  intros W. rewrite with_module_eq. fold (sub_entries inp). constructor; [apply set_child_once, entries_once, W|].
  intros x d I. apply in_set_child in I; [|apply entries_once; exact W]. destruct I as [[-> ->]|[_ I]].
  - constructor; [apply set_child_once, sub_once, W|]. intros y e I. apply in_set_child in I; [|apply sub_once; exact W].
    destruct I as [[-> ->]|[_ I]]; [constructor|]. unfold sub_entries in I. destruct (child inp "cue.mod") as [d|] eqn:C; [|destruct I].
    apply (child_at _ _ _ W) in C. apply (at_once _ _ _ W) in C. apply (entries_in d y e C I).
  - apply (entries_in inp x d W I).
Qed.

Lemma asModFS_present inp name m : names_once inp -> at_path inp ["cue.mod"; "module.cue"] m -> asModFS inp name = inp.
Proof. intros W H. apply (node_at_path _ _ _ W) in H. unfold asModFS, modulefile. rewrite H. reflexivity. Qed.

Lemma asModFS_absent inp name : names_once inp -> (forall m, ~ at_path inp ["cue.mod"; "module.cue"] m) ->
  asModFS inp name = with_module inp (module_text name).
Proof.
  intros W H. unfold asModFS. destruct (node_at inp modulefile) as [m|] eqn:E; [|reflexivity].
  apply (node_at_path _ _ _ W) in E. exfalso. apply (H m E).
Qed.

Lemma asModFS_files inp name p oc : names_once inp -> (forall m, ~ at_path inp ["cue.mod"; "module.cue"] m) ->
  at_path (asModFS inp name) p (FFile oc) <->
  (p = ["cue.mod"; "module.cue"] /\ oc = Some ("module: """ ++ name ++ """")%string) \/
  (p <> [] /\ p <> ["cue.mod"] /\ at_path inp p (FFile oc)).
Proof.
  intros W H. rewrite (asModFS_absent _ _ W H). rewrite with_module_at; [|exact W|exact H|discriminate].
  assert (K : FFile oc = FFile (Some (module_text name)) <-> oc = Some ("module: """ ++ name ++ """")%string).
  { split; [intros E; injection E as ->; reflexivity|intros ->; reflexivity]. }
  rewrite K. reflexivity.
Qed.

(** A name CUE reads back from between quotes. *)
Definition verbatim (s : string) : Prop :=
  forall a c b, s = (a ++ String c b)%string -> c <> """"%char /\ c <> "\"%char /\ c <> ascii_of_N 10.

Lemma literal_verbatim s : verbatim s -> string_literal (s ++ """") = Some s.
Proof.
  induction s as [|c r IH]; intros V; [reflexivity|]. cbn.
  destruct (V "" c r eq_refl) as [V1 [V2 V3]]. apply Ascii.eqb_neq in V1, V2. rewrite V1, V2.
  assert (V4 : (N_of_ascii c =? 10)%N = false).
  { apply N.eqb_neq. intros E. apply V3. rewrite <- E. symmetry. apply ascii_N_embedding. }
  rewrite V4, IH; [reflexivity|]. intros a d b ->. apply (V (String c a) d b). reflexivity.
Qed.

Lemma substring_all s : substring 0 (String.length s) s = s.
Proof. induction s as [|c r IH]; [reflexivity|]. cbn. rewrite IH. reflexivity. Qed.

Lemma cue_module_text s : verbatim s -> cue_module (module_text s) = inl s.
Proof.
  intros V. unfold cue_module, module_text.
  change (has_prefix ("module: """ ++ s ++ """") "module: """) with (String.prefix "" (s ++ """")).
  assert (P : forall s, String.prefix "" s = true) by (intros [|? ?]; reflexivity). rewrite P.
  change (substring _ (String.length ("module: """ ++ s ++ """") - String.length "module: """) ("module: """ ++ s ++ """"))
    with (substring 0 (String.length (s ++ """") - 0) (s ++ """")).
  rewrite Nat.sub_0_r, substring_all, literal_verbatim by exact V. reflexivity.
Qed.

Lemma dir_between n t : forall p r m, p = t ++ r -> at_path n p m -> r <> [] -> exists es, at_path n t (FDir (Some es)).
Proof.
  revert n. induction t as [|y t IH]; intros n p r m -> H NE; cbn in H.
  - destruct r as [|x r]; [contradiction|]. inversion H; subst. eexists. constructor.
  - inversion H as [|es y' e q k I H1]; subst. destruct (IH e (t ++ r) r m eq_refl H1 NE) as [es' H2].
    exists es'. apply (ap_in es y e); assumption.
Qed.

Lemma asModFS_usable inp name : names_once inp -> (forall m, ~ at_path inp ["cue.mod"; "module.cue"] m) ->
  ~ obstructed inp -> verbatim name -> name <> "" -> usable cue_module (asModFS inp name) name.
Proof.
  intros W H O V NE. split; [|split; [exact NE|]].
  - exists (module_text name). split; [|apply cue_module_text; exact V].
    apply asModFS_files; [exact W|exact H|]. left. auto.
  - rewrite (asModFS_absent _ _ W H). intros [[p [L A]]|[es A]]; apply O.
    + apply with_module_at in A; [|exact W|exact H|discriminate]. destruct A as [[_ K]|[_ [_ A]]]; [discriminate|].
      left. eauto.
    + right. exists es. rewrite with_module_eq in A. fold (sub_entries inp) in A.
      apply set_child_at in A; [|apply entries_once; exact W].
      destruct A as [[K _]|[[q [K A]]|[y [q [K [Ne _]]]]]]; [discriminate| |congruence].
      injection K as <-. apply set_child_at in A; [|apply sub_once; exact W].
      destruct A as [[K _]|[[q [K A]]|[y [q [K [Ne A]]]]]]; [discriminate|discriminate|].
      apply sub_at in A; [|exact W]. exact A.
Qed.
