(** Proofs about [Cli.v]. *)
From Verif Require Import Prelude Strings Version VersionProofs Search SearchProofs ValidateErr Native Split
  Lineage LineageProofs WalkProofs BindFacts WalkFacts Translate TranslateCueProofs Cli Toy.
From Coq Require Import Sorting.Sorted.
Local Open Scope string_scope.
Local Open Scope list_scope.

(** *** The module search *)

(** [d] is [p] or a directory above it. *)
Definition at_or_above (d p : list string) : Prop := exists r, p = d ++ r.

(** The nearest directory at or above [p], other than the root, where something
    answers for [cue.mod/module.cue]. *)
Definition nearest (fs : fsys) (p d : list string) : Prop :=
  d <> [] /\ at_or_above d p /\ fs_read fs (d ++ ["cue.mod"; "module.cue"]) <> ReadNotExist /\
  forall d', at_or_above d' p -> length d < length d' ->
    fs_read fs (d' ++ ["cue.mod"; "module.cue"]) = ReadNotExist.

Definition find_spec (fs : fsys) (module_of : string -> string + string) (p : list string)
    (r : find_res) : Prop :=
  let file d := d ++ ["cue.mod"; "module.cue"] in
  match r with
  | Found m =>
      nearest fs p (cuemodparentdir m) /\
      exists b, fs_read fs (file (cuemodparentdir m)) = ReadData b /\ module_of b = inl (modname m)
  | FInvalid t =>
      exists d b e, nearest fs p d /\ fs_read fs (file d) = ReadData b /\ module_of b = inr e /\
        t = ("contents of " ++ pstring (file d) ++ " invalid: " ++ e)%string
  | FRead t =>
      exists d e, nearest fs p d /\ fs_read fs (file d) = ReadErr e /\
        t = ("error reading path " ++ pstring (file d) ++ ": " ++ e)%string
  | FNotExist =>
      forall d, d <> [] -> at_or_above d p -> fs_read fs (file d) = ReadNotExist
  | FStat _ => False
  end.

Lemma above_snoc d p x : at_or_above d (p ++ [x]) <-> d = p ++ [x] \/ at_or_above d p.
Proof.
  split.
  - intros [r E]. destruct r as [|y r] using rev_ind.
    + left. rewrite app_nil_r in E. auto.
    + right. rewrite app_assoc in E. apply app_inj_tail in E as [E _]. exists r. exact E.
  - intros [->|[r ->]]; [exists []; rewrite app_nil_r; reflexivity|].
    exists (r ++ [x]). rewrite app_assoc. reflexivity.
Qed.

Lemma above_length d p : at_or_above d p -> length d <= length p.
Proof. intros [r ->]. rewrite app_length. lia. Qed.

Lemma nearest_snoc fs p x d :
  fs_read fs ((p ++ [x]) ++ ["cue.mod"; "module.cue"]) = ReadNotExist ->
  nearest fs p d -> nearest fs (p ++ [x]) d.
Proof.
  intros E [H1 [H2 [H3 H4]]]. split; [exact H1|]. split; [apply above_snoc; right; exact H2|].
  split; [exact H3|]. intros d' A L. apply above_snoc in A as [->|A]; [exact E|]. apply H4; assumption.
Qed.

Lemma nearest_self fs p x :
  fs_read fs ((p ++ [x]) ++ ["cue.mod"; "module.cue"]) <> ReadNotExist ->
  nearest fs (p ++ [x]) (p ++ [x]).
Proof.
  intros H. split; [destruct p; discriminate|]. split; [exists []; rewrite app_nil_r; reflexivity|].
  split; [exact H|]. intros d' A L. apply above_length in A. lia.
Qed.

Lemma search_up_spec fs mo rp : find_spec fs mo (rev rp) (search_up fs mo rp).
Proof.
  induction rp as [|x up IH].
  - cbn. intros d N [r E]. symmetry in E. apply app_eq_nil in E as [E _]. contradiction.
  - cbn [search_up rev] in *. unfold modfile in *.
    destruct (fs_read fs ((rev up ++ [x]) ++ ["cue.mod"; "module.cue"])) as [b| |t] eqn:R.
    + assert (N : nearest fs (rev up ++ [x]) (rev up ++ [x])) by (apply nearest_self; congruence).
      destruct (mo b) as [n|e] eqn:M; cbn.
      * split; [exact N|]. exists b. auto.
      * exists (rev up ++ [x]), b, e. auto.
    + revert IH. destruct (search_up fs mo up) as [m|t|t|t|]; cbn.
      * intros [N H]. split; [apply nearest_snoc; assumption|exact H].
      * auto.
      * intros [d [b [e [N H]]]]. exists d, b, e. split; [apply nearest_snoc; assumption|exact H].
      * intros [d [e [N H]]]. exists d, e. split; [apply nearest_snoc; assumption|exact H].
      * intros H d Nd A. apply above_snoc in A as [->|A]; [exact R|]. apply H; assumption.
    + assert (N : nearest fs (rev up ++ [x]) (rev up ++ [x])) by (apply nearest_self; congruence).
      cbn. exists (rev up ++ [x]), t. auto.
Qed.

Lemma find_cue_mod fs mo p :
  match fs_stat fs p with
  | StatErr e => findCueMod fs mo p = FStat ("could not stat path: " ++ e)%string
  | StatDir => find_spec fs mo p (findCueMod fs mo p)
  | StatFile => find_spec fs mo (removelast p) (findCueMod fs mo p)
  end.
Proof.
  unfold findCueMod. destruct (fs_stat fs p); [reflexivity| |].
  - pose proof (search_up_spec fs mo (rev p)) as H. rewrite rev_involutive in H. exact H.
  - pose proof (search_up_spec fs mo (rev (removelast p))) as H. rewrite rev_involutive in H. exact H.
Qed.

Lemma nearest_unique fs p d d' : nearest fs p d -> nearest fs p d' -> d = d'.
Proof.
  intros [A1 [A2 [A3 A4]]] [B1 [B2 [B3 B4]]].
  destruct (Nat.lt_trichotomy (length d) (length d')) as [L|[L|L]].
  - exfalso. apply B3. apply A4; assumption.
  - destruct A2 as [r E]. destruct B2 as [r' E']. rewrite E in E'. clear -L E'.
    revert d' L E'. induction d as [|x d IH]; intros [|y d'] L E; try discriminate L; [reflexivity|].
    cbn in E. injection E as -> E. f_equal. apply IH; [cbn in L; lia|exact E].
  - exfalso. apply A3. apply B4; assumption.
Qed.

Lemma find_unique fs mo p r r' : find_spec fs mo p r -> find_spec fs mo p r' -> r = r'.
Proof.
  intros A B.
  assert (NN : forall d, nearest fs p d ->
            (forall d, d <> [] -> at_or_above d p -> fs_read fs (d ++ ["cue.mod"; "module.cue"]) = ReadNotExist) -> False).
  { intros d [N1 [N2 [N3 _]]] H. apply N3. apply H; assumption. }
  destruct r as [[md mn]|t|t|t|], r' as [[md' mn']|t'|t'|t'|]; cbn in A, B; try contradiction;
    repeat match goal with
    | H : exists _, _ |- _ => destruct H
    | H : _ /\ _ |- _ => destruct H
    end;
    try reflexivity;
    try (match goal with N1 : nearest fs p ?a, N2 : nearest fs p ?b |- _ => pose proof (nearest_unique _ _ _ _ N1 N2) end; subst);
    try congruence; try (exfalso; eauto; fail).
Qed.

(** *** Paths *)

(** An element of a cleaned path. *)
Definition plain (x : string) : Prop := x <> ".." /\ x <> ".".

Lemma clean_plain p : Forall plain p -> forall acc, clean_elems acc p = rev acc ++ p.
Proof.
  induction 1 as [|x p [H1 H2] F IH]; intros acc; cbn [clean_elems]; [rewrite app_nil_r; reflexivity|].
  apply String.eqb_neq in H1, H2. rewrite H1, H2, IH. cbn. rewrite <- app_assoc. reflexivity.
Qed.

Lemma join_plain p r : Forall plain (p ++ r) -> joinpath p r = p ++ r.
Proof. intros H. unfold joinpath. rewrite clean_plain by exact H. reflexivity. Qed.

(** Joining the relative path gets back to the target. *)
Lemma clean_plain_app p : forall acc r, Forall plain p -> clean_elems acc (p ++ r) = clean_elems (rev p ++ acc) r.
Proof.
  induction p as [|x p IH]; intros acc r F; [reflexivity|]. inversion F as [|? ? Hx F']; subst.
  destruct Hx as [H1 H2]. cbn. destruct (String.eqb_spec x ".."); [contradiction|].
  destruct (String.eqb_spec x "."); [contradiction|]. rewrite IH by exact F'. now rewrite <- app_assoc.
Qed.
Lemma rel_split b t : exists c b' t', b = c ++ b' /\ t = c ++ t' /\ relpath b t = repeat ".." (length b') ++ t'.
Proof.
  revert t. induction b as [|x b IH]; intros t; [exists [], [], t; destruct t; auto|].
  destruct t as [|y t]; [exists [], (x :: b), []; auto|]. cbn [relpath].
  destruct (String.eqb_spec x y) as [->|N]; [|exists [], (x :: b), (y :: t); auto].
  destruct (IH t) as (c & b' & t' & -> & -> & E). exists (y :: c), b', t'. auto.
Qed.
Lemma clean_ups l : forall acc r, clean_elems (l ++ acc) (repeat ".." (length l) ++ r) = clean_elems acc r.
Proof. induction l as [|x l IH]; intros acc r; [reflexivity|]. cbn. apply IH. Qed.
Lemma join_rel b t : Forall plain b -> Forall plain t -> joinpath b (relpath b t) = t.
Proof.
  intros Fb Ft. destruct (rel_split b t) as (c & b' & t' & -> & -> & ->). unfold joinpath.
  rewrite clean_plain_app by exact Fb. rewrite rev_app_distr, app_nil_r, <- (rev_length b'), clean_ups.
  apply Forall_app in Ft as [_ Ft]. rewrite <- (app_nil_r t') at 1. rewrite clean_plain_app by exact Ft.
  cbn. now rewrite rev_app_distr, !rev_involutive.
Qed.

(** Where the elements [r] lead from the directory [p], one step at a time. *)
Inductive leads : list string -> list string -> list string -> Prop :=
| leads_here p : leads p [] p
| leads_up p r t : leads (removelast p) r t -> leads p (".." :: r) t
| leads_stay p r t : leads p r t -> leads p ("." :: r) t
| leads_down p x r t : plain x -> leads (p ++ [x]) r t -> leads p (x :: r) t.

Lemma removelast_rev {A} (l : list A) : removelast (rev l) = rev (tl l).
Proof. destruct l as [|x l]; [reflexivity|]. cbn. apply removelast_last. Qed.
Lemma clean_leads r : forall acc, leads (rev acc) r (clean_elems acc r).
Proof.
  induction r as [|x r IH]; intros acc; cbn [clean_elems]; [constructor|].
  destruct (String.eqb_spec x "..") as [->|N1]; [apply leads_up; rewrite removelast_rev; apply IH|].
  destruct (String.eqb_spec x ".") as [->|N2]; [apply leads_stay, IH|].
  apply leads_down; [split; assumption|]. exact (IH (x :: acc)).
Qed.
Lemma join_leads b r : Forall plain b -> leads b r (joinpath b r).
Proof.
  intros F. unfold joinpath. rewrite clean_plain_app by exact F. rewrite app_nil_r.
  pose proof (clean_leads r (rev b)) as H. now rewrite rev_involutive in H.
Qed.

Lemma rel_above d r : relpath d (d ++ r) = r.
Proof.
  induction d as [|x d IH]; cbn; [destruct r; reflexivity|]. rewrite String.eqb_refl. exact IH.
Qed.

Lemma above_removelast d p : at_or_above d (removelast p) -> p <> [] ->
  exists r, p = d ++ r /\ r <> [].
Proof.
  intros [r E] N. exists (r ++ [last p ""]). split; [|destruct r; discriminate].
  rewrite app_assoc, <- E. apply app_removelast_last. exact N.
Qed.

(** What is loaded, for a lineage at [abs] in directory [start]. *)
Definition load_spec (fs : fsys) (mo : string -> string + string) (input : string)
    (abs start : list string) (args : list string) (r : outcome loadcfg) : Prop :=
  let file d := d ++ ["cue.mod"; "module.cue"] in
  let thema d := d ++ ["cue.mod"; "pkg"; "github.com"; "grafana"; "thema"] in
  let failed e := r = Err (new_err ("error while searching for cue.mod at or above "
                                    ++ input ++ ": " ++ e)%string) in
  (* no module: the directory itself becomes one *)
  ((forall d, d <> [] -> at_or_above d start -> fs_read fs (file d) = ReadNotExist) ->
     r = Ok (mkLoad start "" [(file start, OText "module: """""); (thema start, OThema)] start "*" args)) /\
  (* the nearest module *)
  (forall d b n, nearest fs start d -> fs_read fs (file d) = ReadData b -> mo b = inl n ->
     r = Ok (mkLoad d n (if String.eqb n "github.com/grafana/thema" then [] else [(thema d, OThema)])
               start "" args)) /\
  (* or it cannot be used *)
  (forall d b e, nearest fs start d -> fs_read fs (file d) = ReadData b -> mo b = inr e ->
     failed ("contents of " ++ pstring (file d) ++ " invalid: " ++ e)%string) /\
  (forall d e, nearest fs start d -> fs_read fs (file d) = ReadErr e ->
     failed ("error reading path " ++ pstring (file d) ++ ": " ++ e)%string).

Lemma plain_themamod : Forall plain themamodpath.
Proof. repeat constructor; discriminate. Qed.

Lemma plain_modfile : Forall plain ["cue.mod"; "module.cue"].
Proof. repeat constructor; discriminate. Qed.

Lemma plain_prefix d r : Forall plain (d ++ r) -> Forall plain d.
Proof. intros H. apply Forall_app in H as [H _]. exact H. Qed.

Lemma removelast_plain p : Forall plain p -> Forall plain (removelast p).
Proof.
  induction 1 as [|x p H F IH]; cbn; [constructor|]. destruct p; constructor; assumption.
Qed.

Lemma last_app {A} (d r : list A) x : r <> [] -> last (d ++ r) x = last r x.
Proof.
  intros N. induction d as [|y d IH]; cbn; [reflexivity|].
  destruct (d ++ r) as [|z l] eqn:E; [destruct d; destruct r; try discriminate; contradiction|]. exact IH.
Qed.

Lemma removelast_app_ne {A} (d r : list A) : r <> [] -> removelast (d ++ r) = d ++ removelast r.
Proof. intros N. apply removelast_app. exact N. Qed.

Lemma load_config_dir fs mo input abs :
  Forall plain abs -> fs_stat fs abs = StatDir ->
  load_spec fs mo input abs abs [] (load_config fs mo input abs).
Proof.
  intros F St. pose proof (find_cue_mod fs mo abs) as H. rewrite St in H.
  unfold load_config. rewrite St.
  assert (J : forall d x, at_or_above d abs -> Forall plain x -> joinpath d x = d ++ x).
  { intros d x [r' E] Px. apply join_plain. apply Forall_app. split; [|exact Px].
    apply (plain_prefix d r'). rewrite <- E. exact F. }
  assert (A0 : at_or_above abs abs) by (exists []; rewrite app_nil_r; reflexivity).
  assert (U : forall r, find_spec fs mo abs r -> findCueMod fs mo abs = r)
    by (intros r; apply find_unique; exact H).
  unfold load_spec. split; [|split; [|split]].
  - intros Hn. rewrite (U FNotExist Hn).
    rewrite !(J abs _ A0) by (exact plain_themamod || exact plain_modfile). reflexivity.
  - intros d b n N R M. rewrite (U (Found (mkMod d n))) by (cbn; eauto). cbn [cuemodparentdir modname].
    destruct N as [_ [A _]]. rewrite (J d _ A) by exact plain_themamod.
    destruct A as [r E]. rewrite E, rel_above. rewrite join_plain by (rewrite <- E; exact F). reflexivity.
  - intros d b e N R M. erewrite (U (FInvalid _)) by (cbn; eauto 7). reflexivity.
  - intros d e N R. erewrite (U (FRead _)) by (cbn; eauto 7). reflexivity.
Qed.

Lemma load_config_file fs mo input abs :
  Forall plain abs -> abs <> [] -> fs_stat fs abs = StatFile ->
  load_spec fs mo input abs (removelast abs) [last abs ""] (load_config fs mo input abs).
Proof.
  intros F Ne St. pose proof (find_cue_mod fs mo abs) as H. rewrite St in H.
  unfold load_config. rewrite St.
  assert (J : forall d x, at_or_above d (removelast abs) -> Forall plain x -> joinpath d x = d ++ x).
  { intros d x [r' E] Px. apply join_plain. apply Forall_app. split; [|exact Px].
    apply (plain_prefix d r'). rewrite <- E. apply removelast_plain. exact F. }
  assert (A0 : at_or_above (removelast abs) (removelast abs)) by (exists []; rewrite app_nil_r; reflexivity).
  assert (U : forall r, find_spec fs mo (removelast abs) r -> findCueMod fs mo abs = r)
    by (intros r; apply find_unique; exact H).
  assert (B : forall x y, last abs x = last abs y).
  { intros x y. destruct (exists_last Ne) as [l [a ->]]. rewrite !last_last. reflexivity. }
  unfold load_spec. split; [|split; [|split]].
  - intros Hn. rewrite (U FNotExist Hn). unfold dirname, basename. rewrite (B "/" "").
    rewrite !(J (removelast abs) _ A0) by (exact plain_themamod || exact plain_modfile). reflexivity.
  - intros d b n N R M. rewrite (U (Found (mkMod d n))) by (cbn; eauto). cbn [cuemodparentdir modname].
    destruct N as [_ [A _]]. rewrite (J d _ A) by exact plain_themamod.
    destruct (above_removelast _ _ A Ne) as [r [E Nr]].
    unfold dirname, basename. rewrite E, rel_above.
    rewrite <- (last_app d r "/") by exact Nr. rewrite <- E, (B "/" "").
    rewrite join_plain by (rewrite <- removelast_app_ne by exact Nr; rewrite <- E; apply removelast_plain; exact F).
    rewrite <- removelast_app_ne by exact Nr. rewrite <- E. reflexivity.
  - intros d b e N R M. erewrite (U (FInvalid _)) by (cbn; eauto 7). reflexivity.
  - intros d e N R. erewrite (U (FRead _)) by (cbn; eauto 7). reflexivity.
Qed.

(** *** Packages *)
Section Packages.
Context {V : Type}.
Variable ev : evaluator V.
Variable fv : bool.
Variable lindef : V.
Variable path_err : string -> option string.
Variable skip : bool.

Notation loadone := (loadone ev fv lindef path_err skip).
Notation load_all := (load_all ev fv lindef path_err skip).
Notation buildInsts := (buildInsts ev fv lindef path_err skip).

(** The [k]-th package yields [r]. *)
Definition yields (bs : list (binst V)) (ppath : binst V -> string) (cuepath : string)
    (k : nat) (b : binst V) (r : outcome (lineage V)) : Prop :=
  nth_error bs k = Some b /\ loadone (N.of_nat k) b (ppath b) cuepath = r.

(** What a package gives: [e] for an error, [v] for the value that is bound. *)
Inductive bound_value (b : binst V) (pkgpath cuepath : string) : cexpr V + err -> Prop :=
| bound_error e : bi_err b = Some e -> bound_value b pkgpath cuepath (inr e)
| bound_empty : bi_err b = None -> bi_at b "" = None ->
    bound_value b pkgpath cuepath (inr (new_err ("empty instance at " ++ pkgpath)%string))
| bound_root v : bi_err b = None -> bi_at b "" = Some v -> cuepath = "" ->
    bound_value b pkgpath cuepath (inl v)
| bound_syntax r e : bi_err b = None -> bi_at b "" = Some r -> cuepath <> "" ->
    path_err cuepath = Some e ->
    bound_value b pkgpath cuepath
      (inr (new_err ("""" ++ cuepath ++ """ is not a valid CUE path expression: " ++ e)%string))
| bound_missing r : bi_err b = None -> bi_at b "" = Some r -> cuepath <> "" ->
    path_err cuepath = None -> bi_at b cuepath = None ->
    bound_value b pkgpath cuepath
      (inr (new_err ("no value at path """ ++ cuepath ++ """ in instance """ ++ pkgpath ++ """")%string))
| bound_path r v : bi_err b = None -> bi_at b "" = Some r -> cuepath <> "" ->
    path_err cuepath = None -> bi_at b cuepath = Some v ->
    bound_value b pkgpath cuepath (inl v).

Lemma load_one id b pkgpath cuepath :
  exists r, bound_value b pkgpath cuepath r /\
    loadone id b pkgpath cuepath =
      match r with
      | inl v => BindLineage ev id fv lindef v (if skip then [OSkipBuggyChecks] else [])
      | inr e => Err e
      end.
Proof.
  unfold loadone. destruct (bi_err b) as [e|] eqn:E; [exists (inr e); split; [constructor; exact E|reflexivity]|].
  destruct (bi_at b "") as [r|] eqn:R; [|eexists; split; [apply bound_empty; assumption|reflexivity]].
  destruct (String.eqb_spec cuepath "") as [C|C];
    [exists (inl r); split; [apply bound_root; assumption|reflexivity]|].
  destruct (path_err cuepath) as [e|] eqn:P;
    [eexists; split; [eapply bound_syntax; eassumption|reflexivity]|].
  destruct (bi_at b cuepath) as [v|] eqn:A;
    [exists (inl v); split; [eapply bound_path; eassumption|reflexivity]|].
  eexists; split; [eapply bound_missing; eassumption|reflexivity].
Qed.

Lemma bound_value_unique b pp cp r r' :
  bound_value b pp cp r -> bound_value b pp cp r' -> r = r'.
Proof. intros H H'; inversion H; inversion H'; subst; try congruence. Qed.

Definition answered {A} (o : outcome A) : Prop := (exists a, o = Ok a) \/ (exists e, o = Err e).

Definition as_outcome (r : lineage V + err) : outcome (lineage V) :=
  match r with inl l => Ok l | inr e => Err e end.

Lemma load_all_ok pp cp bs : forall id,
  (forall k b, nth_error bs k = Some b -> answered (loadone (id + N.of_nat k) b (pp b) cp)) ->
  exists rets, load_all id bs pp cp = Ok rets /\ length rets = length bs /\
    forall k b r, nth_error rets k = Some (b, r) <->
      (nth_error bs k = Some b /\ loadone (id + N.of_nat k) b (pp b) cp = as_outcome r).
Proof.
  induction bs as [|b bs IH]; intros id H.
  - exists []. split; [reflexivity|]. split; [reflexivity|]. intros [|k] b r; cbn; split; try discriminate; intros [K _]; discriminate.
  - assert (H0 := H 0 b eq_refl). rewrite N.add_0_r in H0.
    destruct (IH (id + 1)%N) as [rest [E [L S]]].
    { intros k b' Hk. specialize (H (S k) b' Hk).
      replace (id + 1 + N.of_nat k)%N with (id + N.of_nat (S k))%N by lia. exact H. }
    assert (exists r0, loadone id b (pp b) cp = as_outcome r0 /\
      load_all id (b :: bs) pp cp = Ok ((b, r0) :: rest)) as [r0 [E0 E1]].
    { cbn [Cli.load_all]. destruct H0 as [[l E0]|[e E0]]; rewrite E0, E; cbn [bind];
        [exists (inl l)|exists (inr e)]; auto. }
    exists ((b, r0) :: rest). split; [exact E1|]. split; [cbn; lia|].
    intros [|k] b' r; cbn [nth_error].
    + rewrite N.add_0_r. split.
      * intros Q. injection Q as -> ->. auto.
      * intros [Q1 Q2]. injection Q1 as ->. rewrite E0 in Q2.
        destruct r0, r; cbn in Q2; congruence.
    + rewrite S. replace (id + 1 + N.of_nat k)%N with (id + N.of_nat (Datatypes.S k))%N by lia. reflexivity.
Qed.

(** The packages that bind, in order. *)
Definition bound_of (rets : list (binst V * (lineage V + err))) : list (lineage V * binst V) :=
  flat_map (fun r => match r with (b, inl l) => [(l, b)] | _ => [] end) rets.

Lemma pick_spec rets : forall sel,
  pick sel rets =
  match (match sel with Some x => [x] | None => [] end) ++ bound_of rets with
  | [] => Ok None
  | [x] => Ok (Some x)
  | _ => Err (new_err "valid lineages found in multiple CUE packages")
  end.
Proof.
  induction rets as [|[b [l|e]] rets IH]; intros sel; cbn [pick bound_of flat_map].
  - destruct sel; reflexivity.
  - destruct sel as [x|]; cbn [app].
    + reflexivity.
    + rewrite IH. reflexivity.
  - rewrite IH. reflexivity.
Qed.

Lemma bound_of_in rets x : In x (bound_of rets) <-> exists k, nth_error rets k = Some (snd x, inl (fst x)).
Proof.
  unfold bound_of. rewrite in_flat_map. split.
  - intros [[b [l|e]] [I H]]; cbn in H; [|contradiction]. destruct H as [<-|[]].
    apply In_nth_error in I as [k I]. exists k. exact I.
  - intros [k H]. apply nth_error_In in H. exists (snd x, inl (fst x)). split; [exact H|].
    left. destruct x; reflexivity.
Qed.

Lemma bound_of_one rets k x :
  nth_error rets k = Some (snd x, inl (fst x)) ->
  (forall k' b l, nth_error rets k' = Some (b, inl l) -> k' = k) ->
  bound_of rets = [x].
Proof.
  revert k. induction rets as [|[b [l|e]] rets IH]; intros k H U; [destruct k; discriminate| |].
  - assert (0 = k) by (apply (U 0 b l); reflexivity). subst k. cbn in H. injection H as -> ->.
    unfold bound_of. cbn [flat_map].
    destruct (flat_map _ rets) as [|y r] eqn:E.
    + destruct x; reflexivity.
    + exfalso. assert (In y (bound_of rets)) by (unfold bound_of; rewrite E; left; reflexivity).
      apply bound_of_in in H as [k' H]. specialize (U (S k') _ _ H). discriminate.
  - destruct k as [|k]; [discriminate|]. cbn. apply (IH k); [exact H|].
    intros k' b' l' H'. specialize (U (S k') b' l' H'). lia.
Qed.

Lemma bound_of_two rets k k' b l b' l' :
  k < k' -> nth_error rets k = Some (b, inl l) -> nth_error rets k' = Some (b', inl l') ->
  exists x y r, bound_of rets = x :: y :: r.
Proof.
  revert k k'. induction rets as [|[b0 [l0|e0]] rets IH]; intros k k' L H H'; [destruct k; discriminate| |].
  - destruct k' as [|k']; [lia|]. cbn in H'.
    assert (I : In (l', b') (bound_of rets)) by (apply bound_of_in; exists k'; exact H').
    unfold bound_of in *. cbn [flat_map]. destruct (flat_map _ rets) as [|y r]; [destruct I|].
    cbn. eauto.
  - destruct k as [|k]; [discriminate|]. destruct k' as [|k']; [lia|]. cbn. apply (IH k k'); [lia|exact H|exact H'].
Qed.

Lemma bound_of_none rets : (forall k b l, nth_error rets k <> Some (b, inl l)) -> bound_of rets = [].
Proof.
  intros H. destruct (bound_of rets) as [|x r] eqn:E; [reflexivity|].
  assert (In x (bound_of rets)) by (rewrite E; left; reflexivity).
  apply bound_of_in in H0 as [k H0]. exfalso. apply (H k _ _ H0).
Qed.

Lemma build_rets bs pp cp rets : load_all 0 bs pp cp = Ok rets ->
  buildInsts bs pp cp =
  match bound_of rets with
  | [x] => Ok x
  | _ :: _ :: _ => Err (new_err "valid lineages found in multiple CUE packages")
  | [] => match rets with
          | [] => Err (new_err "no loadable CUE data found")
          | (_, r) :: _ => match r with inr e => Err e | inl l => Panic end
          end
  end.
Proof.
  intros E. unfold Cli.buildInsts. rewrite E. cbn [bind].
  destruct rets as [|[b0 r0] [|r1 rets]].
  - reflexivity.
  - destruct r0 as [l|e]; reflexivity.
  - rewrite pick_spec. cbn [app].
    destruct (bound_of ((b0, r0) :: r1 :: rets)) as [|x [|y r]] eqn:B; cbn [bind]; try reflexivity.
    cbn [snd]. destruct r0 as [l|e]; [|reflexivity]. discriminate B.
Qed.

Lemma build_insts bs pp cp :
  (forall k b, nth_error bs k = Some b -> answered (loadone (N.of_nat k) b (pp b) cp)) ->
  (bs = [] -> buildInsts bs pp cp = Err (new_err "no loadable CUE data found")) /\
  (forall l b, buildInsts bs pp cp = Ok (l, b) <->
     exists k, yields bs pp cp k b (Ok l) /\
       forall k' b' l', yields bs pp cp k' b' (Ok l') -> k' = k) /\
  (forall k k' b b' l l', k <> k' -> yields bs pp cp k b (Ok l) -> yields bs pp cp k' b' (Ok l') ->
     buildInsts bs pp cp = Err (new_err "valid lineages found in multiple CUE packages")) /\
  (bs <> [] -> (forall k b l, ~ yields bs pp cp k b (Ok l)) ->
     exists b e, yields bs pp cp 0 b (Err e) /\ buildInsts bs pp cp = Err e).
Proof.
  intros A. destruct (load_all_ok pp cp bs 0 A) as [rets [E [L S]]].
  rewrite (build_rets _ _ _ _ E).
  assert (Y : forall k b r, nth_error rets k = Some (b, r) <-> yields bs pp cp k b (as_outcome r)) by exact S.
  split; [|split; [|split]].
  - intros ->. destruct rets; [reflexivity|discriminate].
  - intros l b. split.
    + destruct (bound_of rets) as [|x [|y r]] eqn:B; intros H.
      * exfalso. destruct rets as [|[b0 [l0|e0]] rets]; discriminate.
      * injection H as ->.
        assert (I : In (l, b) (bound_of rets)) by (rewrite B; left; reflexivity).
        apply bound_of_in in I as [k I]. exists k. split; [apply (Y k b (inl l)); exact I|].
        intros k' b' l' H'. apply (Y k' b' (inl l')) in H'.
        destruct (Nat.lt_trichotomy k k') as [K|[K|K]]; [|auto|].
        -- destruct (bound_of_two _ _ _ _ _ _ _ K I H') as [? [? [? Q]]]. congruence.
        -- destruct (bound_of_two _ _ _ _ _ _ _ K H' I) as [? [? [? Q]]]. congruence.
      * discriminate.
    + intros [k [H U]]. apply (Y k b (inl l)) in H.
      rewrite (bound_of_one rets k (l, b) H); [reflexivity|].
      intros k' b' l' H'. apply (U k' b' l'). apply (Y k' b' (inl l')). exact H'.
  - intros k k' b b' l l' Nk H H'. apply (Y k b (inl l)) in H. apply (Y k' b' (inl l')) in H'.
    destruct (Nat.lt_trichotomy k k') as [K|[K|K]]; [|contradiction|].
    + destruct (bound_of_two _ _ _ _ _ _ _ K H H') as [? [? [? ->]]]. reflexivity.
    + destruct (bound_of_two _ _ _ _ _ _ _ K H' H) as [? [? [? ->]]]. reflexivity.
  - intros Ne H. rewrite bound_of_none.
    2: { intros k b l K. apply (H k b l). apply (Y k b (inl l)). exact K. }
    destruct bs as [|b bs]; [contradiction|]. destruct rets as [|[b0 r0] rets]; [discriminate|].
    assert (Q : yields (b :: bs) pp cp 0 b0 (as_outcome r0)) by (apply Y; reflexivity).
    destruct r0 as [l|e]; [exfalso; apply (H 0 b0 l); exact Q|]. exists b0, e. split; [exact Q|reflexivity].
Qed.

(** A lineage loaded by the command has no Go lenses. *)
Lemma loadone_cue id b pp cp l : loadone id b pp cp = Ok l -> bound ev l /\ l_lensmap l = [].
Proof.
  unfold Cli.loadone. intros H.
  assert (C : exists c, BindLineage ev id fv lindef c (if skip then [OSkipBuggyChecks] else []) = Ok l).
  { destruct (bi_err b); [discriminate|]. destruct (bi_at b "") as [root|]; [|discriminate].
    destruct (String.eqb cp ""); [eauto|]. destruct (path_err cp); [discriminate|].
    destruct (bi_at b cp); [eauto|discriminate]. }
  destruct C as [c C]. split; [do 5 eexists; exact C|].
  apply bind_inv in C as [es [lm [_ [_ [_ [_ [_ [_ [O [-> _]]]]]]]]]].
  unfold checkLensesOrder in O.
  assert (I : implenses (make_cfg fv (if skip then [OSkipBuggyChecks] else [])) = [])
    by (destruct skip, fv; reflexivity).
  rewrite I in O. cbn in O.
  destruct (ev_lenses ev (l_uni l)) as [l0|]; [|congruence].
  destruct (check_cue_lenses None l0); cbn in O; congruence.
Qed.

Lemma load_all_in pp cp bs : forall id rets b r, load_all id bs pp cp = Ok rets -> In (b, r) rets ->
  exists i, loadone i b (pp b) cp = as_outcome r.
Proof.
  induction bs as [|b0 bs IH]; intros id rets b r H I; cbn [Cli.load_all] in H.
  - injection H as <-. destruct I.
  - destruct (loadone id b0 (pp b0) cp) as [l|e| |] eqn:E; try discriminate;
      destruct (load_all (id + 1) bs pp cp) as [rest|?| |] eqn:R; try discriminate;
      cbn [bind] in H; injection H as <-; (destruct I as [I|I]; [injection I as <- <-; eauto|eapply IH; eauto]).
Qed.

Lemma build_cue bs pp cp l b : buildInsts bs pp cp = Ok (l, b) -> bound ev l /\ l_lensmap l = [].
Proof.
  intros H. unfold Cli.buildInsts in H.
  destruct (load_all 0 bs pp cp) as [rets|?| |] eqn:E; try discriminate. cbn [bind] in H.
  assert (H' : buildInsts bs pp cp = Ok (l, b)) by (unfold Cli.buildInsts; rewrite E; exact H).
  rewrite (build_rets _ _ _ _ E) in H'.
  destruct (bound_of rets) as [|x [|y r]] eqn:B.
  - destruct rets as [|[b0 [l0|e0]] rets]; discriminate.
  - injection H' as ->. assert (I : In (l, b) (bound_of rets)) by (rewrite B; left; reflexivity).
    apply bound_of_in in I as [k I]. apply nth_error_In in I.
    destruct (load_all_in _ _ _ _ _ _ _ E I) as [i Q]. exact (loadone_cue _ _ _ _ _ Q).
  - discriminate.
Qed.
End Packages.

(** *** The version and the commands *)
Section Commands.
Context {V : Type}.
Variable ev : evaluator V.

Lemma pick_schema_spec (l : lineage V) verstr : bound ev l ->
  (verstr = "" -> exists s, pick_schema l verstr = Ok s /\
     nth_error (all_schemas l) (length (all_schemas l) - 1) = Some s) /\
  (forall v e, verstr <> "" -> parse_version verstr = (v, Some e) -> pick_schema l verstr = Err e) /\
  (forall v, verstr <> "" -> parse_version verstr = (v, None) ->
     (exists s, In s (all_schemas l) /\ s_v s = v) ->
     exists s, pick_schema l verstr = Ok s /\ In s (all_schemas l) /\ s_v s = v) /\
  (forall v, verstr <> "" -> parse_version verstr = (v, None) ->
     (forall s, In s (all_schemas l) -> s_v s <> v) ->
     pick_schema l verstr =
       Err (new_err ("schema version " ++ vstring v ++ " does not exist in lineage")%string)).
Proof.
  intros B. unfold pick_schema. split; [|split; [|split]].
  - intros ->. cbn. destruct (first_latest_all ev l B) as [f [t [_ [H [_ [N _]]]]]]. eauto.
  - intros v e Ne P. apply String.eqb_neq in Ne. rewrite Ne, P. reflexivity.
  - intros v Ne P H. apply String.eqb_neq in Ne. rewrite Ne, P.
    destruct (proj1 (schema_lookup ev l B v) H) as [s [-> H']]. eauto.
  - intros v Ne P H. apply String.eqb_neq in Ne. rewrite Ne, P.
    destruct (proj2 (schema_lookup ev l B v) H) as [e [-> _]]. reflexivity.
Qed.

Lemma v_dec (a b : version) : {a = b} + {a <> b}.
Proof. decide equality; apply N.eq_dec. Qed.

Lemma pick_schema_in (l : lineage V) verstr s : bound ev l -> pick_schema l verstr = Ok s ->
  In s (all_schemas l).
Proof.
  intros B H. destruct (pick_schema_spec l verstr B) as [P1 [P2 [P3 P4]]].
  destruct (string_dec verstr "") as [E|E].
  - destruct (P1 E) as [s' [Q N]]. rewrite H in Q. injection Q as <-. eapply nth_error_In; eauto.
  - destruct (parse_version verstr) as [v [e|]] eqn:P.
    + rewrite (P2 v e E eq_refl) in H. discriminate.
    + destruct (in_dec v_dec v (map s_v (all_schemas l))) as [I|I].
      * apply in_map_iff in I as [t [T1 T2]].
        destruct (P3 v E eq_refl (ex_intro _ t (conj T2 T1))) as [u [U1 [U2 _]]]. congruence.
      * rewrite (P4 v E eq_refl) in H; [discriminate|].
        intros t Ht Q. apply I. apply in_map_iff. eauto.
Qed.

Lemma dyn_load fv lindef path_err skip fs mo instances input abs cp verstr d :
  dynLoad ev fv lindef path_err skip fs mo instances input abs cp verstr = Ok d ->
  bound ev (dl_lin d) /\ l_lensmap (dl_lin d) = [] /\ In (dl_sch d) (all_schemas (dl_lin d)) /\
  pick_schema (dl_lin d) verstr = Ok (dl_sch d).
Proof.
  unfold dynLoad. destruct (String.eqb input ""); [discriminate|].
  destruct (load_config fs mo input abs) as [cfg|?| |]; try discriminate. cbn [bind].
  destruct (buildInsts _ _ _ _ _ _ _ _) as [[l b]|?| |] eqn:E; try discriminate. cbn [bind fst].
  destruct (pick_schema l verstr) as [s|?| |] eqn:P; try discriminate. cbn [bind]. intros H. injection H as <-.
  apply build_cue in E as [B M]. cbn. split; [exact B|]. split; [exact M|].
  split; [eapply pick_schema_in; eauto|exact P].
Qed.

(** [s] is the oldest schema that accepts [data]. *)
Definition oldest (l : lineage V) (data : V) (s : schema V) (i : instance V) : Prop :=
  In s (all_schemas l) /\ validate ev s data = Ok i /\
  forall t j, In t (all_schemas l) -> validate ev t data = Ok j -> vle (s_v s) (s_v t).

Definition rejected (l : lineage V) (data : V) : Prop :=
  forall s, In s (all_schemas l) -> exists e, validate ev s data = Err e.

Lemma validate_ok_inst s data i : validate ev s data = Ok i -> i = mkInst data "" s true.
Proof.
  unfold validate. destruct (ev_validate ev _); [destruct (mungeValidateErr _ _ _); discriminate|].
  intros H. injection H as <-. reflexivity.
Qed.

Definition usable (l : lineage V) (data : V) (fuel : nat) : Prop :=
  bound ev l /\ StronglySorted vlt (map s_v (all_schemas l)) /\
  (forall s, In s (all_schemas l) -> validate ev s data <> Panic) /\
  length (all_schemas l) <= fuel.

Lemma sorted_unique (l : lineage V) s t : StronglySorted vlt (map s_v (all_schemas l)) ->
  In s (all_schemas l) -> In t (all_schemas l) -> s_v s = s_v t -> s = t.
Proof.
  intros S. induction (all_schemas l) as [|x r IH]; [intros []|].
  cbn in S. inversion S as [|? ? S' F]; subst. rewrite Forall_forall in F.
  assert (N : forall y, In y r -> s_v x <> s_v y).
  { intros y I Q. apply (vlt_irrefl (s_v x)). rewrite Q at 2. apply F. apply in_map. exact I. }
  intros [->|I] [->|J] Q; auto.
  - exfalso. apply (N t J Q).
  - exfalso. apply (N s I). auto.
Qed.

Lemma any_found l data fuel s i : usable l data fuel -> oldest l data s i ->
  validateAny ev fuel l data = Ok (Some i).
Proof.
  intros [B [S [R F]]] [I [Vs O]].
  destruct (validate_any_spec ev l data fuel B S R F) as [[_ H]|[t [j [It [Vt [_ [_ [_ [Ot H]]]]]]]]].
  - destruct (H s I) as [e E]. congruence.
  - assert (s = t).
    { apply (sorted_unique l); auto. apply vle_antisym; eauto. }
    subst t. congruence.
Qed.

Lemma any_none l data fuel : usable l data fuel -> rejected l data ->
  validateAny ev fuel l data = Ok None.
Proof.
  intros [B [S [R F]]] H.
  destruct (validate_any_spec ev l data fuel B S R F) as [[Q _]|[t [j [It [Vt _]]]]]; [exact Q|].
  destruct (H t It) as [e E]. congruence.
Qed.

Lemma validate_any_cmd d data fuel : usable (dl_lin d) data fuel -> In (dl_sch d) (all_schemas (dl_lin d)) ->
  (forall i, validate ev (dl_sch d) data = Ok i ->
     runValidateAny ev fuel d data = Ok (OLine (vstring (s_v (dl_sch d))))) /\
  (forall e s i, validate ev (dl_sch d) data = Err e -> oldest (dl_lin d) data s i ->
     runValidateAny ev fuel d data = Ok (OLine (vstring (s_v s)))) /\
  (forall e, validate ev (dl_sch d) data = Err e -> rejected (dl_lin d) data ->
     runValidateAny ev fuel d data = Err e).
Proof.
  intros U I. unfold runValidateAny. split; [|split].
  - intros i ->. reflexivity.
  - intros e s i -> O. rewrite (any_found _ _ _ _ _ U O). cbn [bind].
    destruct O as [_ [Vs _]]. rewrite (validate_ok_inst _ _ _ Vs). reflexivity.
  - intros e -> R. rewrite (any_none _ _ _ U R). reflexivity.
Qed.

Lemma translate_cue_result rm fuel i to x lac :
  l_lensmap (s_lin (i_sch i)) = [] -> translate ev rm fuel i to = Ok (x, lac) ->
  exists t, lin_schema (s_lin (i_sch i)) to = Ok t /\ i_sch x = t /\ ev_json_ok ev (i_raw x) = true /\
    validate ev t (i_raw x) = Ok x.
Proof.
  intros M. destruct fuel as [|f]; [discriminate|]. cbn [translate].
  destruct (negb (i_valid i)); [discriminate|]. rewrite M. unfold translateCUE.
  destruct (lin_schema (s_lin (i_sch i)) to) as [t|?| |]; try discriminate.
  destruct (negb (ev_struct ev (i_raw i))); [discriminate|].
  destruct (cue_steps ev _ _ _ _) as [steps|]; [|discriminate].
  set (raw := ev_default ev (cue_result (i_raw i) steps)).
  destruct (ev_json_ok ev raw) eqn:J; cbn [negb]; [|discriminate].
  destruct (validate ev t raw) as [r|?| |] eqn:E; try discriminate. intros H. injection H as <- _.
  exists t. pose proof (validate_ok_inst _ _ _ E) as Q. rewrite Q. cbn. rewrite <- Q. auto.
Qed.

Lemma schema_in_lin l (s : schema V) : In s (all_schemas l) -> s_lin s = l.
Proof.
  unfold all_schemas. intros H. apply in_map_iff in H as [p [<- _]]. reflexivity.
Qed.

Lemma translate_cmd rm concrete d data fuel :
  usable (dl_lin d) data fuel -> l_lensmap (dl_lin d) = [] -> In (dl_sch d) (all_schemas (dl_lin d)) ->
  (rejected (dl_lin d) data ->
     runTranslate ev rm concrete fuel d data =
       Err (new_err "input data is not valid for any schema in lineage")) /\
  (forall s i, oldest (dl_lin d) data s i ->
     (forall o, runTranslate ev rm concrete fuel d data = Ok o <->
        exists x lac, translate ev rm fuel i (s_v (dl_sch d)) = Ok (x, lac) /\
          ev_exists ev (i_raw x) = true /\ ev_bottom ev (i_raw x) = false /\ concrete (i_raw x) = true /\
          o = OTranslation (vstring (s_v s)) (vstring (s_v (dl_sch d))) (i_raw x) lac) /\
     (forall e, translate ev rm fuel i (s_v (dl_sch d)) = Err e ->
        runTranslate ev rm concrete fuel d data = Err e) /\
     (translate ev rm fuel i (s_v (dl_sch d)) = Panic ->
        runTranslate ev rm concrete fuel d data = Panic)).
Proof.
  intros U M I. unfold runTranslate. split.
  - intros R. rewrite (any_none _ _ _ U R). reflexivity.
  - intros s i O. rewrite (any_found _ _ _ _ _ U O). cbn [bind].
    destruct O as [Is [Vs _]]. pose proof (validate_ok_inst _ _ _ Vs) as Ei.
    split; [|split].
    + intros o. destruct (translate ev rm fuel i (s_v (dl_sch d))) as [[x lac]|?| |] eqn:T.
      2-4: split; [discriminate|intros [? [? [Q _]]]; discriminate].
      cbn [bind].
      assert (Mi : l_lensmap (s_lin (i_sch i)) = []) by (rewrite Ei; cbn; rewrite (schema_in_lin _ _ Is); exact M).
      destruct (translate_cue_result rm fuel i _ x lac Mi T) as [t [Lt [Ex [J _]]]].
      assert (Vt : s_v (i_sch x) = s_v (dl_sch d)).
      { rewrite Ex. rewrite Ei in Lt. cbn in Lt. rewrite (schema_in_lin _ _ Is) in Lt.
        destruct U as [B _]. destruct (proj1 (schema_lookup ev _ B (s_v (dl_sch d)))) as [u [Lu [_ Vu]]]; [eauto|].
        rewrite Lt in Lu. injection Lu as ->. exact Vu. }
      unfold validateTranslationResult. rewrite J, Vt, Ei. cbn [negb i_sch].
      destruct (ev_exists ev (i_raw x)) eqn:X1; cbn [negb bind].
      2: { split; [discriminate|]. intros [? [? [Q [K _]]]]. injection Q as <- <-. congruence. }
      destruct (ev_bottom ev (i_raw x)) eqn:X2; cbn [bind].
      1: { split; [discriminate|]. intros [? [? [Q [_ [K _]]]]]. injection Q as <- <-. congruence. }
      destruct (concrete (i_raw x)) eqn:X3; cbn [negb bind].
      2: { split; [discriminate|]. intros [? [? [Q [_ [_ [K _]]]]]]. injection Q as <- <-. congruence. }
      split.
      * intros H. injection H as <-. exists x, lac. repeat split; auto.
      * intros [x' [lac' [Q [_ [_ [_ ->]]]]]]. injection Q as <- <-. reflexivity.
    + intros e ->. reflexivity.
    + intros ->. reflexivity.
Qed.

(** *** Data input *)

(** The bytes of the input, when they can be read. *)
Definition input_bytes (w : dworld) (args : list string) (b : string) : Prop :=
  (args = [] /\ dw_stdin w = StdinPipe (inl b)) \/
  (exists f, args = [f] /\ dw_stat w f = StatFile /\ dw_open w f = None /\ dw_read w f = inl b).

Lemma path_or_stdin w args b : pathOrStdin w args = Ok b <-> input_bytes w args b.
Proof.
  unfold pathOrStdin, input_bytes. split.
  - destruct args as [|f [|? ?]]; [|destruct (dw_stat w f) eqn:E1|]; try discriminate.
    + destruct (dw_stdin w) as [| |[x|x]]; try discriminate. intros H. injection H as ->. auto.
    + destruct (dw_open w f) eqn:E2; [discriminate|]. destruct (dw_read w f) eqn:E3; [|discriminate].
      intros H. injection H as ->. right. exists f. auto.
  - intros [[-> ->]|[f [-> [-> [-> ->]]]]]; reflexivity.
Qed.

(** The extensions a file may have for an explicit format. *)
Definition extension (format x : string) : Prop :=
  (format = "json" /\ (x = ".json" \/ x = ".ldjson")) \/
  (format = "yaml" /\ (x = ".yaml" \/ x = ".yml")).

(** [x] is the extension of [f]: what follows the last dot of the last element,
    dot included, or nothing. *)
Definition has_extension (f x : string) : Prop :=
  (exists a b, f = (a ++ "." ++ b)%string /\ x = ("." ++ b)%string /\
     forall c, In c (list_ascii_of_string b) -> c <> "."%char /\ c <> "/"%char) \/
  (x = "" /\ forall a b, f = (a ++ "." ++ b)%string -> In "/"%char (list_ascii_of_string b)).

Lemma sapp_nil_r (a : string) : (a ++ "")%string = a.
Proof. induction a as [|c a IH]; [reflexivity|]. cbn. rewrite IH. reflexivity. Qed.

Lemma las_app a b : list_ascii_of_string (a ++ b) = list_ascii_of_string a ++ list_ascii_of_string b.
Proof. induction a as [|c a IH]; [reflexivity|]. cbn. rewrite IH. reflexivity. Qed.

Lemma sapp_assoc (a b c : string) : ((a ++ b) ++ c)%string = (a ++ (b ++ c))%string.
Proof. induction a as [|x a IH]; [reflexivity|]. cbn. rewrite IH. reflexivity. Qed.

(** [ext_from s acc] where [acc] is the extension of the part before [s], of
    length that it reaches up to [s]. *)
Lemma ext_from_spec s : forall pre acc,
  (acc = "" /\ has_extension pre "" \/
   exists a b, pre = (a ++ "." ++ b)%string /\ acc = ("." ++ b ++ s)%string /\
     forall c, In c (list_ascii_of_string b) -> c <> "."%char /\ c <> "/"%char) ->
  has_extension (pre ++ s) (ext_from s acc).
Proof.
  induction s as [|c r IH]; intros pre acc H.
  - rewrite sapp_nil_r. cbn. destruct H as [[-> H]|[a [b [-> [-> H]]]]]; [exact H|].
    left. exists a, b. rewrite sapp_nil_r. auto.
  - replace (pre ++ String c r)%string with ((pre ++ String c "") ++ r)%string by (rewrite sapp_assoc; reflexivity).
    cbn [ext_from]. destruct (Ascii.eqb c ".") eqn:E1; [|destruct (Ascii.eqb c "/") eqn:E2].
    + apply Ascii.eqb_eq in E1. subst c. apply IH. right. exists pre, "". split; [reflexivity|].
      split; [reflexivity|]. intros c [].
    + apply Ascii.eqb_eq in E2. subst c. apply IH. left. split; [reflexivity|]. right. split; [reflexivity|].
      intros a b E. destruct b as [|y b].
      { exfalso. assert (Q : list_ascii_of_string pre ++ ["/"%char] = list_ascii_of_string a ++ ["."%char]).
        { change ["."%char] with (list_ascii_of_string "."). change ["/"%char] with (list_ascii_of_string "/").
          rewrite <- !las_app. f_equal. exact E. }
        apply app_inj_tail in Q as [_ Q]. discriminate. }
      assert (Q : list_ascii_of_string pre ++ ["/"%char] =
                  (list_ascii_of_string a ++ ["."%char]) ++ list_ascii_of_string (String y b)).
      { rewrite <- app_assoc. change ["/"%char] with (list_ascii_of_string "/").
        change (["."%char] ++ list_ascii_of_string (String y b)) with (list_ascii_of_string ("." ++ String y b)).
        rewrite <- !las_app. f_equal. exact E. }
      destruct (exists_last (l := list_ascii_of_string (String y b))) as [l' [z Z]]; [discriminate|].
      rewrite Z in *. rewrite app_assoc in Q. apply app_inj_tail in Q as [_ <-].
      apply in_or_app. right. left. reflexivity.
    + apply IH. destruct H as [[-> [[a [b [_ [K _]]]]|[_ H]]]|[a [b [-> [-> H]]]]].
      * discriminate.
      * left. split; [reflexivity|]. right. split; [reflexivity|]. intros a b E.
        destruct (exists_last (l := list_ascii_of_string ("." ++ b))) as [l' [z Z]]; [discriminate|].
        assert (Q : list_ascii_of_string pre ++ [c] = (list_ascii_of_string a ++ l') ++ [z]).
        { rewrite <- app_assoc, <- Z. change [c] with (list_ascii_of_string (String c "")).
          rewrite <- !las_app. f_equal. exact E. }
        apply app_inj_tail in Q as [Q ->]. cbn in Z. destruct l' as [|y l'].
        { cbn in Z. injection Z as Z _. rewrite <- Z, Ascii.eqb_refl in E1. discriminate. }
        cbn in Z. injection Z as <- Z. rewrite Z. apply in_or_app. left.
        rewrite <- (list_ascii_of_string_of_list_ascii l'). apply (H a (string_of_list_ascii l')).
        rewrite <- (string_of_list_ascii_of_string pre), Q.
        clear. induction a as [|x a IH]; [reflexivity|]. cbn. rewrite IH. reflexivity.
      * right. exists a, (b ++ String c "")%string. split; [rewrite !sapp_assoc; reflexivity|].
        split; [rewrite sapp_assoc; reflexivity|]. intros x I. rewrite las_app in I.
        apply in_app_or in I as [I|[<-|[]]]; [apply H; exact I|].
        split; intros ->; [rewrite Ascii.eqb_refl in E1|rewrite Ascii.eqb_refl in E2]; discriminate.
Qed.

Lemma ext_spec f : has_extension f (ext f).
Proof.
  unfold ext. change f with ("" ++ f)%string at 1. apply ext_from_spec. left. split; [reflexivity|].
  right. split; [reflexivity|]. intros [|? a] b E; discriminate.
Qed.

Lemma has_extension_unique f x y : has_extension f x -> has_extension f y -> x = y.
Proof.
  assert (K : forall a b a' b', (a ++ String "." b)%string = (a' ++ String "." b')%string ->
    (forall c, In c (list_ascii_of_string b) -> c <> "."%char /\ c <> "/"%char) ->
    (forall c, In c (list_ascii_of_string b') -> c <> "."%char /\ c <> "/"%char) -> b = b').
  { induction a as [|c a IH]; intros b [|c' a'] b' E H H'; cbn in E.
    - injection E as ->. reflexivity.
    - injection E as <- ->. exfalso. destruct (H "."%char) as [Q _]; [|congruence].
      rewrite las_app. apply in_or_app. right. left. reflexivity.
    - injection E as -> <-. exfalso. destruct (H' "."%char) as [Q _]; [|congruence].
      rewrite las_app. apply in_or_app. right. left. reflexivity.
    - injection E as <- E. eapply IH; eauto. }
  intros [[a [b [E [-> H]]]]|[-> H]] [[a' [b' [E' [-> H']]]]|[-> H']].
  - cbn. f_equal. eapply (K a b a' b'); auto. cbn in E, E'. congruence.
  - exfalso. destruct (H "/"%char (H' a b E)). congruence.
  - exfalso. destruct (H' "/"%char (H a' b' E')). congruence.
  - reflexivity.
Qed.
End Commands.

Section Input.
Context {V : Type}.
Variables jdec ydec : string -> V + err.

Definition lift {A} (format : string) (r : A + err) : outcome (string * A) :=
  match r with inl v => Ok (format, v) | inr e => Err e end.

(** The name of the format a file's extension stands for. *)
Definition kind_of (args : list string) (k : string) : Prop :=
  (exists f x, args = [f] /\ has_extension f x /\ extension k x) \/
  (k = "" /\ forall f x k', args = [f] -> has_extension f x -> ~ extension k' x).

Lemma data_input w format args b : input_bytes w args b ->
  let r := validateDataInput jdec ydec w (mkDc format "") args in
  (format = "" ->
     (forall v, jdec b = inl v -> r = Ok ("json", v)) /\
     (forall e v, jdec b = inr e -> ydec b = inl v -> r = Ok ("yaml", v)) /\
     (forall e e', jdec b = inr e -> ydec b = inr e' ->
        r = Err (new_err "unrecognized format of input data"))) /\
  (format = "json" -> forall k, kind_of args k ->
     r = (if String.eqb k "json" then lift "json" (jdec b)
          else Err (new_err ("JSON input format specified, but file extension is " ++ k)%string))) /\
  (format = "yaml" -> forall k, kind_of args k ->
     r = (if String.eqb k "yaml" then lift "yaml" (ydec b)
          else Err (new_err ("YAML input format specified, but file extension is " ++ k)%string))) /\
  (format <> "" -> format <> "json" -> format <> "yaml" ->
     r = Err (new_err ("unknown input format """ ++ format ++ """ requested")%string)).
Proof.
  intros I r. apply path_or_stdin in I. unfold r, validateDataInput. rewrite I. cbn [bind dc_inbytes dc_format].
  set (e := match args with [f] => _ | _ => "" end).
  assert (IB : (if Nat.ltb 0 (String.length b) && Nat.eqb (String.length "") 0 then b else "") = b)
    by (destruct b; reflexivity).
  rewrite IB.
  assert (K : forall k, kind_of args k -> e = k).
  { intros k [[f [x [-> [Hx Hk]]]]|[-> H]]; unfold e.
    - rewrite <- (has_extension_unique f x _ Hx (ext_spec f)).
      destruct Hk as [[-> [->| ->]]|[-> [->| ->]]]; reflexivity.
    - destruct args as [|f [|? ?]]; [reflexivity| |reflexivity].
      assert (N : forall k', ~ extension k' (ext f)) by (intros k'; apply (H f); [reflexivity|apply ext_spec]).
      destruct (String.eqb_spec (ext f) ".json") as [E|E1]; [exfalso; apply (N "json"); left; auto|].
      destruct (String.eqb_spec (ext f) ".ldjson") as [E|E2]; [exfalso; apply (N "json"); left; auto|].
      destruct (String.eqb_spec (ext f) ".yaml") as [E|E3]; [exfalso; apply (N "yaml"); right; auto|].
      destruct (String.eqb_spec (ext f) ".yml") as [E|E4]; [exfalso; apply (N "yaml"); right; auto|].
      reflexivity. }
  split; [|split; [|split]].
  - intros ->. cbn [String.eqb]. split; [|split].
    + intros v ->. reflexivity.
    + intros x v -> ->. reflexivity.
    + intros x x' -> ->. reflexivity.
  - intros -> k Hk. rewrite (K k Hk). cbn. destruct (String.eqb k "json"); [|reflexivity].
    cbn. destruct (jdec b); reflexivity.
  - intros -> k Hk. rewrite (K k Hk). cbn. destruct (String.eqb k "yaml"); [|reflexivity].
    cbn. destruct (ydec b); reflexivity.
  - intros N1 N2 N3. apply String.eqb_neq in N1, N2, N3. rewrite N1, N2, N3. reflexivity.
Qed.

Lemma data_unreadable w format inb args : (forall b, ~ input_bytes w args b) ->
  forall x, validateDataInput jdec ydec w (mkDc format inb) args <> Ok x.
Proof.
  intros H x. unfold validateDataInput. destruct (pathOrStdin w args) as [b|?| |] eqn:E; try discriminate.
  exfalso. apply (H b). apply path_or_stdin. exact E.
Qed.

(** What the user is told when the input cannot be read. *)
Lemma data_refused w format inb :
  (forall f g l, validateDataInput jdec ydec w (mkDc format inb) (f :: g :: l) =
     Err (new_err "too many args: either provide path to input or pass input on stdin")) /\
  (dw_stdin w = StdinNoPipe -> validateDataInput jdec ydec w (mkDc format inb) [] =
     Err (new_err "no path provided and nothing on stdin")) /\
  (forall e, dw_stdin w = StdinPipe (inr e) -> validateDataInput jdec ydec w (mkDc format inb) [] =
     Err (new_err ("error reading from stdin: " ++ e)%string)) /\
  (dw_stdin w = StdinStatErr <-> validateDataInput jdec ydec w (mkDc format inb) [] = Panic) /\
  (forall f, validateDataInput jdec ydec w (mkDc format inb) [f] <> Panic) /\
  (forall f e, dw_stat w f = StatErr e -> validateDataInput jdec ydec w (mkDc format inb) [f] =
     Err (new_err ("failed to stat path """ ++ f ++ """: " ++ e)%string)) /\
  (forall f, dw_stat w f = StatDir -> validateDataInput jdec ydec w (mkDc format inb) [f] =
     Err (new_err (f ++ " is a directory")%string)) /\
  (forall f e, dw_stat w f = StatFile -> dw_open w f = Some e ->
     validateDataInput jdec ydec w (mkDc format inb) [f] =
     Err (new_err ("could not open provided path: " ++ e)%string)) /\
  (forall f e, dw_stat w f = StatFile -> dw_open w f = None -> dw_read w f = inr e ->
     validateDataInput jdec ydec w (mkDc format inb) [f] =
     Err (new_err ("error reading from input file """ ++ f ++ """: " ++ e)%string)).
Proof.
  unfold validateDataInput, pathOrStdin.
  repeat split; intros;
    repeat match goal with H : _ = _ |- _ => rewrite H; clear H end; try reflexivity.
  - revert H. destruct (dw_stdin w) as [| |[b|e]]; cbn [bind]; try discriminate; auto.
    repeat match goal with |- context [if ?c then _ else _] => destruct c end;
      repeat match goal with |- context [match ?c with inl _ => _ | inr _ => _ end] => destruct c end;
      discriminate.
  - destruct (dw_stat w f); cbn [bind]; try discriminate.
    destruct (dw_open w f); cbn [bind]; try discriminate.
    destruct (dw_read w f) as [b|e]; cbn [bind]; try discriminate.
    repeat match goal with |- context [if ?c then _ else _] => destruct c end;
      repeat match goal with |- context [match ?c with inl _ => _ | inr _ => _ end] => destruct c end;
      discriminate.
Qed.

(** With an explicit format, input from stdin is always refused. *)
Lemma stdin_refused w format b : dw_stdin w = StdinPipe (inl b) -> format <> "" ->
  exists e, validateDataInput jdec ydec w (mkDc format "") [] = Err e.
Proof.
  intros S N. assert (I : input_bytes w [] b) by (left; auto).
  destruct (data_input w format [] b I) as [_ [Hj [Hy Hu]]].
  assert (Kn : kind_of [] "") by (right; split; [reflexivity|]; intros f x k' Q; discriminate).
  destruct (string_dec format "json") as [E|Nj].
  { rewrite (Hj E "" Kn). cbn. eauto. }
  destruct (string_dec format "yaml") as [E|Ny].
  { rewrite (Hy E "" Kn). cbn. eauto. }
  rewrite (Hu N Nj Ny). eauto.
Qed.
End Input.

(** *** An example process *)

(** A directory [/d] without a module, loading one package with the lineage of
    the other examples: versions 0.0, 0.1, 1.0 and 2.0. *)
Definition ex_fs : fsys := mkFs (fun _ => StatDir) (fun _ => ReadNotExist).
Definition ex_load (l : tv) : string -> outcome (dynamicLoader tv) :=
  dynLoad toy false TLinDef (fun _ => None) false ex_fs (fun _ => inr "")
    (fun _ => [mkBinst None "p" (fun p => if String.eqb p "" then Some (Atom l) else None)])
    "d" ["d"] "".
Definition ex_world (b : string) : dworld :=
  mkWorld (StdinPipe (inl b)) (fun _ => StatErr "") (fun _ => None) (fun _ => inr "").
(** A codec that reads one character. *)
Definition ex_json (b : string) : tv + err :=
  match b with
  | String c EmptyString => inl (TDat (N_of_ascii c - 48))
  | _ => inr (new_err "invalid JSON")
  end.
Definition ex_yaml (b : string) : tv + err :=
  match b with
  | String "-"%char (String c EmptyString) => inl (TDat (N_of_ascii c - 48))
  | _ => inr (new_err "invalid YAML")
  end.
Definition ex_data (l : tv) (c : command) (f : flags) (b : string) : process tv :=
  thema_data toy ex_json ex_yaml (fun _ _ _ => Panic) (fun i => i) (fun i => i) (fun _ => true)
    (ex_load l) (ex_world b) 10 c f [].

Definition ex_d : dynamicLoader tv :=
  match ex_load (tlin ss4 []) "" with Ok d => d | _ => mkDl (mkLin 0 "" (TDat 0) (TDat 0) [] [] [] [])
    (mkSchema (mkLin 0 "" (TDat 0) (TDat 0) [] [] [] []) 0 (mkSch (0, 0)%N (TDat 0) (TDat 0))) end.

Lemma ex_d_ok : ex_load (tlin ss4 []) "" = Ok ex_d.
Proof. vm_compute. reflexivity. Qed.

Lemma ex_d_bound : bound toy (dl_lin ex_d).
Proof. exact (proj1 (dyn_load _ _ _ _ _ _ _ _ _ _ _ _ _ ex_d_ok)). Qed.

Lemma ex_d_sorted : StronglySorted vlt (map s_v (all_schemas (dl_lin ex_d))).
Proof.
  assert (E : map s_v (all_schemas (dl_lin ex_d)) = [(0, 0); (0, 1); (1, 0); (2, 0)]%N) by (vm_compute; reflexivity).
  rewrite E. solve_sorted.
Qed.

Lemma ex_schemas s : In s (all_schemas (dl_lin ex_d)) ->
  exists k, k < 4 /\ nth_error (all_schemas (dl_lin ex_d)) k = Some s.
Proof.
  intros H. apply In_nth_error in H as [k H]. exists k. split; [|exact H].
  assert (L : length (all_schemas (dl_lin ex_d)) = 4) by (vm_compute; reflexivity).
  rewrite <- L. apply nth_error_Some. congruence.
Qed.

Lemma ex_rejected : rejected toy (dl_lin ex_d) (TDat 9).
Proof.
  intros s H. apply ex_schemas in H as [k [L H]].
  destruct k as [|[|[|[|k]]]]; try lia; vm_compute in H; injection H as <-; eexists; vm_compute; reflexivity.
Qed.

Lemma ex_usable n : In n [1; 3; 9]%N -> usable toy (dl_lin ex_d) (TDat n) 4.
Proof.
  intros In. split; [exact ex_d_bound|]. split; [exact ex_d_sorted|]. split; [|vm_compute; lia].
  intros s H. apply ex_schemas in H as [k [L H]].
  destruct k as [|[|[|[|k]]]]; try lia; vm_compute in H; injection H as <-;
    destruct In as [<-|[<-|[<-|[]]]]; vm_compute; discriminate.
Qed.

Lemma any_silent :
  exists (V : Type) (ev : evaluator V) jd yd rm hyd dehyd concrete
         (ld : string -> outcome (dynamicLoader V)) d w fuel fmt data t,
    ld "" = Ok d /\ usable ev (dl_lin d) data fuel /\
    validateDataInput jd yd w (mkDc "" "") [] = Ok (fmt, data) /\
    rejected ev (dl_lin d) data /\ t <> "" /\
    thema_data ev jd yd rm hyd dehyd concrete ld w fuel CValidateAny (mkFlags "" "" false) [] =
      Exited 1 ONothing ("Error: " ++ t ++ newline)%string.
Proof.
  exists tv, toy, ex_json, ex_yaml, (fun _ _ _ => Panic), (fun i => i), (fun i => i), (fun _ => true),
    (ex_load (tlin ss4 [])), ex_d, (ex_world "9"), 4, "json", (TDat 9).
  assert (E : exists t, validate toy (dl_sch ex_d) (TDat 9) = Err t /\ e_text t <> "").
  { vm_compute. eexists. split; [reflexivity|]. discriminate. }
  destruct E as [t [E N]]. exists (e_text t).
  split; [exact ex_d_ok|]. split; [exact (ex_usable 9 ltac:(cbn; auto))|]. split; [reflexivity|].
  split; [exact ex_rejected|]. split; [exact N|].
  unfold thema_data, exec. cbn [f_version f_format]. rewrite ex_d_ok. cbn [bind].
  replace (validateDataInput ex_json ex_yaml (ex_world "9") (mkDc "" "") []) with
    (@Ok (string * tv) ("json", TDat 9)) by reflexivity.
  cbn [bind run snd].
  destruct (validate_any_cmd toy ex_d (TDat 9) 4 (ex_usable 9 ltac:(cbn; auto))) as [_ [_ H]].
  { destruct (dyn_load _ _ _ _ _ _ _ _ _ _ _ _ _ ex_d_ok) as [_ [_ [I _]]]. exact I. }
  rewrite (H t E ex_rejected). reflexivity.
Qed.

Lemma fill_all :
  exists (V : Type) (ev : evaluator V) jd yd rm hyd dehyd concrete
         (ld : string -> outcome (dynamicLoader V)) d w fuel fmt data s i t,
    ld "" = Ok d /\ usable ev (dl_lin d) data fuel /\
    validateDataInput jd yd w (mkDc "" "") [] = Ok (fmt, data) /\
    In s (all_schemas (dl_lin d)) /\ validate ev s data = Ok i /\
    thema_data ev jd yd rm hyd dehyd concrete ld w fuel CHydrate (mkFlags "" "" false) [] =
      Exited 1 ONothing t /\
    thema_data ev jd yd rm hyd dehyd concrete ld w fuel CDehydrate (mkFlags "" "" false) [] =
      Exited 1 ONothing t.
Proof.
  exists tv, toy, ex_json, ex_yaml, (fun _ _ _ => Panic), (fun i => i), (fun i => i), (fun _ => true),
    (ex_load (tlin ss4 [])), ex_d, (ex_world "3"), 4, "json", (TDat 3).
  destruct (nth_error (all_schemas (dl_lin ex_d)) 2) as [s|] eqn:E; [|vm_compute in E; discriminate].
  exists s. apply nth_error_In in E as I. vm_compute in E. injection E as <-. do 2 eexists.
  split; [exact ex_d_ok|]. split; [exact (ex_usable 3 ltac:(cbn; auto))|]. split; [reflexivity|]. split; [exact I|].
  split; [vm_compute; reflexivity|]. split; vm_compute; reflexivity.
Qed.

Lemma not_quiet :
  exists (V : Type) (ev : evaluator V) jd yd rm hyd dehyd concrete
         (ld : string -> outcome (dynamicLoader V)) w fuel,
    (exists t, t <> "" /\
       thema_data ev jd yd rm hyd dehyd concrete ld w fuel CValidate (mkFlags "1.0" "" true) [] =
       Exited 1 ONothing t) /\
    exists o, o <> ONothing /\
       thema_data ev jd yd rm hyd dehyd concrete ld w fuel CValidateAny (mkFlags "" "" true) [] =
       Exited 0 o "".
Proof.
  exists tv, toy, ex_json, ex_yaml, (fun _ _ _ => Panic), (fun i => i), (fun i => i), (fun _ => true),
    (ex_load (tlin ss4 [])), (ex_world "1"), 4.
  split; eexists; (split; [|vm_compute; reflexivity]); discriminate.
Qed.

Lemma quiet_ignored (V : Type) (ev : evaluator V) jd yd rm hyd dehyd concrete
    (ld : string -> outcome (dynamicLoader V)) w fuel c ver fmt args q q' :
  thema_data ev jd yd rm hyd dehyd concrete ld w fuel c (mkFlags ver fmt q) args =
  thema_data ev jd yd rm hyd dehyd concrete ld w fuel c (mkFlags ver fmt q') args.
Proof. reflexivity. Qed.

(** The process in terms of loading, reading and running. *)
Lemma process_steps (V : Type) (ev : evaluator V) jd yd rm hyd dehyd concrete
    (ld : string -> outcome (dynamicLoader V)) w fuel c ver fmt q args d x data :
  ld ver = Ok d -> (c = CTranslate -> ver <> "") ->
  validateDataInput jd yd w (mkDc fmt "") args = Ok (x, data) ->
  thema_data ev jd yd rm hyd dehyd concrete ld w fuel c (mkFlags ver fmt q) args =
  match run ev rm hyd dehyd concrete c fuel d data with
  | Ok o => Exited 0 o ""
  | Err e => Exited 1 ONothing ("Error: " ++ e_text e ++ newline)%string
  | Panic => Crashed
  | OutOfFuel => Stuck
  end.
Proof.
  intros L T D. unfold thema_data, exec. cbn [f_version f_format]. rewrite L. cbn [bind].
  assert (Q : (match c with
       | CTranslate =>
           if String.eqb ver "" then Err (new_err "must specify an explicit schema version")
           else Ok tt
       | _ => Ok tt
       end) = @Ok unit tt).
  { destruct c; try reflexivity. specialize (T eq_refl). apply String.eqb_neq in T. rewrite T. reflexivity. }
  rewrite Q. cbn [bind]. rewrite D. reflexivity.
Qed.

Lemma prefix_iff p s : String.prefix p s = true <-> exists t, s = (p ++ t)%string.
Proof.
  revert s. induction p as [|c p IH]; intros s.
  - split; [exists s; reflexivity|]. destruct s; reflexivity.
  - destruct s as [|d s]; cbn [String.prefix].
    + split; [discriminate|]. intros [t H]. discriminate.
    + destruct (Ascii.ascii_dec c d) as [->|N].
      * rewrite IH. split; intros [t H]; exists t; [rewrite H; reflexivity|].
        cbn in H. injection H as H. exact H.
      * split; [discriminate|]. intros [t H]. cbn in H. injection H as H _. congruence.
Qed.

Lemma contains_iff s p : contains s p = true <-> exists a b, s = (a ++ p ++ b)%string.
Proof.
  induction s as [|c s IH]; cbn [contains]; rewrite Bool.orb_true_iff, prefix_iff.
  - split.
    + intros [[t H]|H]; [|discriminate]. exists "", t. exact H.
    + intros [a [b H]]. left. destruct a; [exists b; exact H|discriminate].
  - rewrite IH. split.
    + intros [[t H]|[a [b H]]]; [exists "", t; exact H|].
      exists (String c a), b. rewrite H. reflexivity.
    + intros [a [b H]]. destruct a as [|d a]; [left; exists b; exact H|].
      right. exists a, b. cbn in H. injection H as _ H. exact H.
Qed.

(** The lineage cannot be loaded. *)
Lemma process_no_lineage (V : Type) (ev : evaluator V) jd yd rm hyd dehyd concrete
    (ld : string -> outcome (dynamicLoader V)) w fuel c f args e :
  ld (f_version f) = Err e ->
  ((exists a b, err_is e ErrValueNotALineage = true /\ e_text e = (a ++ "instance root" ++ b)%string) ->
   thema_data ev jd yd rm hyd dehyd concrete ld w fuel c f args =
   Exited 1 ONothing ("Error: " ++ (e_text e ++ newline ++ "Did you forget to pass a CUE path with -p?") ++ newline)%string) /\
  (~ (exists a b, err_is e ErrValueNotALineage = true /\ e_text e = (a ++ "instance root" ++ b)%string) ->
   thema_data ev jd yd rm hyd dehyd concrete ld w fuel c f args =
   Exited 1 ONothing ("Error: " ++ e_text e ++ newline)%string).
Proof.
  intros L. unfold thema_data, exec. rewrite L.
  destruct (err_is e ErrValueNotALineage) eqn:I; cbn [andb].
  - destruct (contains (e_text e) "instance root") eqn:C.
    + split; [intros _; reflexivity|]. intros N. exfalso. apply N.
      apply contains_iff in C. destruct C as [a [b C]]. exists a, b. auto.
    + split; [|intros _; reflexivity]. intros [a [b [_ H]]].
      assert (X : contains (e_text e) "instance root" = true) by (apply contains_iff; eauto).
      rewrite C in X. discriminate.
  - split; [|intros _; reflexivity]. intros [a [b [H _]]]. discriminate.
Qed.

Lemma process_no_version (V : Type) (ev : evaluator V) jd yd rm hyd dehyd concrete
    (ld : string -> outcome (dynamicLoader V)) w fuel fmt q args d :
  ld "" = Ok d ->
  thema_data ev jd yd rm hyd dehyd concrete ld w fuel CTranslate (mkFlags "" fmt q) args =
  Exited 1 ONothing ("Error: must specify an explicit schema version" ++ newline)%string.
Proof. intros L. unfold thema_data, exec. cbn [f_version]. rewrite L. reflexivity. Qed.

Lemma process_fill (V : Type) (ev : evaluator V) jd yd rm hyd dehyd concrete
    (ld : string -> outcome (dynamicLoader V)) w fuel ver fmt q args d x data i :
  ld ver = Ok d -> validateDataInput jd yd w (mkDc fmt "") args = Ok (x, data) ->
  validate ev (dl_sch d) data = Ok i ->
  (ev_json_ok ev (i_raw (hyd i)) = true ->
   thema_data ev jd yd rm hyd dehyd concrete ld w fuel CHydrate (mkFlags ver fmt q) args =
   Exited 0 (OJson (i_raw (hyd i))) "") /\
  (ev_json_ok ev (i_raw (dehyd i)) = true ->
   thema_data ev jd yd rm hyd dehyd concrete ld w fuel CDehydrate (mkFlags ver fmt q) args =
   Exited 0 (OJson (i_raw (dehyd i))) "").
Proof.
  intros L D E. split; intros J;
    (rewrite (process_steps V ev jd yd rm hyd dehyd concrete ld w fuel _ ver fmt q args d x data L);
      [cbn [run]; unfold runFill; rewrite E; cbv zeta; rewrite J; reflexivity|discriminate|exact D]).
Qed.

Lemma one_schema (V : Type) (ev : evaluator V) hyd d data :
  match validate ev (dl_sch d) data with
  | Ok i =>
      runValidate ev d data = Ok ONothing /\
      (ev_json_ok ev (i_raw (hyd i)) = true -> runFill ev hyd d data = Ok (OJson (i_raw (hyd i)))) /\
      (ev_json_ok ev (i_raw (hyd i)) = false -> exists e, runFill ev hyd d data = Err e)
  | Err e => runValidate ev d data = Err e /\ runFill ev hyd d data = Err e
  | Panic => runValidate ev d data = Panic /\ runFill ev hyd d data = Panic
  | OutOfFuel => False
  end.
Proof.
  unfold runValidate, runFill. destruct (validate ev (dl_sch d) data) as [i|e| |] eqn:E; auto.
  - split; [reflexivity|]. split; intros ->; cbn; eauto.
  - exact (validate_no_fuel ev _ _ E).
Qed.

Lemma loaded_translate (V : Type) (ev : evaluator V) fv lindef path_err skip fs mo instances input abs cp verstr d :
  dynLoad ev fv lindef path_err skip fs mo instances input abs cp verstr = Ok d ->
  forall rm concrete data fuel, usable ev (dl_lin d) data fuel ->
  (rejected ev (dl_lin d) data ->
     runTranslate ev rm concrete fuel d data =
       Err (new_err "input data is not valid for any schema in lineage")) /\
  (forall s i, oldest ev (dl_lin d) data s i ->
     (forall o, runTranslate ev rm concrete fuel d data = Ok o <->
        exists x lac, translate ev rm fuel i (s_v (dl_sch d)) = Ok (x, lac) /\
          ev_exists ev (i_raw x) = true /\ ev_bottom ev (i_raw x) = false /\ concrete (i_raw x) = true /\
          o = OTranslation (vstring (s_v s)) (vstring (s_v (dl_sch d))) (i_raw x) lac) /\
     (forall e, translate ev rm fuel i (s_v (dl_sch d)) = Err e ->
        runTranslate ev rm concrete fuel d data = Err e) /\
     (translate ev rm fuel i (s_v (dl_sch d)) = Panic ->
        runTranslate ev rm concrete fuel d data = Panic)).
Proof.
  intros L rm concrete data fuel U. apply dyn_load in L as [_ [M [I _]]].
  apply translate_cmd; assumption.
Qed.

Lemma explicit_format (V : Type) (jdec ydec : string -> V + err) w f x b :
  dw_stat w f = StatFile -> dw_open w f = None -> dw_read w f = inl b -> has_extension f x ->
  (x = ".json" \/ x = ".ldjson" ->
     validateDataInput jdec ydec w (mkDc "json" "") [f] = lift "json" (jdec b)) /\
  (x = ".yaml" \/ x = ".yml" ->
     validateDataInput jdec ydec w (mkDc "yaml" "") [f] = lift "yaml" (ydec b)).
Proof.
  intros S O R X. assert (I : input_bytes w [f] b) by (right; exists f; auto).
  split; intros K.
  - destruct (data_input jdec ydec w "json" [f] b I) as [_ [H _]].
    rewrite (H eq_refl "json"); [reflexivity|]. left. exists f, x. split; [reflexivity|]. split; [exact X|]. left. auto.
  - destruct (data_input jdec ydec w "yaml" [f] b I) as [_ [_ [H _]]].
    rewrite (H eq_refl "yaml"); [reflexivity|]. left. exists f, x. split; [reflexivity|]. split; [exact X|]. right. auto.
Qed.

Lemma explicit_stdin :
  exists (V : Type) (jdec ydec : string -> V + err) w b v e,
    dw_stdin w = StdinPipe (inl b) /\ jdec b = inl v /\
    validateDataInput jdec ydec w (mkDc "" "") [] = Ok ("json", v) /\
    validateDataInput jdec ydec w (mkDc "json" "") [] = Err e.
Proof.
  exists tv, ex_json, ex_yaml, (ex_world "7"), "7", (TDat 7).
  eexists. repeat split; vm_compute; reflexivity.
Qed.
