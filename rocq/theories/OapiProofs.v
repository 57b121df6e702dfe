(** Proofs about OpenAPI generation. *)
From Verif Require Import Prelude Version Strings Paths Util UtilProofs Oapi.
Local Open Scope string_scope.
Local Open Scope list_scope.

(** A field of that name, regular or optional, is declared. *)
Definition declares (v : shape) (l : string) : Prop :=
  match v with Leaf => False | Struct _ fs => exists w, field fs l = Some w end.
Definition closed_struct (v : shape) : Prop := match v with Struct true _ => True | _ => False end.
Definition open_struct (v : shape) : Prop := match v with Struct false _ => True | _ => False end.

Lemma allows_closed v s : closed_struct v -> (allows v s = true <-> declares v (sel_label s)).
Proof.
  destruct v as [|[] fs]; try contradiction. intros _. cbn. destruct (field fs (sel_label s)) eqn:F; split; intro H; eauto; try discriminate.
  destruct H as [w H]. congruence.
Qed.
Lemma allows_open v s : open_struct v -> allows v s = true.
Proof. destruct v as [|[] fs]; try contradiction. reflexivity. Qed.

(** The first selector of a path that a value does not allow. *)
Definition first_bad (v : shape) (p : cpath) (i : nat) : Prop :=
  (exists s, nth_error p i = Some s /\ allows v s = false) /\
  (forall j s, j < i -> nth_error p j = Some s -> allows v s = true).

Lemma pathAllowed_from_spec v whole rest : forall k,
  match pathAllowed_from v k whole rest with
  | None => forall s, In s rest -> allows v s = true
  | Some e => exists i, first_bad v rest i /\ e = not_present whole (k + i)
  end.
Proof.
  induction rest as [|s r IH]; intro k; cbn [pathAllowed_from]; [contradiction|].
  destruct (allows v s) eqn:A; cbn [negb].
  - specialize (IH (S k)). destruct (pathAllowed_from v (S k) whole r) as [e|].
    + destruct IH as [i [[B1 B2] E]]. exists (S i). split.
      * split; [exact B1|]. intros [|j] s0 L N; cbn in N; [congruence|]. apply (B2 j); [lia|exact N].
      * rewrite E. f_equal. lia.
    + intros s0 [<-|I]; auto.
  - exists 0. split; [|rewrite Nat.add_0_r; reflexivity]. split; [exists s; auto|]. intros; lia.
Qed.

Lemma pathAllowed_spec v p :
  match pathAllowed v p with
  | None => forall s, In s p -> allows v s = true
  | Some e => exists i, first_bad v p i /\ e = not_present p i
  end.
Proof. exact (pathAllowed_from_spec v p p 0). Qed.

Lemma sapp_nil_r' s : (s ++ "")%string = s.
Proof. induction s; cbn; congruence. Qed.

(** The value at the end of a path: every selector names a declared field, and
    optional fields are named with their mark. *)
Inductive reaches : shape -> cpath -> shape -> Prop :=
| R_here v : reaches v [] v
| R_field closed before after s opt w p u :
    ~ In (sel_label s) (map fst before) -> (opt = true -> sel_opt s = true) -> reaches w p u ->
    reaches (Struct closed (before ++ (sel_label s, (opt, w)) :: after)) (s :: p) u.

Lemma field_split fs l x :
  field fs l = Some x <-> exists before after, fs = before ++ (l, x) :: after /\ ~ In l (map fst before).
Proof.
  induction fs as [|[k v] r IH]; cbn [field].
  - split; [discriminate|]. intros [b [a [E _]]]. destruct b; discriminate.
  - destruct (String.eqb_spec k l) as [->|N].
    + split.
      * intro H. injection H as ->. exists [], r. split; [reflexivity|intros []].
      * intros [b [a [E I]]]. destruct b as [|[k' v'] b]; cbn in E; injection E as E1 E2.
        -- subst. reflexivity.
        -- subst. exfalso. apply I. left. reflexivity.
    + rewrite IH. split; intros [b [a [E I]]].
      * exists ((k, v) :: b), a. subst. split; [reflexivity|]. intros [H|H]; [exact (N H)|exact (I H)].
      * destruct b as [|[k' v'] b]; cbn in E; injection E as E1 E2.
        -- subst. contradiction.
        -- exists b, a. subst. split; [reflexivity|]. intro H. apply I. right. exact H.
Qed.

Lemma lookupPath_reaches p : forall v u, lookupPath v p = Some u <-> reaches v p u.
Proof.
  induction p as [|s r IH]; intros v u; cbn [lookupPath].
  - split; intro H; [injection H as ->; constructor|inversion H; reflexivity].
  - destruct v as [|closed fs].
    + split; intro H; [discriminate|inversion H].
    + destruct (field fs (sel_label s)) as [[opt w]|] eqn:F.
      * pose proof F as F'. apply field_split in F' as [b [a [-> I]]].
        destruct (opt && negb (sel_opt s)) eqn:O.
        -- split; [discriminate|]. intro H. exfalso. inversion H; subst.
           match goal with E : _ ++ _ = _ ++ _ |- _ => rewrite <- E in F end.
           assert (field (before ++ (sel_label s, (opt0, w0)) :: after) (sel_label s) = Some (opt0, w0)) as G
             by (apply field_split; eauto).
           rewrite G in F. injection F as <- <-. apply andb_true_iff in O as [O1 O2].
           subst. match goal with X : true = true -> _ |- _ => rewrite (X eq_refl) in O2 end. discriminate.
        -- rewrite IH. split; intro H.
           ++ constructor; auto. intros ->. destruct (sel_opt s); [reflexivity|discriminate].
           ++ inversion H; subst.
              match goal with E : _ ++ _ = _ ++ _ |- _ => rewrite <- E in F end.
              assert (field (before ++ (sel_label s, (opt0, w0)) :: after) (sel_label s) = Some (opt0, w0)) as G
                by (apply field_split; eauto).
              rewrite G in F. injection F as <- <-. assumption.
      * split; [discriminate|]. intro H. exfalso. inversion H; subst.
        assert (field (before ++ (sel_label s, (opt, w)) :: after) (sel_label s) = Some (opt, w)) as G
          by (apply field_split; eauto).
        rewrite G in F. discriminate.
Qed.

(** The text that names the first [n] selectors. *)
Definition shown (p : cpath) (n : nat) : string :=
  String.concat "." (map (fun s => (sel_label s ++ if sel_opt s then "?" else "")%string) (firstn n p)).

Section Gen.
Context {decl : Type}.
Variable generate : string -> option shape -> name_func -> string * string -> outcome (list decl).
Notation gen := (generateSchema generate).

(** What the encoder returned for the single component asked for. *)
Definition encoded (sch : schinfo) (c : config) (v : option shape) : outcome (list decl) :=
  generate (rootName c sch) v
    (fun val path => nfSingle (c_nameFunc c) (s_bpath sch) val path
                       [mkSel ("#" ++ rootName c sch)%string false] (rootName c sch))
    (trim (rootName c sch), vstring (s_version sch)).

(** A plain schema (no group, no split) without a subpath, or with one. *)
Theorem single_root sch c :
  c_group c = false -> c_split c = false -> c_subpath c = [] ->
  fst (gen sch c) = (ds <- encoded sch c (Some (s_def sch)) ;;
                     Ok (mkDoc (rootName c sch) (vstring (s_version sch)) ds)).
Proof.
  intros G S P. unfold generateSchema. rewrite G, S. cbn [genSingle]. unfold genSchema. rewrite P.
  unfold encoded, newHeader. destruct (generate _ _ _ _); cbn; try reflexivity.
  rewrite app_nil_r. reflexivity.
Qed.

Theorem single_subpath sch c :
  c_group c = false -> c_split c = false -> c_subpath c <> [] ->
  match pathAllowed (s_def sch) (c_subpath c), pathAllowed (s_join sch) (c_subpath c) with
  | Some e, _ => fst (gen sch c) = Err e
  | None, Some e => fst (gen sch c) = Err e
  | None, None =>
      fst (gen sch c) = (ds <- encoded sch c (lookupPath (s_def sch) (c_subpath c)) ;;
                         Ok (mkDoc (rootName c sch) (vstring (s_version sch)) ds))
  end.
Proof.
  intros G S P. unfold generateSchema. rewrite G, S. cbn [genSingle]. unfold genSchema.
  destruct (c_subpath c) as [|s p] eqn:Q; [contradiction|]. rewrite <- Q.
  destruct (pathAllowed (s_def sch) (c_subpath c)); [reflexivity|].
  destruct (pathAllowed (s_join sch) (c_subpath c)); [reflexivity|].
  unfold encoded, newHeader. destruct (generate _ _ _ _); cbn; try reflexivity.
  rewrite app_nil_r. reflexivity.
Qed.

(** A single selector, on a closed schema whose join schema is open. *)
Theorem subpath_one sch c s :
  c_group c = false -> c_split c = false -> c_subpath c = [s] ->
  closed_struct (s_def sch) -> open_struct (s_join sch) ->
  (~ declares (s_def sch) (sel_label s) ->
     fst (gen sch c) = Err (new_err ("subpath """ ++ sel_string s ++ """ not present in schema")%string)) /\
  (declares (s_def sch) (sel_label s) ->
     fst (gen sch c) = (ds <- encoded sch c (lookupPath (s_def sch) [s]) ;;
                        Ok (mkDoc (rootName c sch) (vstring (s_version sch)) ds))).
Proof.
  intros G S P C O. pose proof (single_subpath sch c G S) as H. rewrite P in H. specialize (H ltac:(discriminate)).
  assert (J : pathAllowed (s_join sch) [s] = None).
  { unfold pathAllowed. cbn. rewrite (allows_open _ s O). reflexivity. }
  rewrite J in H. split; intro D.
  - assert (E : pathAllowed (s_def sch) [s] = Some (not_present [s] 0)).
    { unfold pathAllowed. cbn. destruct (allows (s_def sch) s) eqn:A; [|reflexivity].
      apply (allows_closed _ _ C) in A. contradiction. }
    rewrite E in H. exact H.
  - assert (E : pathAllowed (s_def sch) [s] = None).
    { unfold pathAllowed. cbn. apply (allows_closed _ _ C) in D. rewrite D. reflexivity. }
    rewrite E in H. exact H.
Qed.

(** Any depth: refused exactly if some selector is not allowed at the root. *)
Theorem subpath_any sch c :
  c_group c = false -> c_split c = false -> c_subpath c <> [] ->
  (forall i, first_bad (s_def sch) (c_subpath c) i ->
     fst (gen sch c) = Err (new_err ("subpath """ ++ shown (c_subpath c) (S i) ++ """ not present in schema")%string)) /\
  (forall i, (forall s, In s (c_subpath c) -> allows (s_def sch) s = true) ->
     first_bad (s_join sch) (c_subpath c) i ->
     fst (gen sch c) = Err (new_err ("subpath """ ++ shown (c_subpath c) (S i) ++ """ not present in schema")%string)) /\
  ((forall s, In s (c_subpath c) -> allows (s_def sch) s = true /\ allows (s_join sch) s = true) ->
     fst (gen sch c) = (ds <- encoded sch c (lookupPath (s_def sch) (c_subpath c)) ;;
                        Ok (mkDoc (rootName c sch) (vstring (s_version sch)) ds))).
Proof.
  intros G S P. pose proof (single_subpath sch c G S P) as H.
  pose proof (pathAllowed_spec (s_def sch) (c_subpath c)) as D.
  pose proof (pathAllowed_spec (s_join sch) (c_subpath c)) as J.
  assert (U : forall v p i k, first_bad v p i -> first_bad v p k -> i = k).
  { intros v p i k [[s [N A]] B] [[t [M X]] Y].
    destruct (Nat.lt_trichotomy i k) as [L|[E|L]]; [|exact E|].
    - rewrite (Y _ _ L N) in A. discriminate.
    - rewrite (B _ _ L M) in X. discriminate. }
  split; [|split].
  - intros i B. destruct (pathAllowed (s_def sch) (c_subpath c)) as [e|].
    + destruct D as [k [B' ->]]. rewrite (U _ _ _ _ B B'). exact H.
    + exfalso. destruct B as [[s [N A]] _]. rewrite (D s) in A; [discriminate|]. apply (nth_error_In _ _ N).
  - intros i A B. destruct (pathAllowed (s_def sch) (c_subpath c)) as [e|].
    + exfalso. destruct D as [k [[[s [N A']] _] _]]. rewrite (A s) in A'; [discriminate|]. apply (nth_error_In _ _ N).
    + destruct (pathAllowed (s_join sch) (c_subpath c)) as [e|].
      * destruct J as [k [B' ->]]. rewrite (U _ _ _ _ B B'). exact H.
      * exfalso. destruct B as [[s [N A']] _]. rewrite (J s) in A'; [discriminate|]. apply (nth_error_In _ _ N).
  - intro A. destruct (pathAllowed (s_def sch) (c_subpath c)) as [e|].
    + exfalso. destruct D as [k [[[s [N A']] _] _]]. destruct (A s) as [A1 _]; [apply (nth_error_In _ _ N)|congruence].
    + destruct (pathAllowed (s_join sch) (c_subpath c)) as [e|]; [|exact H].
      exfalso. destruct J as [k [[[s [N A']] _] _]]. destruct (A s) as [_ A2]; [apply (nth_error_In _ _ N)|congruence].
Qed.

(** What is encoded for a subpath that is let through: the value it reaches. *)
Theorem subpath_value sch c :
  c_group c = false -> c_split c = false -> c_subpath c <> [] ->
  (forall s, In s (c_subpath c) -> allows (s_def sch) s = true /\ allows (s_join sch) s = true) ->
  (forall v, reaches (s_def sch) (c_subpath c) v ->
     fst (gen sch c) = (ds <- encoded sch c (Some v) ;;
                        Ok (mkDoc (rootName c sch) (vstring (s_version sch)) ds))) /\
  ((forall v, ~ reaches (s_def sch) (c_subpath c) v) ->
     fst (gen sch c) = (ds <- encoded sch c None ;;
                        Ok (mkDoc (rootName c sch) (vstring (s_version sch)) ds))).
Proof.
  intros G S P A. destruct (subpath_any sch c G S P) as [_ [_ H]]. specialize (H A). split.
  - intros v R. apply lookupPath_reaches in R. rewrite R in H. exact H.
  - intro N. destruct (lookupPath (s_def sch) (c_subpath c)) as [v|] eqn:L; [|exact H].
    apply lookupPath_reaches in L. destruct (N v L).
Qed.

(** *** Title and components *)
Theorem group_noop sch c rn sp spl :
  c_group c = true ->
  fst (gen sch (mkConfig true rn sp spl (c_nameFunc c) (c_info c))) = fst (gen sch c).
Proof. intro G. unfold generateSchema. rewrite G. cbn. destruct (s_def sch); reflexivity. Qed.

(** The components of one field of a grouped schema. *)
Definition group_field (sch : schinfo) (c : config) (f : string * (bool * shape)) : outcome (list decl) :=
  let name := trim (fst f ++ if fst (snd f) then "?" else "")%string in
  generate name (Some (snd (snd f)))
    (fun val path => nfSingle (c_nameFunc c) (s_bpath sch) val path [mkSel ("#" ++ name)%string false] name)
    (trim ("#" ++ name)%string, vstring (s_version sch)).

Lemma genGroup_ok sch c fs ds :
  genGroup generate (c_nameFunc c) sch fs = Ok ds <->
  exists parts, Forall2 (fun f p => group_field sch c f = Ok p) fs parts /\ ds = concat parts.
Proof.
  revert ds. induction fs as [|[l [opt v]] r IH]; intro ds; cbn [genGroup].
  - split.
    + intro H. injection H as <-. exists []. split; [constructor|reflexivity].
    + intros [parts [F ->]]. inversion F; subst. reflexivity.
  - assert (E : path_string [mkSel ("#" ++ trim (sel_string (mkSel l opt)))%string false] =
                ("#" ++ trim (sel_string (mkSel l opt)))%string).
    { unfold path_string. cbn [map]. unfold sel_string at 1. cbn [sel_label sel_opt String.concat].
      rewrite sapp_nil_r'. reflexivity. }
    change (group_field sch c (l, (opt, v))) with
      (generate (trim (sel_string (mkSel l opt))) (Some v)
         (fun val path => nfSingle (c_nameFunc c) (s_bpath sch) val path
            [mkSel ("#" ++ trim (sel_string (mkSel l opt)))%string false] (trim (sel_string (mkSel l opt))))
         (trim ("#" ++ trim (sel_string (mkSel l opt)))%string, vstring (s_version sch))) in *.
    unfold newHeader. rewrite E. split.
    + intro H. destruct (generate _ _ _ _) as [d| | |] eqn:GE; try discriminate.
      destruct (genGroup generate (c_nameFunc c) sch r) as [rest| | |] eqn:R; cbn [bind] in H; try discriminate.
      injection H as <-. destruct (proj1 (IH rest) eq_refl) as [parts [F ->]].
      exists (d :: parts). split; [constructor; assumption|reflexivity].
    + intros [parts [F ->]]. inversion F as [|? p ? ps Q QS]; subst.
      change (group_field sch c (l, (opt, v))) with
      (generate (trim (sel_string (mkSel l opt))) (Some v)
         (fun val path => nfSingle (c_nameFunc c) (s_bpath sch) val path
            [mkSel ("#" ++ trim (sel_string (mkSel l opt)))%string false] (trim (sel_string (mkSel l opt))))
         (trim ("#" ++ trim (sel_string (mkSel l opt)))%string, vstring (s_version sch))) in Q.
      rewrite Q. rewrite (proj2 (IH (concat ps))) by eauto. reflexivity.
Qed.

Theorem group_document sch c closed fs doc :
  c_group c = true -> s_def sch = Struct closed fs ->
  (fst (gen sch c) = Ok doc <->
   d_title doc = sanitizeLabelString (s_lineage sch) /\ d_version doc = vstring (s_version sch) /\
   exists parts, Forall2 (fun f p => group_field sch c f = Ok p) fs parts /\ d_schemas doc = concat parts).
Proof.
  intros G S. unfold generateSchema. rewrite G, S. cbn [fst].
  pose proof (genGroup_ok sch c fs) as H.
  destruct (genGroup generate (c_nameFunc c) sch fs) as [ds| | |] eqn:E; cbn [bind fst snd].
  - split.
    + intro X. injection X as <-. cbn. split; [reflexivity|]. split; [reflexivity|]. apply H. reflexivity.
    + intros [T [V P]]. apply H in P. injection P as P. destruct doc as [t v d]; cbn in *. subst. reflexivity.
  - split; [discriminate|]. intros [_ [_ P]]. apply H in P. discriminate.
  - split; [discriminate|]. intros [_ [_ P]]. apply H in P. discriminate.
  - split; [discriminate|]. intros [_ [_ P]]. apply H in P. discriminate.
Qed.

Lemma genSchema_root onf c sch v : c_subpath c = [] ->
  genSchema generate onf c sch v =
  let nf := fun val path => nfSingle onf (s_bpath sch) val path
              [mkSel ("#" ++ rootName c sch)%string false] (rootName c sch) in
  let hd := (trim (rootName c sch), vstring (s_version sch)) in
  (ds <- generate (rootName c sch) (Some v) nf hd ;; Ok (ds, rootName c sch), with_gen c nf hd).
Proof. intro P. unfold genSchema. rewrite P. reflexivity. Qed.

Lemma rootName_with c f h sch : rootName (with_gen c f h) sch = rootName c sch.
Proof. reflexivity. Qed.

Theorem split_document sch c doc :
  c_group c = false -> c_split c = true -> c_subpath c = [] ->
  (fst (gen sch c) = Ok doc <->
   d_title doc = rootName c sch /\ d_version doc = vstring (s_version sch) /\
   exists a b, encoded sch c (Some (s_raw sch)) = Ok a /\ encoded sch c (Some (s_join sch)) = Ok b /\
     d_schemas doc = a ++ b).
Proof.
  intros G S P. unfold generateSchema. rewrite G, S. cbn [genSingle].
  rewrite (genSchema_root (c_nameFunc c) c sch (s_raw sch) P). cbv zeta. cbn [fst].
  fold (encoded sch c (Some (s_raw sch))).
  destruct (encoded sch c (Some (s_raw sch))) as [a|ea| |]; cbn [bind fst snd].
  2-4: split; [discriminate|]; intros [_ [_ [? [? [E _]]]]]; discriminate.
  rewrite (genSchema_root (c_nameFunc c)) by exact P. cbv zeta. rewrite !rootName_with.
  fold (encoded sch c (Some (s_join sch))).
  destruct (encoded sch c (Some (s_join sch))) as [b|eb| |]; cbn [bind fst snd].
  2-4: split; [discriminate|]; intros [_ [_ [? [? [_ [E _]]]]]]; discriminate.
  rewrite app_nil_r. split.
  - intro X. injection X as <-. cbn. eauto 8.
  - intros [T [V [a' [b' [E1 [E2 D]]]]]]. injection E1 as <-. injection E2 as <-.
    destruct doc as [t v d]; cbn in *. subst. reflexivity.
Qed.
End Gen.

(** *** Names *)
Lemma concat_two sep a b r : exists x, String.concat sep (a :: b :: r) = (a ++ sep ++ x)%string.
Proof. eexists. reflexivity. Qed.

Lemma path_string_two a b r : path_string (a :: b :: r) <> "".
Proof.
  unfold path_string. cbn [map]. destruct (concat_two "." (sel_string a) (sel_string b) (map sel_string r)) as [x ->].
  destruct (sel_string a); discriminate.
Qed.

Definition wrappers : list string := ["schema"; "_#schema"; "_join"; "joinSchema"].

Lemma trim_thema bpath b' w rest :
  same_labels b' bpath -> In (sel_string w) wrappers ->
  trimThemaPathPrefix (b' ++ w :: rest) bpath = rest.
Proof.
  intros S W. unfold trimThemaPathPrefix.
  assert (P : pathHasPrefix (b' ++ w :: rest) bpath = true).
  { apply hasPrefix_spec. exists (w :: rest). exists b'. split; [reflexivity|exact S]. }
  rewrite P. cbn [negb].
  assert (L : length bpath = length b').
  { unfold same_labels in S. apply (f_equal (@length _)) in S. rewrite !map_length in S. lia. }
  rewrite L, skipn_app, skipn_all, Nat.sub_diag. cbn [app skipn].
  assert (E : existsb (String.eqb (sel_string w)) ["schema"; "_#schema"; "_join"; "joinSchema"] = true).
  { apply existsb_exists. exists (sel_string w). split; [exact W|apply String.eqb_refl]. }
  rewrite E. reflexivity.
Qed.

Theorem name_inside bpath b' w s rest i name :
  same_labels b' bpath -> In (sel_string w) wrappers ->
  sel_label s <> ("#" ++ name)%string -> path_string (s :: rest) <> ("#" ++ name)%string ->
  nfSingle None bpath (VOther i) (b' ++ w :: s :: rest) [mkSel ("#" ++ name)%string false] name =
  trim (path_string (s :: rest)).
Proof.
  intros S W N1 N2. unfold nfSingle. rewrite (trim_thema _ _ _ _ S W).
  rewrite (trim_absent (s :: rest) _ s (mkSel ("#" ++ name)%string false)) by (try reflexivity; exact N1).
  assert (P : path_string (b' ++ w :: s :: rest) <> "").
  { destruct b' as [|x [|y b']]; cbn [app]; apply path_string_two. }
  apply String.eqb_neq in P. rewrite P. cbn [orb].
  assert (Q : path_string [mkSel ("#" ++ name)%string false] = ("#" ++ name)%string).
  { unfold path_string. cbn [map String.concat]. unfold sel_string. cbn [sel_label sel_opt]. apply sapp_nil_r'. }
  rewrite Q. apply String.eqb_neq in N2. rewrite N2. reflexivity.
Qed.

Theorem name_root onf bpath val path defpath name :
  path = [] \/ val = VDef -> nfSingle onf bpath val path defpath name = name.
Proof.
  unfold nfSingle. intros [->| ->].
  - reflexivity.
  - destruct (_ || _); reflexivity.
Qed.

(** A name function supplied by the user sees the path below the schema. *)
Theorem name_user f bpath b' w s rest i name :
  same_labels b' bpath -> In (sel_string w) wrappers ->
  sel_label s <> ("#" ++ name)%string -> path_string (s :: rest) <> ("#" ++ name)%string ->
  nfSingle (Some f) bpath (VOther i) (b' ++ w :: s :: rest) [mkSel ("#" ++ name)%string false] name =
  f (VOther i) (s :: rest).
Proof.
  intros S W N1 N2. unfold nfSingle. rewrite (trim_thema _ _ _ _ S W).
  rewrite (trim_absent (s :: rest) _ s (mkSel ("#" ++ name)%string false)) by (try reflexivity; exact N1).
  assert (P : path_string (b' ++ w :: s :: rest) <> "").
  { destruct b' as [|x [|y b']]; cbn [app]; apply path_string_two. }
  apply String.eqb_neq in P. rewrite P. cbn [orb].
  assert (Q : path_string [mkSel ("#" ++ name)%string false] = ("#" ++ name)%string).
  { unfold path_string. cbn [map String.concat]. unfold sel_string. cbn [sel_label sel_opt]. apply sapp_nil_r'. }
  rewrite Q. apply String.eqb_neq in N2. rewrite N2. reflexivity.
Qed.

(** The raw schema and the join schema have no component of their own. *)
Theorem name_inlined onf bpath b' w val defpath name :
  same_labels b' bpath -> b' <> [] -> In (sel_string w) wrappers -> path_string defpath <> "" ->
  val = VRaw \/ val = VJoin ->
  nfSingle onf bpath val (b' ++ [w]) defpath name = "".
Proof.
  intros L N W D V. unfold nfSingle. rewrite (trim_thema _ _ _ _ L W).
  assert (P : path_string (b' ++ [w]) <> "").
  { destruct b' as [|x [|y b']]; [contradiction| |]; cbn [app]; apply path_string_two. }
  apply String.eqb_neq in P. rewrite P. cbn [orb].
  assert (T : trimPathPrefix [] defpath = []).
  { unfold trimPathPrefix. cbn. destruct defpath; cbn; try reflexivity; apply skipn_nil. }
  rewrite T. replace (path_string []) with "" by reflexivity.
  assert (Q : String.eqb "" (path_string defpath) = false) by (apply String.eqb_neq; congruence).
  rewrite Q. destruct V as [->| ->]; reflexivity.
Qed.
