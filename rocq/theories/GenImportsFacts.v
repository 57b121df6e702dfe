(** Facts about GenImports.v: documents and aliases. *)
From Verif Require Import Prelude Strings Version Util CliProofs GenName GenNameProofs GenType GenTypeProofs GenTypeFacts GoJsonSpec GoJsonProofs GenGlobals GenImports GenImportsProofs.
From Coq Require Import Permutation.
Local Open Scope string_scope.
Local Open Scope list_scope.

(** *** Aliases *)
Definition numbered (ps : list string) (names : list (string * string)) : Prop :=
  length names = length ps /\ (forall p, In p (map fst names) <-> In p ps) /\
  forall i p, nth_error ps i = Some p -> get p names = Some ("externalRef" ++ itoa i)%string.

Lemma get_none {A} k (l : list (string * A)) : get k l = None <-> ~ In k (map fst l).
Proof.
  induction l as [|[n a] l IH]; cbn; [tauto|]. destruct (String.eqb_spec n k) as [->|D]; [split; [discriminate|tauto]|]. rewrite IH. tauto.
Qed.
Lemma increasing_snoc l p : increasing l -> (forall a, In a l -> before a p) -> increasing (l ++ [p]).
Proof.
  induction l as [|x l IH]; cbn; [intros _ _; split; [intros b []|exact I]|]. intros [H1 H2] B. split; [|apply IH; auto].
  intros b I. apply in_app_or in I as [I|[<-|[]]]; auto.
Qed.
Lemma number_spec paths : forall ps names, numbered ps names -> increasing ps -> sorted paths ->
  (forall a b, In a ps -> In b paths -> str_leb a b = true) ->
  exists ps', numbered ps' (number paths names) /\ increasing ps' /\ forall p, In p ps' <-> In p ps \/ In p paths.
Proof.
  induction paths as [|p paths IH]; intros ps names N I0 S0 L; cbn [number].
  - exists ps. split; [exact N|]. split; [exact I0|]. intros p. cbn. tauto.
  - inversion S0 as [|? ? S1 S2]; subst. destruct N as [N1 [N2 N3]]. destruct (get p names) as [x|] eqn:G.
    + assert (P : In p ps). { apply N2. destruct (in_dec string_dec p (map fst names)) as [H|H]; [exact H|]. apply get_none in H. congruence. }
      destruct (IH ps names) as [ps' [A [B C]]]; [split; auto|exact I0|exact S2|intros a b Ia Ib; apply L; [exact Ia|right; exact Ib]|].
      exists ps'. split; [exact A|]. split; [exact B|]. intros q. rewrite C. cbn. split; [tauto|]. intros [H|[<-|H]]; auto.
    + assert (P : ~ In p ps). { intro H. apply N2 in H. apply get_none in G. contradiction. }
      destruct (IH (ps ++ [p]) ((p, "externalRef" ++ itoa (length names))%string :: names)) as [ps' [A [B C]]].
      * split; [cbn; rewrite app_length; cbn; lia|]. split.
        { intros q. cbn. rewrite in_app_iff, N2. cbn. tauto. }
        intros i q E. cbn. destruct (String.eqb_spec p q) as [<-|D].
        -- destruct (Nat.lt_ge_cases i (length ps)) as [Q|Q].
           { rewrite nth_error_app1 in E by exact Q. apply nth_error_In in E. contradiction. }
           rewrite nth_error_app2 in E by exact Q. destruct (i - length ps) as [|j] eqn:J; [|destruct j; discriminate E]. rewrite N1. replace i with (length ps) by lia. reflexivity.
        -- apply N3. destruct (Nat.lt_ge_cases i (length ps)) as [Q|Q].
           { rewrite nth_error_app1 in E by exact Q. exact E. }
           rewrite nth_error_app2 in E by exact Q. destruct (i - length ps) as [|j] eqn:J; [|destruct j; discriminate E]. cbn in E. congruence.
      * apply increasing_snoc; [exact I0|]. intros a Ia. split; [apply L; [exact Ia|left; reflexivity]|]. intros ->. contradiction.
      * exact S2.
      * intros a b Ia Ib. apply in_app_or in Ia as [Ia|[<-|[]]]; [apply L; [exact Ia|right; exact Ib]|apply S1, Ib].
      * exists ps'. split; [exact A|]. split; [exact B|]. intros q. rewrite C, in_app_iff. cbn. tauto.
Qed.

Definition packages (m : list (string * string)) : list (string * unit) := map (fun p => (snd p, tt)) m.
Lemma table m : exists ps, numbered ps (number (map fst (by_key (packages m))) []) /\ increasing ps /\ forall p, In p ps <-> In p (map snd m).
Proof.
  destruct (number_spec (map fst (by_key (packages m))) [] []) as [ps [A [B C]]].
  - split; [reflexivity|]. split; [intros p; cbn; tauto|]. intros [|i] p; discriminate.
  - exact I.
  - apply by_key_sorted.
  - intros a b [].
  - exists ps. split; [exact A|]. split; [exact B|]. intros p. rewrite C. cbn. split.
    + intros [[]|H]. apply in_map_iff in H as [[q t] [<- H]]. apply (proj1 (by_key_in _ _)) in H. unfold packages in H. apply in_map_iff in H as [x [[= <- _] H]]. cbn [fst]. apply in_map. exact H.
    + intros H. right. apply in_map_iff in H as [x [<- H]]. apply in_map_iff. exists (snd x, tt). split; [reflexivity|]. apply (proj2 (by_key_in _ _)). unfold packages. apply in_map_iff. exists x. auto.
Qed.

(** Two increasing lists of the same strings are equal. *)
Lemma increasing_eq l : forall l', increasing l -> increasing l' -> (forall p, In p l <-> In p l') -> l = l'.
Proof.
  intros l' A B E. assert (H : map (fun p => (p, tt)) l = map (fun p => (p, tt)) l').
  { apply increasing_ext; rewrite ?map_map; cbn; rewrite ?map_id; auto. intros [p []]. rewrite !in_map_iff. 
    split; intros [q [[= ->] H]]; exists p; (split; [reflexivity|]); apply E; exact H. }
  apply (f_equal (map fst)) in H. rewrite !map_map in H. cbn in H. rewrite !map_id in H. exact H.
Qed.

(** Every mapping has the aliases of the packages, numbered in their order. *)
Lemma aliases m : exists ps, NoDup ps /\ (forall p, In p ps <-> In p (map snd m)) /\
  forall m', Permutation m m' ->
    Forall2 (fun sp r => fst r = fst sp /\ gi_path (snd r) = snd sp /\
               exists i, nth_error ps i = Some (snd sp) /\ gi_name (snd r) = ("externalRef" ++ itoa i)%string)
      m' (constructImportMapping m').
Proof.
  destruct (table m) as [ps [_ [I C]]]. exists ps. split; [apply increasing_nodup, I|]. split; [exact C|]. intros m' P.
  destruct (table m') as [ps' [[_ [_ N]] [I' C']]].
  assert (E : ps' = ps). { apply increasing_eq; [exact I'|exact I|]. intros p. rewrite C, C'. split; apply Permutation_in; [symmetry|]; apply Permutation_map; exact P. }
  subst ps'. unfold constructImportMapping. fold (packages m').
  assert (K : forall x, In x m' -> In x m') by auto. revert K. generalize m' at 1 3 5. intros l. induction l as [|x l IH]; intros K; cbn; constructor.
  - cbn. split; [reflexivity|]. split; [reflexivity|]. assert (H : In (snd x) ps) by (apply C', in_map, K; left; reflexivity).
    apply In_nth_error in H as [i H]. exists i. split; [exact H|]. rewrite (N i _ H). reflexivity.
  - apply IH. intros y Y. apply K. right. exact Y.
Qed.

(** *** Documents *)
Definition component (c : icomponents) (exclude : list string) (r : iref) : Prop :=
  (exists n, In (n, Some r) (ic_schemas c) /\ ~ In n exclude) \/
  In (Some r) (ic_bodies c) \/ In (Some r) (ic_responses c) \/ In (Some r) (ic_params c).
Definition in_document (c : icomponents) (exclude : list string) (s : ischema) : Prop :=
  exists r, component c exclude r /\ looked r s.

Section Quote.
Variable quote : string -> string.

Lemma opt_reads r : (forall q s, r = Some q -> looked q s -> is_map s) -> reads quote (fun s => exists q, r = Some q /\ looked q s) (opt_imports quote r).
Proof.
  intros W. destruct r as [q|]; cbn.
  - eapply reads_iff; [|apply imports_exact; intros s H; exact (W q s eq_refl H)]. intros s. split; [intros H; exists q; auto|intros [q' [[= <-] H]]; exact H].
  - left. exists []. split; [reflexivity|]. split; [apply finds_nil|]; intros s [q [? _]]; discriminate.
Qed.
Lemma collect_reads l : (forall r s, In (Some r) l -> looked r s -> is_map s) -> forall (P : ischema -> Prop) res, finds quote P res -> (forall s, P s -> ~ faulty s) ->
  reads quote (fun s => P s \/ exists r, In (Some r) l /\ looked r s) (collect quote l res).
Proof.
  induction l as [|o l IH]; intros W P res R NF; cbn [collect].
  - left. exists res. split; [reflexivity|]. split; [|intros s [H|[r [[] _]]]; exact (NF s H)].
    apply (finds_iff quote P); [|exact R]. intros s. split; [auto|]. intros [H|[r [[] _]]]. exact H.
  - destruct (opt_reads o) as [[m [-> [M N]]]|[ty [[e [-> TX]] [s [[q [-> H]] K]]]]]; cbn [bind].
    + intros q s -> H. apply (W q); [left; reflexivity|exact H].
    + assert (W' : forall r s, In (Some r) l -> looked r s -> is_map s) by (intros r s Q; exact (W r s (or_intror Q))).
      specialize (IH W' _ _ (finds_merge quote _ _ _ _ R M)). eapply reads_iff; [|apply IH].
      * intros s. cbn. split.
        { intros [[H|[q [-> H]]]|[q [Q H]]]; [auto|right; exists q; auto|right; exists q; auto]. }
        { intros [H|[q [[->|Q] H]]]; [auto|left; right; exists q; auto|right; exists q; auto]. }
      * intros s [H|H]; auto.
    + right. exists ty. split; [exists e; auto|]. exists s. split; [|exact K]. right. exists q. split; [left; reflexivity|exact H].
Qed.
Lemma schemas_reads ex l : (forall n r s, In (n, Some r) l -> ~ In n ex -> looked r s -> is_map s) -> forall (P : ischema -> Prop) res, finds quote P res -> (forall s, P s -> ~ faulty s) ->
  reads quote (fun s => P s \/ exists r n, In (n, Some r) l /\ ~ In n ex /\ looked r s) (getSchemaImports quote ex l res).
Proof.
  induction l as [|[n o] l IH]; intros W P res R NF; cbn [getSchemaImports].
  - left. exists res. split; [reflexivity|]. split; [|intros s [H|[r [n [[] _]]]]; exact (NF s H)].
    apply (finds_iff quote P); [|exact R]. intros s. split; [auto|]. intros [H|[r [n [[] _]]]]. exact H.
  - assert (W' : forall n r s, In (n, Some r) l -> ~ In n ex -> looked r s -> is_map s) by (intros n' r s Q; exact (W n' r s (or_intror Q))).
    destruct (existsb (String.eqb n) ex) eqn:X.
    + assert (D : In n ex) by (apply existsb_exists in X as [y [Y E]]; apply String.eqb_eq in E as ->; exact Y).
      eapply reads_iff; [|apply (IH W' P res R NF)]. intros s. cbn. split.
      { intros [H|[r [n' [Q H]]]]; [auto|right; exists r, n'; auto]. }
      { intros [H|[r [n' [[E|Q] [E2 H]]]]]; [auto|injection E as <- ->; contradiction|right; exists r, n'; auto]. }
    + assert (D : ~ In n ex). { intro D. assert (existsb (String.eqb n) ex = true) by (apply existsb_exists; exists n; split; [exact D|apply String.eqb_refl]). congruence. }
      destruct (opt_reads o) as [[m [-> [M N]]]|[ty [[e [-> TX]] [s [[q [-> H]] K]]]]]; cbn [bind].
      * intros q s -> H. apply (W n q); [left; reflexivity|exact D|exact H].
      * specialize (IH W' _ _ (finds_merge quote _ _ _ _ R M)). eapply reads_iff; [|apply IH].
        -- intros s. cbn. split.
           { intros [[H|[q [-> H]]]|[q [n' [Q H]]]]; [auto|right; exists q, n; auto|right; exists q, n'; auto]. }
           { intros [H|[q [n' [[E|Q] [E2 H]]]]]; [auto|injection E as <- ->; left; right; exists q; auto|right; exists q, n'; auto]. }
        -- intros s [H|H]; auto.
      * right. exists ty. split; [exists e; auto|]. exists s. split; [|exact K]. right. exists q, n. split; [left; reflexivity|auto].
Qed.

Lemma no_res : finds quote (fun _ => False) [].
Proof. apply finds_nil. auto. Qed.

Lemma document_reads c ex : (forall s, in_document c ex s -> is_map s) ->
  reads quote (in_document c ex) (getTypeDefinitionsImports quote (Some c) ex).
Proof.
  intros W. unfold getTypeDefinitionsImports.
  destruct (schemas_reads ex (ic_schemas c)) with (P := fun _ : ischema => False) (res := @nil (string * goImport)) as [[m1 [-> [M1 N1]]]|[ty [[e [-> TX]] [s [[[]|[r [n [H1 [H2 H3]]]]] K]]]]]; cbn [bind].
  { intros n r s A B C. apply W. exists r. split; [left; exists n; auto|exact C]. } { exact no_res. } { intros s []. }
  2:{ right. exists ty. split; [exists e; auto|]. exists s. split; [|exact K]. exists r. split; [left; exists n; auto|exact H3]. }
  destruct (collect_reads (ic_bodies c)) with (P := fun _ : ischema => False) (res := @nil (string * goImport)) as [[m2 [-> [M2 N2]]]|[ty [[e [-> TX]] [s [[[]|[r [H1 H3]]] K]]]]]; cbn [bind].
  { intros r s A C. apply W. exists r. split; [right; auto|exact C]. } { exact no_res. } { intros s []. }
  2:{ right. exists ty. split; [exists e; auto|]. exists s. split; [|exact K]. exists r. split; [right; auto|exact H3]. }
  destruct (collect_reads (ic_responses c)) with (P := fun _ : ischema => False) (res := @nil (string * goImport)) as [[m3 [-> [M3 N3]]]|[ty [[e [-> TX]] [s [[[]|[r [H1 H3]]] K]]]]]; cbn [bind].
  { intros r s A C. apply W. exists r. split; [right; auto|exact C]. } { exact no_res. } { intros s []. }
  2:{ right. exists ty. split; [exists e; auto|]. exists s. split; [|exact K]. exists r. split; [right; auto|exact H3]. }
  destruct (collect_reads (ic_params c)) with (P := fun _ : ischema => False) (res := @nil (string * goImport)) as [[m4 [-> [M4 N4]]]|[ty [[e [-> TX]] [s [[[]|[r [H1 H3]]] K]]]]]; cbn [bind].
  { intros r s A C. apply W. exists r. split; [right; auto|exact C]. } { exact no_res. } { intros s []. }
  2:{ right. exists ty. split; [exists e; auto|]. exists s. split; [|exact K]. exists r. split; [right; auto|exact H3]. }
  left. eexists. split; [reflexivity|]. split.
  - cbn [fold_left]. eapply finds_iff; [|exact (finds_merge _ _ _ _ _ (finds_merge _ _ _ _ _ (finds_merge _ _ _ _ _ (finds_merge _ _ _ _ _ no_res M1) M2) M3) M4)].
    intros s. unfold in_document, component. cbn. split.
    + intros [[[[[]|[[]|[r [n [A [B C]]]]]]|[[]|[r [A C]]]]|[[]|[r [A C]]]]|[[]|[r [A C]]]]; exists r; (split; [|exact C]); eauto 6.
    + intros [r [[[n [A B]]|[A|[A|A]]] C]]; [left; left; left; right; right; exists r, n; auto|left; left; right; right; exists r; auto|left; right; right; exists r; auto|right; right; exists r; auto].
  - intros s [r [[[n [A B]]|[A|[A|A]]] C]]; [apply N1; right; exists r, n; auto|apply N2; right; exists r; auto|apply N3; right; exists r; auto|apply N4; right; exists r; auto].
Qed.

(** The import statement of a package. *)
Definition statement (g : goImport) (t : string) : Prop :=
  (gi_name g = "" /\ t = quote (gi_path g)) \/ (gi_name g <> "" /\ t = (gi_name g ++ " " ++ quote (gi_path g))%string).
Lemma statement_text g t : statement g t <-> t = import_text quote g.
Proof.
  unfold statement, import_text. destruct (String.eqb_spec (gi_name g) "") as [E|N]; split; try (intros ->; auto); intros [[E' H]|[N' H]]; auto; contradiction.
Qed.

Lemma document_exact mapping c ex : (forall s, in_document c ex s -> is_map s) -> (forall s, in_document c ex s -> clear s) ->
  (exists l, externalImports quote mapping (Some c) ex = Ok l /\ (forall s, in_document c ex s -> ~ faulty s) /\
     forall t, In t l <-> (exists n g, In (n, g) (constructImportMapping mapping) /\ statement g t) \/
                          (exists s g, in_document c ex s /\ asks s g /\ statement g t)) \/
  (exists e s t, externalImports quote mapping (Some c) ex = Err e /\
      e_text e = ("error getting type definition imports: failed to convert type: " ++ t)%string /\
      in_document c ex s /\ unreadable s t).
Proof.
  intros W CL. unfold externalImports. destruct (document_reads c ex W) as [[m [-> [[[ND K] [F1 F2]] N]]]|[x [[e [-> TX]] [s [X1 X2]]]]]; cbn [because bind].
  2:{ right. eexists. exists s, x. split; [reflexivity|]. split; [cbn; rewrite TX; reflexivity|auto]. }
  left. eexists. split; [reflexivity|]. split; [exact N|]. intros t. rewrite in_app_iff.
  assert (E0 : In t (goImports quote (constructImportMapping mapping)) <-> exists n g, In (n, g) (constructImportMapping mapping) /\ statement g t).
  { unfold goImports. rewrite in_map_iff. split.
    - intros [[n g] [<- H]]. exists n, g. split; [exact H|]. apply statement_text. reflexivity.
    - intros [n [g [H Q]]]. apply statement_text in Q as ->. exists (n, g). auto. }
  assert (E : In t (goImports quote (mergeImports [] m)) <-> exists s g, in_document c ex s /\ asks s g /\ statement g t); [|tauto].
  unfold goImports. rewrite in_map_iff. split.
  - intros [[k g] [<- H]]. apply merge_in in H as [[]|H]. destruct (F1 _ _ H) as [s [A B]]. exists s, g. split; [exact A|]. split; [exact B|]. apply statement_text. reflexivity.
  - intros [s [g [A [B Q]]]]. apply statement_text in Q as ->. specialize (F2 s g A (CL s A) B). assert (Q : In (import_text quote g) (map fst (mergeImports [] m))) by (apply merge_keys; auto).
    apply in_map_iff in Q as [[k h] [E Q]]. cbn in E. exists (k, h). split; [|exact Q]. cbn. apply merge_in in Q as [[]|Q]. rewrite <- E. symmetry. exact (K _ _ Q).
Qed.
End Quote.

(** *** Witnesses *)
Definition with_import (t path : string) : iref :=
  IRef "" (Some (ISch t [("x-go-type", XStr "uuid.UUID"); ("x-go-type-import", XMap [("Path", XStr path)])] [] None None [] [] [])).
Definition object_of (ps : list (string * iref)) (addl : option iref) (allOf : list iref) : iref :=
  IRef "" (Some (ISch "object" [] ps None addl allOf [] [])).
Definition doc (r : iref) : icomponents := mkIC [("Foo", Some r)] [] [] [].

Lemma not_elsewhere : ~ elsewhere "".
Proof. intros [[|c a] [b E]]; discriminate. Qed.
Lemma asks_it t path : asks (ISch t [("x-go-type", XStr "uuid.UUID"); ("x-go-type-import", XMap [("Path", XStr path)])] [] None None [] [] []) (mkImport "" path).
Proof.
  exists [("Path", XStr path)]. split; [|split].
  - split; [exists (XStr "uuid.UUID"); split; [left; reflexivity|discriminate]|]. split; [right; left; reflexivity|discriminate].
  - right. split; [|reflexivity]. intros k' x [E|[]] H. injection E as <- <-. apply fold_letters in H; [discriminate H|reflexivity].
  - left. exists "Path". split; [|left; reflexivity]. apply fold_letters; reflexivity.
Qed.

Lemma lost quote : exists r s g, within_ref r s /\ asks s g /\ (forall t, within_ref r t -> is_map t) /\
  externalImports quote [] (Some (doc r)) [] = Ok [].
Proof.
  exists (object_of [] (Some (with_import "string" "github.com/google/uuid")) []). do 2 eexists. split; [|split; [apply (asks_it "string")|split; [|reflexivity]]].
  - apply w_below with (p := with_import "string" "github.com/google/uuid"); [exact not_elsewhere|auto|]. constructor. exact not_elsewhere.
  - intros t H. inversion H as [|? ? ? ? ? ? ? ? ? p ? ? H1 H2]; subst; [constructor|].
    destruct H1 as [[]|[E|[E|[[]|[[]|[]]]]]]; [discriminate E|]. injection E as <-. inversion H2 as [|? ? ? ? ? ? ? ? ? p ? ? K1 K2]; subst.
    + repeat constructor; cbn; [intros [E|[]]; discriminate E|intros []].
    + destruct K1 as [[]|[E|[E|[[]|[[]|[]]]]]]; discriminate E.
Qed.

Lemma either_name : exists l l', Permutation l l' /\ NoDup (map fst l) /\
  exists g g', import_fields l (mkImport "" "") = Ok g /\ import_fields l' (mkImport "" "") = Ok g' /\ g <> g'.
Proof.
  exists [("name", XStr "a"); ("Name", XStr "b"); ("path", XStr "p")], [("Name", XStr "b"); ("name", XStr "a"); ("path", XStr "p")].
  split; [apply perm_swap|]. split; [repeat constructor; cbn; intuition discriminate|].
  exists (mkImport "b" "p"), (mkImport "a" "p"). split; [reflexivity|]. split; [reflexivity|]. discriminate.
Qed.
