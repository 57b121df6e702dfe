(** Facts about GenImports.v. *)
From Verif Require Import Prelude Strings Version Util CliProofs GenName GenNameProofs GenType GenTypeProofs GenTypeFacts GoJsonSpec GoJsonProofs GenGlobals GenImports.
From Coq Require Import Permutation.
Local Open Scope string_scope.
Local Open Scope list_scope.

(** *** What is asked for *)

(** A reference to a type that is declared elsewhere. *)
Definition elsewhere (r : string) : Prop := exists a b, r = (a ++ "#" ++ b)%string.

(** Equal up to the case of ASCII letters, for a [k] in lower case. *)
Definition char_case (c d : ascii) : Prop :=
  c = d \/ ((65 <= N_of_ascii c <= 90)%N /\ N_of_ascii d = (N_of_ascii c + 32)%N).
Fixpoint letters_of (s k : string) : Prop :=
  match s, k with
  | EmptyString, EmptyString => True
  | String c r, String d q => char_case c d /\ letters_of r q
  | _, _ => False
  end.

Definition exts_of (s : ischema) : list (string * ext) := match s with ISch _ e _ _ _ _ _ _ => e end.

(** The schema has a Go type, and says from where. *)
Definition typed (s : ischema) (x : ext) : Prop :=
  (exists t, In ("x-go-type", t) (exts_of s) /\ t <> XNull) /\ In ("x-go-type-import", x) (exts_of s) /\ x <> XNull.

(** What a field of that names; the empty string if it is missing. *)
Definition says (l : list (string * ext)) (k v : string) : Prop :=
  (exists k', letters_of k' k /\ In (k', XStr v) l) \/ ((forall k' x, In (k', x) l -> ~ letters_of k' k) /\ v = "").
Definition asks (s : ischema) (g : goImport) : Prop :=
  exists l, typed s (XMap l) /\ says l "name" (gi_name g) /\ says l "path" (gi_path g).

(** The name of the Go type of what JSON is decoded to. *)
Inductive gotype : ext -> string -> Prop :=
| gt_null : gotype XNull "<nil>"
| gt_str s : gotype (XStr s) "string"
| gt_map l : gotype (XMap l) "map[string]interface {}"
| gt_other t : gotype (XOther t) t.

(** It says so in a way that cannot be read: something of the type [t] is not a map,
    or not a string. *)
Definition bad_field (l : list (string * ext)) (t : string) : Prop :=
  exists k y, In (k, y) l /\ (letters_of k "name" \/ letters_of k "path") /\ (forall v, y <> XStr v) /\ gotype y t.
Definition unreadable (s : ischema) (t : string) : Prop :=
  exists x, typed s x /\ (((forall l, x <> XMap l) /\ gotype x t) \/ exists l, x = XMap l /\ bad_field l t).
Definition faulty (s : ischema) : Prop := exists t, unreadable s t.

(** It says so once. *)
Definition clear (s : ischema) : Prop :=
  forall l, typed s (XMap l) -> forall k v w, k = "name" \/ k = "path" -> says l k v -> says l k w -> v = w.

(** A schema that is written at the reference, or within it, at any place. *)
Inductive within_ref : iref -> ischema -> Prop :=
| w_here ref s : ~ elsewhere ref -> within_ref (IRef ref (Some s)) s
| w_below ref t e ps i a al an on p s : ~ elsewhere ref ->
    In p (map snd ps) \/ i = Some p \/ a = Some p \/ In p al \/ In p an \/ In p on ->
    within_ref p s -> within_ref (IRef ref (Some (ISch t e ps i a al an on))) s.

(** Only through the properties of objects and the items of arrays. *)
Inductive looked : iref -> ischema -> Prop :=
| l_here ref s : ~ elsewhere ref -> looked (IRef ref (Some s)) s
| l_prop ref t e ps i a al an on n p s : ~ elsewhere ref -> t = "" \/ t = "object" -> In (n, p) ps ->
    looked p s -> looked (IRef ref (Some (ISch t e ps i a al an on))) s
| l_item ref e ps p a al an on s : ~ elsewhere ref -> looked p s ->
    looked (IRef ref (Some (ISch "array" e ps (Some p) a al an on))) s.

(** The extensions are a map. *)
Definition is_map (s : ischema) : Prop := NoDup (map fst (exts_of s)).

(** The error for what cannot be read. *)
Definition fails {A} (o : outcome A) (t : string) : Prop := exists e, o = Err e /\ e_text e = ("failed to convert type: " ++ t)%string.
Lemma gotype_of x : gotype x (go_type_of x).
Proof. destruct x; constructor. Qed.
Lemma convert_fails {A} x : fails (@convert_err A x) (go_type_of x).
Proof. eexists. split; reflexivity. Qed.

Section Ind.
Variable P : iref -> Prop.
Hypothesis HN : forall ref, P (IRef ref None).
Hypothesis HS : forall ref t e ps i a al an on, Forall (fun p => P (snd p)) ps ->
  (forall p, i = Some p -> P p) -> P (IRef ref (Some (ISch t e ps i a al an on))).
Fixpoint iref_ind2 (r : iref) : P r :=
  match r with
  | IRef ref None => HN ref
  | IRef ref (Some (ISch t e ps i a al an on)) =>
      HS ref t e ps i a al an on
        ((fix go (ps : list (string * iref)) : Forall (fun p => P (snd p)) ps :=
            match ps with
            | [] => Forall_nil _
            | (n, p) :: r => Forall_cons (n, p) (iref_ind2 p) (go r)
            end) ps)
        (match i as j return forall p, j = Some p -> P p with
         | None => fun p H => match H in _ = o return match o with Some _ => P p | None => True end with eq_refl => I end
         | Some q => fun p H => match H in _ = o return match o with Some p => P p | None => True end with eq_refl => iref_ind2 q end
         end)
  end.
End Ind.

(** *** Extensions *)

Lemma get_in {A} k (a : A) l : NoDup (map fst l) -> get k l = Some a <-> In (k, a) l.
Proof.
  induction l as [|[n b] l IH]; cbn; [split; [discriminate|intros []]|]. intros N. inversion_clear N as [|? ? N1 N2].
  destruct (String.eqb_spec n k) as [->|D].
  - split; [intros [= ->]; auto|]. intros [[= ->]|H]; [reflexivity|]. destruct N1. apply (in_map fst) in H. exact H.
  - rewrite IH by exact N2. split; [auto|]. intros [[= E _]|H]; [contradiction|exact H].
Qed.
Lemma extension_in exts k x : NoDup (map fst exts) -> extension exts k = Some x <-> In (k, x) exts /\ x <> XNull.
Proof.
  intros N. unfold extension. split.
  - destruct (get k exts) as [y|] eqn:G; [|discriminate]. destruct y; try discriminate; intros [= <-]; (split; [apply get_in; auto|discriminate]).
  - intros [I D]. apply get_in in I; [|exact N]. rewrite I. destruct x; try reflexivity. contradiction.
Qed.

Lemma fold_char_case c d : fold_char d = d -> fold_char c = d <-> char_case c d.
Proof.
  intros D. unfold char_case. split.
  - unfold fold_char, a_upper, within. destruct (_ && _)%bool eqn:E.
    + intros <-. right. apply andb_true_iff in E as [E1 E2]. apply N.leb_le in E1, E2. split; [lia|]. rewrite N_ascii_embedding; lia.
    + intros <-. auto.
  - intros [->|[R E]]; [exact D|]. unfold fold_char, a_upper, within.
    replace ((65 <=? N_of_ascii c) && (N_of_ascii c <=? 90))%N with true by (symmetry; apply andb_true_iff; split; apply N.leb_le; lia).
    rewrite <- E. apply ascii_N_embedding.
Qed.
Lemma fold_letters : forall k s, fold k = k -> fold s = k <-> letters_of s k.
Proof.
  induction k as [|d k IH]; intros [|c s] F; cbn; try tauto; try (split; [discriminate|tauto]).
  cbn in F. injection F as F1 F2. rewrite <- (fold_char_case c d F1), <- (IH s F2). split; [intros [= A B]; auto|intros [-> ->]; reflexivity].
Qed.
Lemma equalFold_letters s k : fold k = k -> equalFold s k = true <-> letters_of s k.
Proof. intros F. unfold equalFold. rewrite String.eqb_eq, F. apply fold_letters. exact F. Qed.
Lemma not_both s : letters_of s "name" -> letters_of s "path" -> False.
Proof. intros A B. apply fold_letters in A, B; try reflexivity. congruence. Qed.

(** Fields said last win. *)
Definition said (l : list (string * ext)) (k old v : string) : Prop :=
  (exists k', letters_of k' k /\ In (k', XStr v) l) \/ ((forall k' x, In (k', x) l -> ~ letters_of k' k) /\ v = old).
Lemma said_cons_other k y l j old v : ~ letters_of k j -> said l j old v -> said ((k, y) :: l) j old v.
Proof.
  intros N [[k' [L I]]|[A ->]]; [left; exists k'; split; [exact L|right; exact I]|]. right. split; [|reflexivity].
  intros k' x [[= <- <-]|I]; [exact N|exact (A _ _ I)].
Qed.
Lemma said_cons_here k w l j old v : letters_of k j -> said l j w v -> said ((k, XStr w) :: l) j old v.
Proof. intros L [[k' [L' I]]|[A ->]]; left; [exists k'|exists k]; split; auto; [right; exact I|left; reflexivity]. Qed.

Definition bad (l : list (string * ext)) : Prop := exists t, bad_field l t.
Lemma import_fields_spec l : forall gi,
  (exists g, import_fields l gi = Ok g /\ ~ bad l /\ said l "name" (gi_name gi) (gi_name g) /\ said l "path" (gi_path gi) (gi_path g)) \/
  (exists t, fails (import_fields l gi) t /\ bad_field l t).
Proof.
  induction l as [|[k y] l IH]; intros [n p]; cbn [import_fields gi_name gi_path].
  - left. exists (mkImport n p). split; [reflexivity|]. split; [intros [t [k [y [[] _]]]]|]. split; right; (split; [intros k x []|reflexivity]).
  - assert (K : ~ letters_of k "name" -> ~ letters_of k "path" -> ~ bad l -> ~ bad ((k, y) :: l)).
    { intros A B C [t [k' [y' [[[= <- <-]|I] [D E]]]]]; [tauto|]. apply C. exists t, k', y'. auto. }
    assert (K1 : (letters_of k "name" \/ letters_of k "path") -> (forall v, y <> XStr v) -> bad_field ((k, y) :: l) (go_type_of y))
      by (intros D E; exists k, y; split; [left; reflexivity|]; split; [exact D|]; split; [exact E|apply gotype_of]).
    assert (K2 : forall t, bad_field l t -> bad_field ((k, y) :: l) t) by (intros t [k' [y' [I R]]]; exists k', y'; split; [right; exact I|exact R]).
    assert (K3 : forall v, y = XStr v -> ~ bad l -> ~ bad ((k, y) :: l)).
    { intros v -> C [t [k' [y' [[[= <- <-]|I] [D [E F]]]]]]; [exact (E v eq_refl)|]. apply C. exists t, k', y'. auto. }
    destruct (equalFold k "name") eqn:EN.
    + apply equalFold_letters in EN; [|reflexivity]. destruct y as [|s|m|t]; try (right; eexists; split; [apply convert_fails|apply K1; [tauto|discriminate]]).
      destruct (IH (mkImport s p)) as [[g [E [B [N Q]]]]|[t [E B]]].
      * left. exists g. split; [exact E|]. split; [exact (K3 s eq_refl B)|]. split; [exact (said_cons_here _ _ _ _ _ _ EN N)|].
        apply said_cons_other; [intro C; exact (not_both _ EN C)|exact Q].
      * right. exists t. auto.
    + destruct (equalFold k "path") eqn:EP.
      * apply equalFold_letters in EP; [|reflexivity]. destruct y as [|s|m|t]; try (right; eexists; split; [apply convert_fails|apply K1; [tauto|discriminate]]).
        destruct (IH (mkImport n s)) as [[g [E [B [N Q]]]]|[t [E B]]].
        -- left. exists g. split; [exact E|]. split; [exact (K3 s eq_refl B)|]. split; [|exact (said_cons_here _ _ _ _ _ _ EP Q)].
           apply said_cons_other; [intro C; exact (not_both _ C EP)|exact N].
        -- right. exists t. auto.
      * assert (A : ~ letters_of k "name") by (intro C; apply (equalFold_letters k "name" eq_refl) in C; congruence).
        assert (A' : ~ letters_of k "path") by (intro C; apply (equalFold_letters k "path" eq_refl) in C; congruence).
        destruct (IH (mkImport n p)) as [[g [E [B [N Q]]]]|[t [E B]]].
        -- left. exists g. split; [exact E|]. split; [exact (K A A' B)|]. split; apply said_cons_other; assumption.
        -- right. exists t. auto.
Qed.

Lemma parse_spec s : is_map s ->
  (exists o, parseGoImportExtension (exts_of s) = Ok o /\ ~ faulty s /\ (forall g, o = Some g -> asks s g) /\ (o = None -> forall g, ~ asks s g)) \/
  (exists t, fails (parseGoImportExtension (exts_of s)) t /\ unreadable s t).
Proof.
  intros N. unfold parseGoImportExtension.
  destruct (extension (exts_of s) "x-go-type-import") as [x|] eqn:E1.
  2:{ left. exists None. split; [reflexivity|].
      assert (A : forall x, ~ typed s x) by (intros x [_ [I D]]; assert (C := proj2 (extension_in _ _ x N) (conj I D)); congruence).
      split; [intros [ty [x [T _]]]; exact (A x T)|]. split; [discriminate|]. intros _ g [l [T _]]. exact (A _ T). }
  destruct (extension (exts_of s) "x-go-type") as [t|] eqn:E2.
  2:{ left. exists None. split; [reflexivity|].
      assert (A : forall x, ~ typed s x) by (intros y [[t [I D]] _]; assert (C := proj2 (extension_in _ _ t N) (conj I D)); congruence).
      split; [intros [ty [y [T _]]]; exact (A y T)|]. split; [discriminate|]. intros _ g [l [T _]]. exact (A _ T). }
  assert (T : typed s x). { split; [exists t; apply extension_in; auto|apply extension_in; auto]. }
  assert (U : forall y, typed s y -> y = x).
  { intros y [_ [I D]]. assert (C := proj2 (extension_in _ _ y N) (conj I D)). congruence. }
  destruct x as [|v|l|v]; [left; destruct T as [_ [_ []]]; reflexivity| | |]; try (right; eexists; split; [apply convert_fails|eexists; split; [exact T|left; split; [discriminate|apply gotype_of]]]).
  destruct (import_fields_spec l (mkImport "" "")) as [[g [E [B [Q1 Q2]]]]|[ty [[e [E TX]] B]]]; rewrite E; cbn.
  - left. exists (Some g). split; [reflexivity|]. split.
    { intros [ty [y [Ty [[F _]|[l' [F G]]]]]]; apply U in Ty as ->; [exact (F l eq_refl)|]. injection F as <-. apply B. exists ty. exact G. }
    split; [|discriminate]. intros g' [= <-]. exists l. split; [exact T|]. split; assumption.
  - right. exists ty. split; [exists e; auto|]. exists (XMap l). split; [exact T|]. right. exists l. auto.
Qed.

Lemma asks_one s g h : clear s -> is_map s -> asks s g -> asks s h -> g = h.
Proof.
  intros C M [l [T [N P]]] [l' [T' [N' P']]].
  assert (E : XMap l' = XMap l).
  { destruct T as [_ [I D]], T' as [_ [I' D']]. assert (A := proj2 (extension_in _ _ _ M) (conj I D)). assert (A' := proj2 (extension_in _ _ _ M) (conj I' D')). congruence. }
  injection E as ->. destruct g as [a b], h as [a' b']. cbn in *. f_equal; [apply (C l T "name")|apply (C l T "path")]; auto.
Qed.

(** *** Collecting *)
Section Quote.
Variable quote : string -> string.

(** The keys are the texts of the values, and differ. *)
Definition keyed (m : imports) : Prop := NoDup (map fst m) /\ forall k g, In (k, g) m -> k = import_text quote g.

Lemma put_keyed k g m : keyed m -> k = import_text quote g -> keyed (put k g m).
Proof.
  intros [N K] E. split.
  - clear K. induction m as [|[k' w] m IH]; cbn; [repeat constructor; intros []|]. inversion_clear N as [|? ? N1 N2].
    destruct (String.eqb_spec k k') as [->|D]; cbn; constructor; auto.
    intros I. apply in_map_iff in I as [[j v] [F I]]. cbn in F. subst j. apply put_in in I as [[= A _]|I]; [congruence|]. apply N1. apply (in_map fst) in I. exact I.
  - intros j h I. apply put_in in I as [[= -> ->]|I]; [exact E|exact (K _ _ I)].
Qed.
Lemma put_keys {A} k (v : A) m j : In j (map fst (put k v m)) <-> j = k \/ In j (map fst m).
Proof.
  induction m as [|[k' w] m IH]; cbn; [intuition|]. destruct (String.eqb_spec k k') as [->|D]; cbn; [intuition|]. rewrite IH. intuition.
Qed.
Lemma merge_keyed b : forall a, keyed a -> keyed b -> keyed (mergeImports a b).
Proof.
  unfold mergeImports. induction b as [|[k g] b IH]; intros a A [N K]; [exact A|]. cbn. apply IH.
  - apply put_keyed; [exact A|]. apply K. left. reflexivity.
  - inversion_clear N. split; [assumption|]. intros j h I. apply K. right. exact I.
Qed.
Lemma merge_in b : forall a x, In x (mergeImports a b) -> In x a \/ In x b.
Proof.
  unfold mergeImports. induction b as [|[k g] b IH]; intros a x H; [auto|]. cbn in H. apply IH in H as [H|H]; [|cbn; auto].
  apply put_in in H as [->|H]; cbn; auto.
Qed.
Lemma merge_keys b : forall a j, In j (map fst (mergeImports a b)) <-> In j (map fst a) \/ In j (map fst b).
Proof.
  unfold mergeImports. induction b as [|[k g] b IH]; intros a j; cbn; [tauto|]. rewrite IH, put_keys. intuition.
Qed.

(** What is found, of the schemas that satisfy [P]. *)
Definition finds (P : ischema -> Prop) (m : imports) : Prop :=
  keyed m /\ (forall k g, In (k, g) m -> exists s, P s /\ asks s g) /\
  forall s g, P s -> clear s -> asks s g -> In (import_text quote g) (map fst m).
Lemma finds_merge (P Q : ischema -> Prop) a b : finds P a -> finds Q b -> finds (fun s => P s \/ Q s) (mergeImports a b).
Proof.
  intros [A1 [A2 A3]] [B1 [B2 B3]]. split; [apply merge_keyed; assumption|]. split.
  - intros k g I. apply merge_in in I as [I|I]; [destruct (A2 _ _ I) as [s [? ?]]|destruct (B2 _ _ I) as [s [? ?]]]; exists s; auto.
  - intros s g [H|H] C K; apply merge_keys; eauto.
Qed.
Lemma finds_iff (P Q : ischema -> Prop) m : (forall s, P s <-> Q s) -> finds P m -> finds Q m.
Proof.
  intros E [A [B C]]. split; [exact A|]. split.
  - intros k g I. destruct (B _ _ I) as [s [? ?]]. exists s. split; [apply E; assumption|assumption].
  - intros s g H. apply C. apply E. exact H.
Qed.
Lemma finds_nil (P : ischema -> Prop) : (forall s, ~ P s) -> finds P [].
Proof. intros H. split; [split; [constructor|intros ? ? []]|]. split; [intros ? ? []|]. intros s g K. destruct (H s K). Qed.

(** Either all can be read, or something is faulty. *)
Definition reads (P : ischema -> Prop) (o : outcome imports) : Prop :=
  (exists m, o = Ok m /\ finds P m /\ forall s, P s -> ~ faulty s) \/ (exists t, fails o t /\ exists s, P s /\ unreadable s t).
Lemma reads_iff (P Q : ischema -> Prop) o : (forall s, P s <-> Q s) -> reads P o -> reads Q o.
Proof.
  intros E [[m [-> [F N]]]|[t [X [s [H K]]]]]; [left|right; exists t].
  - exists m. split; [reflexivity|]. split; [exact (finds_iff _ _ _ E F)|]. intros s H. apply N, E, H.
  - split; [exact X|]. exists s. split; [apply E; exact H|exact K].
Qed.

Lemma elsewhere_ref r : isGoTypeReference r = true <-> elsewhere r.
Proof.
  unfold isGoTypeReference, elsewhere, hash. rewrite andb_true_iff, contains_iff. split; [tauto|]. intros H. split; [|exact H].
  destruct H as [a [b ->]]. destruct a; reflexivity.
Qed.

Definition each_props (f : iref -> outcome imports) :=
  fix each (ps : list (string * iref)) (res : imports) : outcome imports :=
    match ps with
    | [] => Ok res
    | (_, p) :: rest => i <- f p ;; each rest (mergeImports res i)
    end.
Lemma each_reads (f : iref -> outcome imports) ps : Forall (fun p => (forall s, looked (snd p) s -> is_map s) -> reads (looked (snd p)) (f (snd p))) ps ->
  (forall n p s, In (n, p) ps -> looked p s -> is_map s) -> forall (P : ischema -> Prop) res, finds P res -> (forall s, P s -> ~ faulty s) ->
  reads (fun s => P s \/ exists n p, In (n, p) ps /\ looked p s) (each_props f ps res).
Proof.
  induction ps as [|[n p] ps IH]; intros F W P res R NF; cbn.
  - left. exists res. split; [reflexivity|]. split; [|intros s [H|[n [p [[] _]]]]; exact (NF s H)].
    apply (finds_iff P); [|exact R]. intros s. split; [auto|]. intros [H|[n [p [[] _]]]]. exact H.
  - inversion_clear F as [|? ? F1 F2]. cbn in F1. destruct (F1 (fun s => W n p s (or_introl eq_refl))) as [[m [-> [M N]]]|[ty [[e [-> TX]] [s [H K]]]]]; cbn.
    + assert (W' : forall n p s, In (n, p) ps -> looked p s -> is_map s) by (intros n' p' s I; exact (W n' p' s (or_intror I))).
      specialize (IH F2 W' _ _ (finds_merge _ _ _ _ R M)).
      eapply reads_iff; [|apply IH].
      * intros s. cbn. split.
        { intros [[H|H]|[n' [p' [I H]]]]; [auto|right; exists n, p; auto|right; exists n', p'; auto]. }
        { intros [Q|[n' [p' [[E|I] Q]]]]; [auto|injection E as <- <-; auto|right; exists n', p'; auto]. }
      * intros s [H|H]; auto.
    + right. exists ty. split; [exists e; auto|]. exists s. split; [|exact K]. right. exists n, p. split; [left; reflexivity|exact H].
Qed.

Lemma imports_exact r : (forall s, looked r s -> is_map s) -> reads (looked r) (goSchemaImports quote r).
Proof.
  induction r as [ref|ref t e ps i a al an on Hps Hi] using iref_ind2; intros W.
  - left. exists []. split; [reflexivity|]. split; [|intros s H; inversion H]. apply finds_nil. intros s H. inversion H.
  - cbn [goSchemaImports]. destruct (isGoTypeReference ref) eqn:R.
    { apply elsewhere_ref in R. left. exists []. split; [reflexivity|]. split; [apply finds_nil|]; intros s H; inversion H; contradiction. }
    assert (NR : ~ elsewhere ref) by (intro C; apply elsewhere_ref in C; congruence).
    assert (L : looked (IRef ref (Some (ISch t e ps i a al an on))) (ISch t e ps i a al an on)) by (constructor; exact NR).
    destruct (parse_spec _ (W _ L)) as [[o [E [NF [A A']]]]|[ty [[x [E TX]] F]]]; cbn [exts_of] in E; rewrite E; cbn [bind].
    2:{ right. exists ty. split; [exists x; auto|]. eexists. split; [exact L|exact F]. }
    set (me := ISch t e ps i a al an on) in *. set (res := match o with Some g => [(import_text quote g, g)] | None => [] end).
    assert (RES : finds (fun s => s = me) res).
    { subst res. destruct o as [g|].
      - split; [split; [repeat constructor; intros []|intros k h [[= <- <-]|[]]; reflexivity]|]. split.
        + intros k h [[= <- <-]|[]]. exists me. split; [reflexivity|]. apply A. reflexivity.
        + intros s h -> C H. left. cbn. f_equal. apply (asks_one me); [exact C|exact (W _ L)|apply A; reflexivity|exact H].
      - split; [split; [constructor|intros ? ? []]|]. split; [intros ? ? []|]. intros s h -> _ H. destruct (A' eq_refl h H). }
    destruct ((t =? "") || (t =? "object"))%string eqn:T.
    + assert (T' : t = "" \/ t = "object") by (apply orb_true_iff in T as [T|T]; apply String.eqb_eq in T; auto).
      change (reads (looked (IRef ref (Some me))) (each_props (goSchemaImports quote) ps res)).
      eapply reads_iff; [|apply (each_reads _ _ Hps) with (P := fun s => s = me)].
      * intros s. split.
        { intros [->|[n [p [I H]]]]; [exact L|]. eapply l_prop; eauto. }
        { intros H. inversion H; subst; [auto|right; eauto|]. destruct T' as [T'|T']; discriminate T'. }
      * intros n p s I H. apply W. eapply l_prop; eauto.
      * exact RES.
      * intros s ->. exact NF.
    + assert (T' : ~ (t = "" \/ t = "object")).
      { intros [-> | ->]; discriminate T. }
      destruct (String.eqb_spec t "array") as [->|D].
      * destruct i as [p|].
        -- destruct (Hi p eq_refl (fun s H => W s (l_item ref e ps p a al an on s NR H))) as [[m [-> [M N]]]|[ty [[x [-> TX]] [s [H K]]]]]; cbn.
           ++ left. eexists. split; [reflexivity|]. split.
              ** eapply finds_iff; [|exact (finds_merge _ _ _ _ RES M)]. intros s. cbn. split.
                 { intros [->|H]; [exact L|]. constructor; assumption. }
                 { intros H. inversion H; subst; auto. tauto. }
              ** intros s H. inversion H; subst; [exact NF|tauto|auto].
           ++ right. exists ty. split; [exists x; auto|]. exists s. split; [constructor; assumption|exact K].
        -- left. exists res. split; [reflexivity|]. split.
           ++ eapply finds_iff; [|exact RES]. intros s. split; [intros ->; exact L|]. intros H. inversion H; subst; [reflexivity|tauto].
           ++ intros s H. inversion H; subst; [exact NF|tauto].
      * left. exists res. split; [reflexivity|]. split.
        -- eapply finds_iff; [|exact RES]. intros s. split; [intros ->; exact L|]. intros H. inversion H; subst; [reflexivity|tauto|contradiction].
        -- intros s H. inversion H; subst; [exact NF|tauto|contradiction].
Qed.
End Quote.
