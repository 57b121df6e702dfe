(** Proofs about RespCase.v. *)
From Coq Require Import Permutation.
From Verif Require Import Prelude Strings Version GenName GenType OpDefs GenNameProofs GenSpellProofs
  GenTypeProofs GenTagProofs GenTypeFacts GoJsonSpec GoJsonProofs RespCase RespCaseSpec.
Local Open Scope string_scope.
Local Open Scope list_scope.

Ltac eqtext W :=
  match type of W with written ?c ?t => match goal with |- written c ?t' => replace t' with t; [exact W|] end end;
  unfold clause_text, line, quoted, nl, quote; rewrite ?str_app_assoc; cbn [append]; rewrite ?str_app_assoc; reflexivity.

(** *** Names of responses *)

Definition codes_ok (p : nat -> bool) : bool := forallb p (seq 100 900).
Lemma codes_all p : codes_ok p = true -> forall k, 100 <= k <= 999 -> p k = true.
Proof. intros H k K. unfold codes_ok in H. rewrite forallb_forall in H. apply H, in_seq. lia. Qed.
Lemma five k : 1 <= k <= 5 -> k = 1 \/ k = 2 \/ k = 3 \/ k = 4 \/ k = 5.
Proof. lia. Qed.

Definition code_facts (k : nat) : bool :=
  negb (String.eqb (itoa k) "default") && negb (stringInArray (itoa k) ["1XX"; "2XX"; "3XX"; "4XX"; "5XX"])
  && Nat.eqb (numeral 0 (itoa k)) k && str_leb (itoa k) (itoa (Nat.div k 100) ++ "XX") && str_leb (itoa k) "default"
  && all alnum (itoa k) && match itoa k with String c (String d (String e "")) => digitc c && digitc e | _ => false end.
Lemma code_all k : 100 <= k <= 999 -> code_facts k = true.
Proof. apply codes_all. vm_compute. reflexivity. Qed.

Lemma itoa_xx k : ~ is_status (itoa k ++ "XX")%string.
Proof.
  intros [j [_ E]]. destruct (itoa_digits j) as [D _]. rewrite <- E in D. rewrite all_app in D.
  apply andb_true_iff in D. destruct D as [_ D]. discriminate.
Qed.
Lemma default_status : ~ is_status "default".
Proof. intros [j [_ E]]. destruct (itoa_digits j) as [D _]. rewrite <- E in D. discriminate. Qed.

Lemma length_app a b : String.length (a ++ b) = String.length a + String.length b.
Proof. induction a as [|c a IH]; [reflexivity|]. cbn. rewrite IH. reflexivity. Qed.
Lemma app_inj_r a b t : (a ++ t)%string = (b ++ t)%string -> a = b.
Proof.
  revert b. induction a as [|c a IH]; intros [|d b] E; [reflexivity| | |].
  - exfalso. apply (f_equal String.length) in E. rewrite !length_app in E. cbn in E. lia.
  - exfalso. apply (f_equal String.length) in E. rewrite !length_app in E. cbn in E. lia.
  - cbn in E. injection E as -> E. f_equal. apply IH, E.
Qed.

Lemma applies_covers n st : valid_name n -> (applies n st = true <-> covers n st).
Proof.
  intros [[k [K ->]]|[[k [K ->]]| ->]].
  - pose proof (code_all k K) as C. unfold code_facts in C. rewrite !andb_true_iff, !negb_true_iff in C.
    destruct C as [[[[[[C1 C2] C3] _] _] _] _]. apply Nat.eqb_eq in C3.
    unfold applies. rewrite C1, C2, C3, Nat.eqb_eq. unfold covers. split.
    + intros ->. left. reflexivity.
    + intros [E|[E|E]].
      * symmetry. apply itoa_inj, E.
      * exfalso. apply (itoa_xx (Nat.div st 100)). exists k. split; [exact K|symmetry; exact E].
      * exfalso. apply default_status. exists k. split; [exact K|symmetry; exact E].
  - assert (Q : applies (itoa k ++ "XX") st = Nat.eqb (Nat.div st 100) k).
    { destruct (five k K) as [-> |[-> |[-> |[-> | ->]]]]; reflexivity. }
    rewrite Q, Nat.eqb_eq. unfold covers. split.
    + intros ->. right. left. reflexivity.
    + intros [E|[E|E]].
      * exfalso. destruct (itoa_digits st) as [D _]. rewrite <- E, all_app in D. apply andb_true_iff in D. destruct D; discriminate.
      * symmetry. apply itoa_inj. exact (app_inj_r _ _ _ E).
      * exfalso. destruct (five k K) as [-> |[-> |[-> |[-> | ->]]]]; discriminate.
  - split; [|reflexivity]. intros _. right. right. reflexivity.
Qed.

(** Among names that cover a status the order of texts is that of closeness. *)
Lemma order_closer a b st : valid_name a -> valid_name b -> covers a st -> covers b st -> str_leb a b = true ->
  b = a \/ closer a b.
Proof.
  intros Va Vb Ca Cb L.
  assert (R : forall k, 1 <= k <= 5 -> str_leb "default" (itoa k ++ "XX") = false).
  { intros k K. destruct (five k K) as [-> |[-> |[-> |[-> | ->]]]]; reflexivity. }
  destruct Ca as [Ea|[Ea|Ea]]; destruct Cb as [Eb|[Eb|Eb]].
  - left. rewrite Ea. exact Eb.
  - right. left. split.
    + destruct Va as [V|[[k [K V]]|V]]; [exact V| |].
      * exfalso. destruct (itoa_digits st) as [D _]. rewrite <- Ea, V, all_app in D. apply andb_true_iff in D. destruct D; discriminate.
      * exfalso. destruct (itoa_digits st) as [D _]. rewrite <- Ea, V in D. discriminate.
    + rewrite Eb. apply itoa_xx.
  - right. right. split; [|exact Eb]. intros E. destruct (itoa_digits st) as [D _]. rewrite <- Ea, E in D. discriminate.
  - exfalso. assert (K : exists k, 100 <= k <= 999 /\ b = itoa k).
    { destruct Vb as [V|[[k [K V]]|V]]; [exact V| |].
      * exfalso. destruct (itoa_digits st) as [D _]. rewrite <- Eb, V, all_app in D. apply andb_true_iff in D. destruct D; discriminate.
      * exfalso. destruct (itoa_digits st) as [D _]. rewrite <- Eb, V in D. discriminate. }
    destruct K as [k [K E]]. assert (k = st) by (apply itoa_inj; rewrite <- E; exact Eb). subst k.
    pose proof (code_all st K) as C. unfold code_facts in C. rewrite !andb_true_iff in C.
    destruct C as [[[[[_ _] C] _] _] _]. assert (Q : a = b).
    { apply leb_antisym; [exact L|]. rewrite Ea, Eb. exact C. }
    apply (itoa_xx (Nat.div st 100)). exists st. split; [exact K|]. rewrite <- Ea, Q. exact Eb.
  - left. rewrite Ea. exact Eb.
  - right. right. split; [|exact Eb]. intros E. destruct Va as [[k [K V]]|[[k [K V]]|V]].
    + apply default_status. exists k. split; [exact K|]. rewrite <- E. exact V.
    + specialize (R k K). rewrite <- V, E in R. discriminate.
    + rewrite Ea in V. clear - V. destruct (itoa_digits (Nat.div st 100)) as [D N].
      destruct (itoa (Nat.div st 100)) as [|c r]; [contradiction|]. cbn in D, V. injection V as -> _. discriminate.
  - exfalso. assert (str_leb b a = true /\ is_status b).
    { destruct Vb as [[k [K V]]|[[k [K V]]|V]].
      * pose proof (code_all k K) as C. unfold code_facts in C. rewrite !andb_true_iff in C.
        destruct C as [[[_ C] _] _]. rewrite V, Ea. split; [exact C|]. exists k. split; [exact K|reflexivity].
      * exfalso. destruct (itoa_digits st) as [D _]. rewrite <- Eb, V, all_app in D. apply andb_true_iff in D. destruct D; discriminate.
      * exfalso. destruct (itoa_digits st) as [D _]. rewrite <- Eb, V in D. discriminate. }
    destruct H as [H1 H2]. assert (Q : a = b) by (apply leb_antisym; assumption). apply default_status. rewrite <- Ea, Q. exact H2.
  - exfalso. destruct Vb as [V|[[k [K V]]|V]].
    + rewrite Eb in V. exact (itoa_xx _ V).
    + specialize (R k K). rewrite <- V, <- Ea, L in R. discriminate.
    + rewrite Eb in V. clear - V. destruct (itoa_digits (Nat.div st 100)) as [D N].
      destruct (itoa (Nat.div st 100)) as [|c r]; [contradiction|]. cbn in D, V. injection V as -> _. discriminate.
  - left. rewrite Ea. exact Eb.
Qed.

(** Camel case leaves names as they are but for the default. *)
Lemma camel_valid u n : valid_name n -> toCamelCase u n = (if String.eqb n "default" then "Default" else n)%string.
Proof.
  intros [[k [K ->]]|[[k [K ->]]| ->]].
  - assert (Q : (all is_ascii (itoa k) && String.eqb (camel_str true (itoa k)) (itoa k) && negb (String.eqb (itoa k) "default")) = true).
    { revert k K. apply (codes_all (fun k => all is_ascii (itoa k) && String.eqb (camel_str true (itoa k)) (itoa k)
        && negb (String.eqb (itoa k) "default"))). vm_compute. reflexivity. }
    rewrite !andb_true_iff, negb_true_iff, String.eqb_eq in Q. destruct Q as [[Q1 Q2] Q3].
    rewrite (toCamel_str u _ Q1), Q2, Q3. reflexivity.
  - destruct (five k K) as [-> |[-> |[-> |[-> | ->]]]]; rewrite toCamel_str by reflexivity; reflexivity.
  - rewrite toCamel_str by reflexivity. reflexivity.
Qed.
Lemma camel_status u a b : valid_name a -> valid_name b -> toCamelCase u a = toCamelCase u b -> a = b.
Proof.
  intros Va Vb E. rewrite (camel_valid u a Va), (camel_valid u b Vb) in E.
  assert (D : ~ valid_name "Default").
  { intros [[k [K Q]]|[[k [K Q]]|Q]]; [|destruct (five k K) as [-> |[-> |[-> |[-> | ->]]]]; discriminate|discriminate].
    destruct (itoa_digits k) as [G _]. rewrite <- Q in G. discriminate. }
  destruct (String.eqb_spec a "default") as [->|Na]; destruct (String.eqb_spec b "default") as [->|Nb]; try congruence.
Qed.

(** *** Kinds of contents *)

Lemma in_array s l : stringInArray s l = true <-> In s l.
Proof.
  unfold stringInArray. rewrite existsb_exists. split.
  - intros [x [I E]]. apply String.eqb_eq in E. subst x. exact I.
  - intros I. exists s. split; [exact I|apply String.eqb_refl].
Qed.

Lemma known_word c w : In (c, w) known ->
  (w = "json" /\ stringInArray c contentTypesJSON = true) \/
  (w = "yaml" /\ stringInArray c contentTypesJSON || isMediaTypeJson c = false /\ stringInArray c contentTypesYAML = true) \/
  (w = "xml" /\ stringInArray c contentTypesJSON || isMediaTypeJson c = false /\ stringInArray c contentTypesYAML = false
   /\ stringInArray c contentTypesXML = true).
Proof.
  intros I. cbn [known In] in I.
  repeat (destruct I as [I|I]; [injection I as <- <-; vm_compute; tauto|]). destruct I.
Qed.
Lemma word_known c : 
  (stringInArray c contentTypesJSON = true -> In (c, "json") known) /\
  (stringInArray c contentTypesYAML = true -> In (c, "yaml") known) /\
  (stringInArray c contentTypesXML = true -> In (c, "xml") known).
Proof.
  repeat split; intros H; apply in_array in H; cbn [In contentTypesJSON contentTypesYAML contentTypesXML] in H;
    repeat (destruct H as [H|H]; [subst c; cbn; tauto|]); destruct H.
Qed.

Section Reading.
Context {T : Type}.
Variable u : unicode.
Variable ref : T -> string.
Variable goSchema : T -> list string -> outcome (string * string).

Lemma typeName_known c n t : typeName u c n = Some t <->
  exists w p, In (c, w) known /\ In (w, p) words /\ t = (p ++ toCamelCase u n)%string.
Proof.
  unfold typeName. destruct (word_known c) as [W1 [W2 W3]]. split.
  - destruct (stringInArray c contentTypesJSON) eqn:E1.
    { intros E. injection E as <-. exists "json", "JSON". cbn [words In]. auto 9. }
    destruct (stringInArray c contentTypesYAML) eqn:E2.
    { intros E. injection E as <-. exists "yaml", "YAML". cbn [words In]. auto 9. }
    destruct (stringInArray c contentTypesXML) eqn:E3; [|discriminate].
    intros E. injection E as <-. exists "xml", "XML". cbn [words In]. auto 9.
  - intros [w [p [I [J ->]]]]. destruct (known_word c w I) as [[-> K]|[[-> [K1 K2]]|[-> [K1 [K2 K3]]]]].
    + rewrite K. cbn [words In] in J. destruct J as [J|[J|[J|[]]]]; try discriminate. injection J as <-. reflexivity.
    + apply orb_false_iff in K1. destruct K1 as [-> _]. rewrite K2.
      cbn [words In] in J. destruct J as [J|[J|[J|[]]]]; try discriminate. injection J as <-. reflexivity.
    + apply orb_false_iff in K1. destruct K1 as [-> _]. rewrite K2, K3.
      cbn [words In] in J. destruct J as [J|[J|[J|[]]]]; try discriminate. injection J as <-. reflexivity.
Qed.

(** *** The types of responses *)

Notation content1 := (contentTypes1 u ref goSchema).
Notation contentsOf := (contentTypes u ref goSchema).
Notation typesOf := (responseTypes u ref goSchema).

Lemma wrapping_ok {A} t (o : outcome A) x : wrapping t o = Ok x <-> o = Ok x.
Proof. destruct o; cbn; split; intros H; try discriminate; exact H. Qed.

Definition defined (n c : string) (s : T) (d : rtype) : Prop :=
  r_status d = n /\ r_media d = c /\ typeName u c n = Some (r_type d) /\ declared u ref goSchema s n (r_decl d).

Lemma content1_ok op n c s l : content1 op n c s = Ok l ->
  (l = [] /\ (s = None \/ typeName u c n = None)) \/ exists x d, s = Some x /\ l = [d] /\ defined n c x d.
Proof.
  unfold contentTypes1. destruct s as [s|]; [|intros E; injection E as <-; auto].
  destruct (wrapping _ (goSchema s [n])) as [[g r]| | |] eqn:G; cbn [bind]; try discriminate.
  apply wrapping_ok in G. destruct (typeName u c n) as [t|] eqn:N; [|intros E; injection E as <-; auto].
  destruct (isGoTypeReference (ref s)) eqn:R.
  - destruct (wrapping _ (refPathToGoType u (ref s))) as [x| | |] eqn:Q; cbn [bind]; try discriminate.
    apply wrapping_ok in Q. intros E. injection E as <-. right. exists s, (mkRType t (typeDecl g x) n c).
    repeat split; [exact N|]. exists g, r, x. rewrite R. auto.
  - cbn [bind snd fst]. intros E. injection E as <-. right. exists s, (mkRType t (typeDecl g r) n c).
    repeat split; [exact N|]. exists g, r, r. rewrite R. auto.
Qed.

Lemma declared_fun s n d d' : declared u ref goSchema s n d -> declared u ref goSchema s n d' -> d = d'.
Proof.
  intros [g [r [t [E [R ->]]]]] [g' [r' [t' [E' [R' ->]]]]]. rewrite E in E'. injection E' as <- <-.
  destruct (isGoTypeReference (ref s)).
  - rewrite R in R'. injection R' as <-. reflexivity.
  - subst t t'. reflexivity.
Qed.

Lemma contents_in op n l ds : contentsOf op n l = Ok ds -> forall d,
  In d ds <-> exists c s, In (c, Some s) l /\ defined n c s d.
Proof.
  revert ds. induction l as [|[c s] l IH]; intros ds E d.
  { injection E as <-. split; [intros []|intros [? [? [[] _]]]]. }
  cbn [contentTypes] in E. destruct (content1 op n c s) as [t| | |] eqn:E1; cbn [bind] in E; try discriminate.
  destruct (contentsOf op n l) as [ts| | |] eqn:E2; cbn [bind] in E; try discriminate. injection E as <-.
  rewrite in_app_iff, (IH ts eq_refl d). apply content1_ok in E1. split.
  - intros [I|[c' [s' [I D]]]]; [|exists c', s'; cbn; auto].
    destruct E1 as [[-> _]|[x [d' [-> [-> D]]]]]; [destruct I|]. destruct I as [<-|[]]. exists c, x. cbn. auto.
  - intros [c' [s' [[I|I] D]]]; [|right; exists c', s'; auto]. injection I as -> ->. left.
    destruct D as [D1 [D2 [D3 D4]]].
    destruct E1 as [[_ [Q|Q]]|[x [d' [Q [-> [F1 [F2 [F3 F4]]]]]]]]; try congruence. injection Q as ->.
    left. destruct d as [a1 a2 a3 a4], d' as [b1 b2 b3 b4]. cbn in *. rewrite (declared_fun _ _ _ _ D4 F4). congruence.
Qed.

Lemma types_in op l ds : typesOf op l = Ok ds -> forall d,
  In d ds <-> exists n cs c s, In (n, Some cs) l /\ In (c, Some s) cs /\ defined n c s d.
Proof.
  revert ds. induction l as [|[n v] l IH]; intros ds E d.
  { injection E as <-. split; [intros []|intros [? [? [? [? [[] _]]]]]]. }
  cbn [responseTypes] in E.
  destruct (match v with None => Ok [] | Some cs => contentsOf op n (by_key cs) end) as [t| | |] eqn:E1; cbn [bind] in E; try discriminate.
  destruct (typesOf op l) as [ts| | |] eqn:E2; cbn [bind] in E; try discriminate. injection E as <-.
  rewrite in_app_iff, (IH ts eq_refl d). split.
  - intros [I|[n' [cs [c [s [I D]]]]]]; [|exists n', cs, c, s; cbn; tauto].
    destruct v as [cs|]; [|injection E1 as <-; destruct I].
    rewrite (contents_in _ _ _ _ E1 d) in I. destruct I as [c [s [I D]]]. rewrite by_key_in in I.
    exists n, cs, c, s. cbn. auto.
  - intros [n' [cs [c [s [[I|I] [J D]]]]]]; [|right; exists n', cs, c, s; auto]. injection I as -> ->. left.
    rewrite (contents_in _ _ _ _ E1 d). exists c, s. rewrite by_key_in. auto.
Qed.

(** Types of the same response come in the order of their contents. *)
Definition in_order (a b : rtype) : Prop :=
  r_status a = r_status b -> str_leb (r_media a) (r_media b) = true /\ r_media a <> r_media b.

Lemma pairs_app {A} (P : A -> A -> Prop) a b : ForallOrdPairs P a -> ForallOrdPairs P b ->
  (forall x y, In x a -> In y b -> P x y) -> ForallOrdPairs P (a ++ b).
Proof.
  intros Ha Hb H. induction Ha as [|x a F Ha IH]; [exact Hb|]. cbn. constructor.
  - apply Forall_app. split; [exact F|]. apply Forall_forall. intros y I. apply H; [left; reflexivity|exact I].
  - apply IH. intros x' y I J. apply H; [right; exact I|exact J].
Qed.

Lemma contents_order op n l ds : increasing (map fst l) -> contentsOf op n l = Ok ds -> ForallOrdPairs in_order ds.
Proof.
  revert ds. induction l as [|[c s] l IH]; intros ds O E.
  { injection E as <-. constructor. }
  cbn [contentTypes] in E. destruct (content1 op n c s) as [t| | |] eqn:E1; cbn [bind] in E; try discriminate.
  destruct (contentsOf op n l) as [ts| | |] eqn:E2; cbn [bind] in E; try discriminate. injection E as <-.
  cbn [map fst increasing] in O. destruct O as [O1 O2]. apply content1_ok in E1.
  destruct E1 as [[-> _]|[x [d [-> [-> D]]]]]; [apply IH; [exact O2|reflexivity]|].
  cbn. constructor; [|apply IH; [exact O2|reflexivity]]. apply Forall_forall. intros d' I _.
  apply (contents_in _ _ _ _ E2) in I. destruct I as [c' [s' [I D']]]. destruct D as [_ [-> _]]. destruct D' as [_ [-> _]].
  apply O1. exact (List.in_map fst _ _ I).
Qed.

Lemma types_order op (l : responses T) ds : NoDup (map fst l) -> (forall n (cs : contents T), In (n, Some cs) l -> NoDup (map fst cs)) ->
  typesOf op l = Ok ds -> ForallOrdPairs in_order ds.
Proof.
  revert ds. induction l as [|[n v] l IH]; intros ds O C E.
  { injection E as <-. constructor. }
  cbn [responseTypes] in E.
  destruct (match v with None => Ok [] | Some cs => contentsOf op n (by_key cs) end) as [t| | |] eqn:E1; cbn [bind] in E; try discriminate.
  destruct (typesOf op l) as [ts| | |] eqn:E2; cbn [bind] in E; try discriminate. injection E as <-.
  inversion O as [|? ? O1 O2]; subst. apply pairs_app.
  - destruct v as [cs|]; [|injection E1 as <-; constructor]. eapply contents_order; [|exact E1].
    apply by_key_increasing, (C n). left. reflexivity.
  - apply IH; [exact O2| |reflexivity]. intros n' cs' I. apply (C n'). right. exact I.
  - intros x y I J Q. exfalso. destruct v as [cs|]; [|injection E1 as <-; destruct I].
    apply (contents_in _ _ _ _ E1) in I. apply (types_in _ _ _ E2) in J.
    destruct I as [c [s [_ [D _]]]]. destruct J as [n' [cs' [c' [s' [J [_ [D' _]]]]]]].
    apply O1. rewrite <- D, Q, D'. exact (List.in_map fst _ _ J).
Qed.

(** *** The cases *)

Definition word_of (c : string) : string :=
  if stringInArray c contentTypesJSON || isMediaTypeJson c then "json"
  else if stringInArray c contentTypesYAML then "yaml" else "xml".
Definition key (d : rtype) : string := read_key (word_of (r_media d)) (r_status d).
Definition case (d : rtype) : clause := Reads (word_of (r_media d)) (r_status d) (r_decl d) (r_type d).

Lemma word_of_known c w : In (c, w) known -> w = word_of c.
Proof.
  intros I. unfold word_of. destruct (known_word c w I) as [[-> K]|[[-> [K1 K2]]|[-> [K1 [K2 K3]]]]].
  - rewrite K. reflexivity.
  - rewrite K1, K2. reflexivity.
  - rewrite K1, K2. reflexivity.
Qed.

Definition leaving (m : list (string * clause)) : Prop := Forall (fun e => exists n t, snd e = Leaves n t) m.
Lemma put_leaving k n t m : leaving m -> leaving (put k (Leaves n t) m).
Proof.
  intros H. constructor; [exists n, t; reflexivity|]. apply Forall_forall. intros e I. apply filter_In in I.
  unfold leaving in H. rewrite Forall_forall in H. apply H. tauto.
Qed.

Definition plain_type (d : rtype) : Prop :=
  exists w p, In (r_media d, w) known /\ In (w, p) words /\ r_type d = (p ++ toCamelCase u (r_status d))%string.

Lemma one_case d m c : plain_type d ->
  fst (unmarshal1 d m c) = (if String.eqb (r_media d) c then put (key d) (case d) (fst m) else fst m) /\
  (leaving (snd m) -> leaving (snd (unmarshal1 d m c))).
Proof.
  intros [w [p [I [J Q]]]]. unfold unmarshal1.
  assert (A : String.eqb (r_type d) "any" = false).
  { rewrite Q. cbn [words In] in J. destruct J as [J|[J|[J|[]]]]; injection J as <- <-; reflexivity. }
  rewrite A. unfold key, case. destruct (String.eqb_spec (r_media d) c) as [<-|N].
  - rewrite <- (word_of_known _ _ I).
    destruct (known_word _ _ I) as [[-> K]|[[-> [K1 K2]]|[-> [K1 [K2 K3]]]]].
    + rewrite K. cbn. auto.
    + rewrite K1, K2. cbn. auto.
    + rewrite K1, K2, K3. cbn. auto.
  - destruct (stringInArray c contentTypesJSON || isMediaTypeJson c); [auto|].
    destruct (stringInArray c contentTypesYAML); [auto|].
    destruct (stringInArray c contentTypesXML); [auto|]. cbn [fst snd]. split; [reflexivity|]. apply put_leaving.
Qed.

Lemma put_put k c m : put k c (put k c m) = put k c m.
Proof.
  unfold put. cbn [filter fst]. rewrite String.eqb_refl. cbn [negb]. f_equal. induction m as [|e m IH]; [reflexivity|].
  cbn [filter]. destruct (negb (String.eqb (fst e) k)) eqn:E; cbn [filter]; rewrite ?E, IH; reflexivity.
Qed.

Lemma all_cases d l : plain_type d -> forall m,
  fst (fold_left (unmarshal1 d) l m) = (if stringInArray (r_media d) l then put (key d) (case d) (fst m) else fst m) /\
  (leaving (snd m) -> leaving (snd (fold_left (unmarshal1 d) l m))).
Proof.
  intros P. induction l as [|c l IH]; intros m; [cbn; auto|]. cbn [fold_left stringInArray existsb].
  destruct (IH (unmarshal1 d m c)) as [H1 H2]. destruct (one_case d m c P) as [G1 G2]. split; [|auto].
  rewrite H1, G1. change (existsb (String.eqb (r_media d)) l) with (stringInArray (r_media d) l).
  destruct (String.eqb (r_media d) c); cbn [orb]; [|reflexivity].
  destruct (stringInArray (r_media d) l); [apply put_put|reflexivity].
Qed.

Lemma lookup_found {A} (l : list (string * A)) k v : NoDup (map fst l) -> In (k, v) l -> lookup l k = Some v.
Proof.
  intros N I. unfold lookup. induction l as [|[k' v'] l IH]; [destruct I|]. inversion N as [|? ? N1 N2]; subst.
  cbn [find fst]. destruct (String.eqb_spec k' k) as [->|D].
  - destruct I as [E|I]; [injection E as ->; reflexivity|]. exfalso. apply N1. exact (List.in_map fst _ _ I).
  - destruct I as [E|I]; [injection E as -> ->; contradiction|]. apply IH; assumption.
Qed.

Lemma outer_case rs d m : (exists cs s, lookup rs (r_status d) = Some (Some cs) /\ In (r_media d, Some s) cs) -> plain_type d ->
  fst (unmarshal (T:=T) rs m d) = put (key d) (case d) (fst m) /\ (leaving (snd m) -> leaving (snd (unmarshal rs m d))).
Proof.
  intros [cs [s [L I]]] P. unfold unmarshal. unfold contents in L |- *. rewrite L. destruct cs as [|x cs]; [destruct I|].
  destruct (all_cases d (map fst (by_key (x :: cs))) P m) as [H1 H2]. split; [|exact H2].
  rewrite H1. assert (Q : stringInArray (r_media d) (map fst (by_key (x :: cs))) = true).
  { apply in_array. assert (J : In (r_media d, Some s) (by_key (x :: cs))) by (apply by_key_in; exact I).
    exact (List.in_map fst _ _ J). }
  rewrite Q. reflexivity.
Qed.

Definition filled (ds : list rtype) : list (string * clause) := fold_left (fun m d => put (key d) (case d) m) ds [].

Lemma outer_cases rs ds : Forall (fun d => (exists cs s, lookup rs (r_status d) = Some (Some cs) /\ In (r_media d, Some s) cs) /\ plain_type d) ds ->
  forall m, fst (fold_left (unmarshal (T:=T) rs) ds m) = fold_left (fun m d => put (key d) (case d) m) ds (fst m) /\
    (leaving (snd m) -> leaving (snd (fold_left (unmarshal rs) ds m))).
Proof.
  intros F. induction F as [|d ds [H1 H2] F IH]; intros m; [cbn; auto|]. cbn [fold_left].
  destruct (outer_case rs d m H1 H2) as [G1 G2]. destruct (IH (unmarshal rs m d)) as [I1 I2]. split; [|auto].
  rewrite I1, G1. reflexivity.
Qed.

(** An entry is of the last type with its key. *)
Lemma filled_in ds : forall m k c, NoDup (map fst m) ->
  NoDup (map fst (fold_left (fun m d => put (key d) (case d) m) ds m)) /\
  (In (k, c) (fold_left (fun m d => put (key d) (case d) m) ds m) <->
   (exists pre d post, ds = pre ++ d :: post /\ key d = k /\ case d = c /\ forall d', In d' post -> key d' <> k) \/
   (In (k, c) m /\ forall d', In d' ds -> key d' <> k)).
Proof.
  induction ds as [|d ds IH]; intros m k c N.
  { cbn. split; [exact N|]. split; [intros I; right; split; [exact I|intros d' []]|].
    intros [[pre [d [post [E _]]]]|[I _]]; [destruct pre; discriminate|exact I]. }
  cbn [fold_left].
  assert (N' : NoDup (map fst (put (key d) (case d) m))).
  { unfold put. cbn [map fst]. constructor.
    - intros I. apply in_map_iff in I. destruct I as [e [E I]]. apply filter_In in I. destruct I as [_ I].
      rewrite E, String.eqb_refl in I. discriminate.
    - clear - N. induction m as [|e m IH]; [constructor|]. inversion N as [|? ? N1 N2]; subst. cbn [filter].
      destruct (negb _); [|apply IH, N2]. cbn [map]. constructor; [|apply IH, N2]. intros I. apply N1.
      apply in_map_iff in I. destruct I as [x [<- I]]. apply filter_In in I. apply List.in_map. tauto. }
  destruct (IH (put (key d) (case d) m) k c N') as [H1 H2]. split; [exact H1|]. rewrite H2. clear H1 H2 IH. split.
  - intros [[pre [x [post [E R]]]]|[I R]].
    + left. exists (d :: pre), x, post. rewrite E. auto.
    + unfold put in I. destruct I as [I|I].
      * injection I as <- <-. left. exists [], d, ds. auto.
      * apply filter_In in I. destruct I as [I J]. right. split; [exact I|]. intros d' [<-|K]; [|apply R, K].
        intros E. cbn [fst] in J. rewrite <- E, String.eqb_refl in J. discriminate.
  - intros [[pre [x [post [E [K [C R]]]]]]|[I R]].
    + destruct pre as [|y pre]; injection E as -> ->.
      * right. split; [|exact R]. unfold put. left. congruence.
      * left. exists pre, x, post. auto.
    + right. split; [|intros d' J; apply R; right; exact J]. unfold put. right. apply filter_In. split; [exact I|].
      cbn [fst]. apply negb_true_iff, String.eqb_neq. intros E. apply (R d (or_introl eq_refl)). symmetry. exact E.
Qed.

(** *** Running *)

Definition holds (status : nat) (header : string) (c : clause) : bool :=
  match c with Reads w n _ _ => contains header w && applies n status | Leaves _ _ => false end.

Lemma run_leaving l st h : leaving l -> run (map snd l) st h = None.
Proof.
  intros H. induction H as [|e l [n [t E]] H IH]; [reflexivity|]. cbn [map run]. rewrite E. destruct (applies n st); [reflexivity|exact IH].
Qed.

Lemma run_case d r st h :
  run (case d :: r) st h = if holds st h (case d) then Some (word_of (r_media d), r_decl d, r_type d) else run r st h.
Proof. reflexivity. Qed.

Lemma run_first l l2 st h : leaving l2 -> sorted (map fst l) -> Forall (fun e => exists d, snd e = case d) l ->
  (exists k w n d f, In (k, Reads w n d f) l /\ holds st h (Reads w n d f) = true /\
     run (map snd l ++ map snd l2) st h = Some (w, d, f) /\
     forall k' c', In (k', c') l -> holds st h c' = true -> (k', c') = (k, Reads w n d f) \/ str_leb k k' = true) \/
  (run (map snd l ++ map snd l2) st h = None /\ forall k c, In (k, c) l -> holds st h c = false).
Proof.
  intros L. induction l as [|[k c] l IH]; intros O F.
  { right. cbn. split; [apply run_leaving, L|intros k c []]. }
  cbn [map fst] in O. inversion O as [|? ? O1 O2]; subst. inversion F as [|? ? [d E] F2]; subst. cbn [snd] in E. subst c.
  cbn [map snd app]. rewrite !run_case.
  destruct (holds st h (case d)) eqn:H.
  - left. exists k, (word_of (r_media d)), (r_status d), (r_decl d), (r_type d). split; [left; reflexivity|].
    split; [exact H|]. split; [reflexivity|]. intros k' c' [I|I] _; [left; symmetry; exact I|]. right. apply O1. exact (List.in_map fst _ _ I).
  - destruct (IH O2 F2) as [[k' [w [n [x [f [I1 [I2 [I3 I4]]]]]]]]|[I1 I2]].
    + left. exists k', w, n, x, f. split; [right; exact I1|]. split; [exact I2|]. split; [exact I3|].
      intros k2 c2 [J|J] Q; [injection J as <- <-; congruence|]. apply I4; assumption.
    + right. split; [exact I1|]. intros k2 c2 [J|J]; [injection J as <- <-; exact H|]. eapply I2, J.
Qed.

(** *** Keys *)

Lemma leb_app p a b : str_leb (p ++ a) (p ++ b) = str_leb a b.
Proof. induction p as [|c p IH]; [reflexivity|]. cbn. rewrite Ascii.eqb_refl. exact IH. Qed.

Lemma key_order w n w' n' : In w (map fst words) -> In w' (map fst words) -> str_leb (read_key w n) (read_key w' n') = true ->
  place w < place w' \/ (w = w' /\ str_leb n n' = true).
Proof.
  intros I J L. cbn in I, J. destruct I as [<-|[<-|[<-|[]]]]; destruct J as [<-|[<-|[<-|[]]]];
    try (left; cbn; lia); try (vm_compute in L; discriminate);
    right; (split; [reflexivity|]); exact L.
Qed.
Lemma key_inj w n w' n' : In w (map fst words) -> In w' (map fst words) -> read_key w n = read_key w' n' -> w = w' /\ n = n'.
Proof.
  intros I J L. cbn in I, J. destruct I as [<-|[<-|[<-|[]]]]; destruct J as [<-|[<-|[<-|[]]]]; try discriminate;
    (split; [reflexivity|]); injection L as L; exact L.
Qed.

Lemma known_words c w : In (c, w) known -> In w (map fst words).
Proof. intros I. cbn [known In] in I. repeat (destruct I as [I|I]; [injection I as <- <-; cbn; tauto|]). destruct I. Qed.

Lemma word_once w p p' : In (w, p) words -> In (w, p') words -> p = p'.
Proof. intros I J. cbn in I, J. destruct I as [I|[I|[I|[]]]]; destruct J as [J|[J|[J|[]]]]; congruence. Qed.

(** *** The theorem *)

Section Given.
Variable op : string.
Variable rs : responses T.
Hypothesis PR : proper rs.
Variable ds : list rtype.
Hypothesis DS : getResponseTypeDefinitions u ref goSchema op rs = Ok ds.

Lemma ds_in d : In d ds <-> exists n cs c s, In (n, Some cs) rs /\ In (c, Some s) cs /\ defined n c s d.
Proof.
  rewrite (types_in _ _ _ DS d). split; intros [n [cs [c [s [I J]]]]]; exists n, cs, c, s; [rewrite by_key_in in I|rewrite by_key_in]; auto.
Qed.

Lemma ds_content d : In d ds -> exists w p, In (w, p) words /\ has_content u ref goSchema rs (r_status d) w (r_media d) (r_decl d) /\
  w = word_of (r_media d) /\ r_type d = (p ++ toCamelCase u (r_status d))%string.
Proof.
  intros I. apply ds_in in I. destruct I as [n [cs [c [s [I [J [D1 [D2 [D3 D4]]]]]]]]]. subst n c.
  apply typeName_known in D3. destruct D3 as [w [p [K1 [K2 K3]]]]. exists w, p. split; [exact K2|].
  split; [exists cs, s; auto|]. split; [apply word_of_known, K1|exact K3].
Qed.

Lemma content_ds n w c x : has_content u ref goSchema rs n w c x ->
  exists d, In d ds /\ r_status d = n /\ r_media d = c /\ r_decl d = x /\ w = word_of c.
Proof.
  intros [cs [s [I [J [K D]]]]].
  assert (P : exists p, In (w, p) words).
  { pose proof (known_words _ _ K) as W. apply in_map_iff in W. destruct W as [[w' p] [<- W]]. exists p. exact W. }
  destruct P as [p P]. exists (mkRType (p ++ toCamelCase u n) x n c). split.
  - apply ds_in. exists n, cs, c, s. repeat split; try assumption. apply typeName_known. exists w, p. auto.
  - repeat split. apply word_of_known, K.
Qed.

Lemma ds_once d d' : In d ds -> In d' ds -> r_status d = r_status d' -> r_media d = r_media d' -> d = d'.
Proof.
  intros I I' E F. apply ds_in in I, I'. destruct I as [n [cs [c [s [I [J [D1 [D2 [D3 D4]]]]]]]]].
  destruct I' as [n' [cs' [c' [s' [I' [J' [D1' [D2' [D3' D4']]]]]]]]].
  assert (En : n' = n) by congruence. assert (Ec : c' = c) by congruence. rewrite En in *. rewrite Ec in *.
  destruct PR as [N1 [_ N2]].
  assert (Q : forall (A : Type) (l : list (string * A)) k v v', NoDup (map fst l) -> In (k, v) l -> In (k, v') l -> v = v').
  { intros A l k v v' N X X'. apply (lookup_found _ _ _ N) in X, X'. congruence. }
  pose proof (Q _ _ _ _ _ N1 I I') as E1. injection E1 as <-.
  pose proof (Q _ _ _ _ _ (N2 _ _ I) J J') as E2. injection E2 as <-.
  destruct d as [a1 a2 a3 a4], d' as [b1 b2 b3 b4]. cbn in *. rewrite (declared_fun _ _ _ _ D4 D4'). congruence.
Qed.

Lemma ds_order : ForallOrdPairs in_order ds.
Proof.
  eapply types_order; [| |exact DS]; [apply by_key_nodup, PR|]. intros n cs I. rewrite by_key_in in I. destruct PR as [_ [_ C]].
  apply (C _ _ I).
Qed.

Lemma cases_filled : exists l2, leaving l2 /\
  responseCases u ref goSchema op rs = Ok (map snd (by_key (filled ds)) ++ map snd l2).
Proof.
  unfold responseCases. rewrite DS.
  destruct (outer_cases rs ds) with (m := (@nil (string * clause), @nil (string * clause))) as [H1 H2].
  { apply Forall_forall. intros d I. destruct (ds_content d I) as [w [p [W [[cs [s [J [K [L _]]]]] [_ F]]]]]. split.
    - exists cs, s. split; [|exact K]. destruct PR as [N _]. apply lookup_found; assumption.
    - exists w, p. auto. }
  eexists. split; [|rewrite H1; reflexivity].
  apply Forall_forall. intros e I. rewrite by_key_in in I.
  assert (L : leaving (snd (fold_left (unmarshal rs) ds (@nil (string * clause), @nil (string * clause))))) by (apply H2; constructor).
  unfold leaving in L. rewrite Forall_forall in L. apply L, I.
Qed.

Lemma filled_offer k w n x f : In (k, Reads w n x f) (filled ds) -> exists c, offers u ref goSchema rs n w c x /\
  k = read_key w n /\ exists p, In (w, p) words /\ f = (p ++ toCamelCase u n)%string.
Proof.
  intros I. destruct (filled_in ds [] k (Reads w n x f) (NoDup_nil _)) as [_ F]. apply F in I.
  destruct I as [[pre [d [post [E [K [C R]]]]]]|[[] _]].
  assert (D : In d ds) by (rewrite E; apply in_or_app; right; left; reflexivity).
  destruct (ds_content d D) as [w' [p [W [H [Ew Ef]]]]]. unfold case in C. injection C as C1 C2 C3 C4.
  subst n x f w. unfold key in K. rewrite <- Ew in K |- *. exists (r_media d). split; [|split].
  - split; [exact H|]. intros c' x' H'. destruct (content_ds _ _ _ _ H') as [d' [D' [E1 [E2 [E3 E4]]]]].
    rewrite E in D'. apply in_app_or in D'. destruct D' as [D'|[<-|D']].
    + assert (O : ForallOrdPairs in_order ds).
      { exact ds_order. }
      rewrite E in O. clear - O D' E1 E2. subst c'. induction pre as [|y pre IH]; [destruct D'|].
      cbn in O. inversion O as [|? ? O1 O2]; subst. destruct D' as [->|D']; [|apply IH; assumption].
      rewrite Forall_forall in O1. apply (O1 d); [|exact E1]. apply in_or_app. right. left. reflexivity.
    + rewrite E2. destruct (str_leb c' c') eqn:Q; [reflexivity|]. pose proof (leb_total _ _ Q). congruence.
    + exfalso. apply (R d' D'). unfold key. rewrite E1, E2, <- E4. exact K.
  - symmetry. exact K.
  - exists p. auto.
Qed.

Lemma offer_filled n w c x : offers u ref goSchema rs n w c x -> exists x' f, In (read_key w n, Reads w n x' f) (filled ds).
Proof.
  intros [H _]. destruct (content_ds _ _ _ _ H) as [d [D [E1 [E2 [E3 E4]]]]].
  assert (Q : forall l, In d l -> exists pre d' post, l = pre ++ d' :: post /\ key d' = key d /\ forall x, In x post -> key x <> key d).
  { clear. intros l. induction l as [|y l IH]; [intros []|]. intros I.
    destruct (in_dec string_dec (key d) (map key l)) as [J|J].
    - apply in_map_iff in J. destruct J as [z [Ez J]].
      assert (G : forall l, In (key d) (map key l) -> exists pre d' post, l = pre ++ d' :: post /\ key d' = key d /\ forall x, In x post -> key x <> key d).
      { clear. intros l. induction l as [|y l IH]; [intros []|]. intros I.
        destruct (in_dec string_dec (key d) (map key l)) as [J|J].
        - destruct (IH J) as [pre [d' [post [-> R]]]]. exists (y :: pre), d', post. auto.
        - destruct I as [I|I]; [|contradiction]. exists [], y, l. split; [reflexivity|]. split; [exact I|].
          intros x K E. apply J. rewrite <- E. apply List.in_map, K. }
      destruct (G l) as [pre [d' [post [-> R]]]]; [rewrite <- Ez; apply List.in_map, J|]. exists (y :: pre), d', post. auto.
    - exists [], y, l. split; [reflexivity|]. assert (E : y = d).
      { destruct I as [I|I]; [exact I|]. exfalso. apply J, List.in_map, I. }
      subst y. split; [reflexivity|]. intros x K E. apply J. rewrite <- E. apply List.in_map, K. }
  destruct (Q ds D) as [pre [d' [post [E [K R]]]]].
  assert (D' : In d' ds) by (rewrite E; apply in_or_app; right; left; reflexivity).
  destruct (filled_in ds [] (key d) (case d') (NoDup_nil _)) as [_ F].
  assert (I : In (key d, case d') (filled ds)) by (apply F; left; exists pre, d', post; auto).
  destruct (ds_content d' D') as [w' [p [W [H' [Ew _]]]]].
  assert (Kd : key d = read_key w n) by (unfold key; rewrite E1, E2, <- E4; reflexivity).
  assert (Kd' : key d' = read_key w' (r_status d')) by (unfold key; rewrite <- Ew; reflexivity).
  assert (P : w' = w /\ r_status d' = n).
  { apply key_inj; [| |congruence].
    - destruct H' as [? [? [_ [_ [A _]]]]]. exact (known_words _ _ A).
    - destruct H as [? [? [_ [_ [A _]]]]]. exact (known_words _ _ A). }
  destruct P as [<- <-]. exists (r_decl d'), (r_type d'). unfold case in I. rewrite <- Ew, Kd in I. exact I.
Qed.

Lemma offer_valid n w c x : offers u ref goSchema rs n w c x -> valid_name n.
Proof.
  intros [[cs [s [I _]]] _]. destruct PR as [_ [V _]]. rewrite Forall_forall in V. exact (V _ I).
Qed.

Lemma reads_exact : exists cs, responseCases u ref goSchema op rs = Ok cs /\
  forall st h, reads_as u ref goSchema rs st h (run cs st h).
Proof.
  destruct cases_filled as [l2 [L E]]. eexists. split; [exact E|]. intros st h.
  destruct (run_first (by_key (filled ds)) l2 st h L (by_key_sorted _)) as [[k [w [n [x [f [I1 [I2 [I3 I4]]]]]]]]|[I1 I2]].
  - apply Forall_forall. intros [k c] I. rewrite by_key_in in I.
    destruct (filled_in ds [] k c (NoDup_nil _)) as [_ F]. apply F in I.
    destruct I as [[pre [d [post [_ [_ [C _]]]]]]|[[] _]]. exists d. symmetry. exact C.
  - rewrite I3. rewrite by_key_in in I1. destruct (filled_offer _ _ _ _ _ I1) as [c [O [K F]]].
    cbn [holds] in I2. apply andb_true_iff in I2. destruct I2 as [J1 J2].
    pose proof (offer_valid _ _ _ _ O) as V. apply (applies_covers n st V) in J2.
    cbn [reads_as]. exists n, c. split; [exact O|]. split; [split; assumption|].
    split; [destruct F as [p [F1 F2]]; exists p; split; [exact F1|]; rewrite F2, (camel_valid u n V); reflexivity|].
    intros n' w' c' x' O' [P1 P2]. destruct (offer_filled _ _ _ _ O') as [y [f' I']].
    pose proof (offer_valid _ _ _ _ O') as V'.
    assert (W : forall n w c x, offers u ref goSchema rs n w c x -> In w (map fst words)).
    { intros ? ? ? ? [[? [? [_ [_ [A _]]]]] _]. exact (known_words _ _ A). }
    destruct (I4 (read_key w' n') (Reads w' n' y f')) as [Q|Q].
    + apply by_key_in, I'.
    + cbn [holds]. rewrite P1. cbn [andb]. apply applies_covers; assumption.
    + injection Q as _ -> -> _ _. right. auto.
    + rewrite K in Q. apply key_order in Q; [|eapply W, O|eapply W, O']. destruct Q as [Q|[-> Q]]; [left; exact Q|].
      right. split; [reflexivity|]. eapply order_closer; eassumption.
  - rewrite I1. cbn [reads_as]. intros n w c x O [P1 P2]. destruct (offer_filled _ _ _ _ O) as [y [f I]].
    apply (by_key_in (read_key w n, Reads w n y f)) in I. apply I2 in I. cbn [holds] in I. rewrite P1 in I. cbn [andb] in I.
    apply (applies_covers n st (offer_valid _ _ _ _ O)) in P2. congruence.
Qed.

Lemma case_declared cs : responseCases u ref goSchema op rs = Ok cs -> forall w n x f, In (Reads w n x f) cs ->
  exists d, In d ds /\ r_type d = f /\ r_decl d = x /\ r_status d = n.
Proof.
  destruct cases_filled as [l2 [L E]]. rewrite E. intros Q w n x f I. injection Q as <-.
  apply in_app_or in I. destruct I as [I|I]; apply in_map_iff in I; destruct I as [[k c] [Ec I]]; cbn [snd] in Ec; subst c.
  - rewrite by_key_in in I. destruct (filled_in ds [] k (Reads w n x f) (NoDup_nil _)) as [_ F]. apply F in I.
    destruct I as [[pre [d [post [Ed [_ [C _]]]]]]|[[] _]]. exists d. unfold case in C. injection C as _ C2 C3 C4.
    rewrite Ed. repeat split; try assumption. apply in_or_app. right. left. reflexivity.
  - exfalso. unfold leaving in L. rewrite Forall_forall in L. destruct (L _ I) as [? [? Q]]. discriminate.
Qed.

Lemma fields_once :
  (forall n w c x c' x', has_content u ref goSchema rs n w c x -> has_content u ref goSchema rs n w c' x' -> c = c') ->
  NoDup (map r_type ds).
Proof.
  intros U. pose proof ds_order as O. assert (I : forall d, In d ds -> In d ds) by auto. revert O I. generalize ds at 1 2 4 as l.
  intros l O. induction O as [|d l F O IH]; intros I; [constructor|]. cbn [map]. constructor.
  - intros J. apply in_map_iff in J. destruct J as [d' [E J]]. rewrite Forall_forall in F. specialize (F d' J).
    destruct (ds_content d (I d (or_introl eq_refl))) as [w [p [W [H [Ew Et]]]]].
    destruct (ds_content d' (I d' (or_intror J))) as [w' [p' [W' [H' [Ew' Et']]]]].
    assert (V : forall n w c x, has_content u ref goSchema rs n w c x -> valid_name n).
    { intros n0 w0 c0 x0 [cs [s [K _]]]. destruct PR as [_ [V _]]. rewrite Forall_forall in V. exact (V _ K). }
    rewrite Et, Et' in E.
    assert (Q : w = w' /\ toCamelCase u (r_status d) = toCamelCase u (r_status d')).
    { cbn [words In] in W, W'. destruct W as [W|[W|[W|[]]]]; destruct W' as [W'|[W'|[W'|[]]]];
        injection W as <- <-; injection W' as <- <-; cbn in E; try discriminate; injection E as E; auto. }
    destruct Q as [<- Q]. assert (R : r_status d = r_status d').
    { eapply camel_status; [exact (V _ _ _ _ H)|exact (V _ _ _ _ H')|exact Q]. }
    destruct (F R) as [_ N]. apply N. rewrite <- R in H'. exact (U _ _ _ _ _ _ H H').
  - apply IH. intros x J. apply I. right. exact J.
Qed.
End Given.

(** *** Errors *)

Definition settled {A} (o : outcome A) : Prop := o <> OutOfFuel /\ o <> Panic.

Definition content_typed (n c : string) (s : option T) : Prop := forall x, s = Some x ->
  (exists g, goSchema x [n] = Ok g) /\
  ((exists w, In (c, w) known) -> isGoTypeReference (ref x) = true -> exists t, refPathToGoType u (ref x) = Ok t).

Lemma typeName_some c n : (exists w, In (c, w) known) <-> exists t, typeName u c n = Some t.
Proof.
  split.
  - intros [w I]. pose proof (known_words _ _ I) as W. apply in_map_iff in W. destruct W as [[w' p] [<- W]].
    exists (p ++ toCamelCase u n)%string. apply typeName_known. exists w', p. auto.
  - intros [t E]. apply typeName_known in E. destruct E as [w [p [I _]]]. exists w. exact I.
Qed.

Definition failure (op n c : string) (s : T) (e : err) : Prop :=
  (exists e0, goSchema s [n] = Err e0 /\
     e = mkErr (e_marks e0) ("Unable to determine Go type for " ++ op ++ "." ++ c ++ ": " ++ e_text e0)%string) \/
  (exists g e0, goSchema s [n] = Ok g /\ (exists w, In (c, w) known) /\ isGoTypeReference (ref s) = true /\
     refPathToGoType u (ref s) = Err e0 /\ e = mkErr (e_marks e0) ("error dereferencing response Ref: " ++ e_text e0)%string).

Hypothesis ends : forall s p, settled (goSchema s p).

Lemma ref_settled r : (exists t, refPathToGoType u r = Ok t) \/ exists e, refPathToGoType u r = Err e.
Proof.
  unfold refPathToGoType. destruct (has_prefix r hash); [destruct (Nat.eqb _ _)|destruct (Nat.eqb _ _)]; eauto.
Qed.

Lemma content1_total op n c s :
  (content_typed n c s /\ exists l, content1 op n c s = Ok l) \/
  (exists x e, s = Some x /\ failure op n c x e /\ content1 op n c s = Err e).
Proof.
  unfold contentTypes1. destruct s as [x|]; [|left; split; [intros x E; discriminate|eauto]].
  destruct (ends x [n]) as [E1 E2]. destruct (goSchema x [n]) as [[g r]|e| |] eqn:G; try contradiction; cbn [wrapping bind].
  - destruct (typeName u c n) as [t|] eqn:N.
    + destruct (isGoTypeReference (ref x)) eqn:R.
      * destruct (ref_settled (ref x)) as [[y Q]|[e Q]]; rewrite Q; cbn [wrapping bind].
        -- left. split; [|eauto]. intros x' E. injection E as <-. split; eauto.
        -- right. exists x, (mkErr (e_marks e) ("error dereferencing response Ref: " ++ e_text e)%string).
           split; [reflexivity|]. split; [|reflexivity]. right. exists (g, r), e. repeat split; try assumption.
           apply (typeName_some c n). eauto.
      * cbn [bind]. left. split; [|eauto]. intros x' E. injection E as <-. split; [eauto|]. intros _ K. congruence.
    + left. split; [|eauto]. intros x' E. injection E as <-. split; [eauto|]. intros K. apply (typeName_some c n) in K.
      destruct K as [t K]. congruence.
  - right. exists x, (mkErr (e_marks e) ("Unable to determine Go type for " ++ op ++ "." ++ c ++ ": " ++ e_text e)%string).
    split; [reflexivity|]. split; [left; exists e; auto|].
    repeat (rewrite str_app_assoc). reflexivity.
Qed.

Lemma contents_total op n l :
  (Forall (fun e => content_typed n (fst e) (snd e)) l /\ exists ds, contentsOf op n l = Ok ds) \/
  (exists c x e, In (c, Some x) l /\ failure op n c x e /\ contentsOf op n l = Err e).
Proof.
  induction l as [|[c s] l IH]; [left; split; [constructor|eexists; reflexivity]|]. cbn [contentTypes].
  destruct (content1_total op n c s) as [[H1 [t E1]]|[x [e [-> [H1 E1]]]]]; rewrite E1; cbn [bind].
  - destruct IH as [[H2 [ds E2]]|[c' [x [e [I [H2 E2]]]]]]; rewrite E2; cbn [bind].
    + left. split; [constructor; assumption|eauto].
    + right. exists c', x, e. cbn. auto.
  - right. exists c, x, e. cbn. auto.
Qed.

Lemma types_total op (l : responses T) :
  (Forall (fun e => forall cs : contents T, snd e = Some cs -> Forall (fun b => content_typed (fst e) (fst b) (snd b)) cs) l /\
     exists ds, typesOf op l = Ok ds) \/
  (exists n cs c x e, In (n, Some cs) l /\ In (c, Some x) cs /\ failure op n c x e /\ typesOf op l = Err e).
Proof.
  induction l as [|[n v] l IH]; [left; split; [constructor|eexists; reflexivity]|]. cbn [responseTypes].
  assert (A : (forall cs : contents T, v = Some cs -> Forall (fun b => content_typed n (fst b) (snd b)) cs) /\
      (exists t, match v with None => Ok [] | Some cs => contentsOf op n (by_key cs) end = Ok t) \/
      (exists cs c x e, v = Some cs /\ In (c, Some x) cs /\ failure op n c x e /\
         match v with None => Ok [] | Some cs => contentsOf op n (by_key cs) end = Err e)).
  { destruct v as [cs|]; [|left; split; [intros cs E; discriminate|eauto]].
    destruct (contents_total op n (by_key cs)) as [[H E]|[c [x [e [I [H E]]]]]].
    - left. split; [|exact E]. intros cs' Q. injection Q as <-. rewrite Forall_forall in H |- *. intros b I. apply H, by_key_in, I.
    - right. exists cs, c, x, e. rewrite by_key_in in I. auto. }
  destruct A as [[H1 [t E1]]|[cs [c [x [e [-> [I [H1 E1]]]]]]]]; rewrite E1; cbn [bind].
  - destruct IH as [[H2 [ds E2]]|[n' [cs [c' [x [e [I [J [H2 E2]]]]]]]]]; rewrite E2; cbn [bind].
    + left. split; [constructor; [exact H1|exact H2]|eauto].
    + right. exists n', cs, c', x, e. cbn. auto.
  - right. exists n, cs, c, x, e. cbn. auto.
Qed.

Lemma responses_total op rs :
  (typed u ref goSchema rs /\ exists ds, getResponseTypeDefinitions u ref goSchema op rs = Ok ds) \/
  (exists n cs c x e, In (n, Some cs) rs /\ In (c, Some x) cs /\ failure op n c x e /\
     getResponseTypeDefinitions u ref goSchema op rs = Err e /\ responseCases u ref goSchema op rs = Panic /\
     ~ typed u ref goSchema rs).
Proof.
  unfold responseCases, getResponseTypeDefinitions. destruct (types_total op (by_key rs)) as [[H E]|[n [cs [c [x [e [I [J [H E]]]]]]]]].
  - left. split; [|exact E]. intros n cs c s I J. rewrite Forall_forall in H.
    assert (I' : In (n, Some cs) (by_key rs)) by (apply by_key_in, I). specialize (H _ I' cs eq_refl).
    rewrite Forall_forall in H. exact (H _ J s eq_refl).
  - right. exists n, cs, c, x, e. rewrite by_key_in in I. rewrite E. repeat split; try assumption.
    intros Ty. destruct (Ty n cs c x I J) as [[g G] R]. destruct H as [[e0 [Q _]]|[g' [e0 [Q [K [R' [Q' _]]]]]]]; [congruence|].
    destruct (R K R') as [t Q2]. congruence.
Qed.

Lemma responses_error op rs e : getResponseTypeDefinitions u ref goSchema op rs = Err e ->
  exists n cs c x, In (n, Some cs) rs /\ In (c, Some x) cs /\ failure op n c x e.
Proof.
  intros E. destruct (responses_total op rs) as [[_ [ds Q]]|[n [cs [c [x [e' [I [J [F [Q _]]]]]]]]]]; [congruence|].
  exists n, cs, c, x. replace e with e' by congruence. auto.
Qed.
End Reading.

(** *** Texts *)

Section Text.
Context {T : Type}.
Variable u : unicode.
Variable ref : T -> string.
Variable goSchema : T -> list string -> outcome (string * string).

Lemma condition_valid n : valid_name n -> condition n (getConditionOfResponseName "rsp.StatusCode" n).
Proof.
  unfold getConditionOfResponseName. intros [[k [K ->]]|[[k [K ->]]| ->]].
  - pose proof (code_all k K) as C. unfold code_facts in C. rewrite !andb_true_iff, !negb_true_iff in C.
    destruct C as [[[[[[C1 C2] _] _] _] _] _]. rewrite C1, C2. left. exists k. auto.
  - right. left. exists k. split; [exact K|]. split; [reflexivity|].
    destruct (five k K) as [-> |[-> |[-> |[-> | ->]]]]; reflexivity.
  - right. right. auto.
Qed.

Lemma written_case c : match c with Reads _ n _ _ => valid_name n | Leaves n _ => valid_name n end ->
  written c (clause_text c ++ nl)%string.
Proof.
  destruct c as [w n x f|n t]; intros V.
  - pose proof (w_reads w n x f _ (condition_valid n V)) as W. eqtext W.
  - pose proof (w_leaves n t _ (condition_valid n V)) as W. eqtext W.
Qed.

Definition named (c : clause) : Prop := match c with Reads _ n _ _ => valid_name n | Leaves n _ => valid_name n end.
Definition all_named (m : list (string * clause)) : Prop := Forall (fun e => named (snd e)) m.

Lemma put_named k c m : named c -> all_named m -> all_named (put k c m).
Proof.
  intros V H. constructor; [exact V|]. apply Forall_forall. intros e I. apply filter_In in I.
  unfold all_named in H. rewrite Forall_forall in H. apply H. tauto.
Qed.
Lemma one_named d m c : valid_name (r_status d) -> all_named (fst m) /\ all_named (snd m) ->
  all_named (fst (unmarshal1 d m c)) /\ all_named (snd (unmarshal1 d m c)).
Proof.
  intros V [H1 H2]. unfold unmarshal1. destruct (String.eqb (r_type d) "any"); [auto|].
  repeat match goal with |- context [if ?b then _ else _] => destruct b end; cbn [fst snd]; split; try assumption; apply put_named; assumption.
Qed.
Lemma loop_named d l : valid_name (r_status d) -> forall m, all_named (fst m) /\ all_named (snd m) ->
  all_named (fst (fold_left (unmarshal1 d) l m)) /\ all_named (snd (fold_left (unmarshal1 d) l m)).
Proof. intros V. induction l as [|c l IH]; intros m H; [exact H|]. cbn [fold_left]. apply IH, one_named; assumption. Qed.
Lemma unmarshal_named (rs : responses T) d m : valid_name (r_status d) -> all_named (fst m) /\ all_named (snd m) ->
  all_named (fst (unmarshal rs m d)) /\ all_named (snd (unmarshal rs m d)).
Proof.
  intros V H. unfold unmarshal. destruct (lookup rs (r_status d)) as [[[|x cs]|]|]; try exact H.
  - destruct H as [H1 H2]. cbn [fst snd]. split; [exact H1|]. apply put_named; assumption.
  - apply loop_named; assumption.
Qed.
Lemma cases_named op (rs : responses T) cs : proper rs -> responseCases u ref goSchema op rs = Ok cs -> Forall named cs.
Proof.
  intros PR E. unfold responseCases in E. destruct (getResponseTypeDefinitions u ref goSchema op rs) as [ds| | |] eqn:DS; try discriminate.
  assert (V : Forall (fun d => valid_name (r_status d)) ds).
  { apply Forall_forall. intros d I. apply (ds_in u ref goSchema op rs ds DS) in I. destruct I as [n [c [m [s [I [_ [<- _]]]]]]].
    destruct PR as [_ [V _]]. rewrite Forall_forall in V. exact (V _ I). }
  assert (Q : forall m, all_named (fst m) /\ all_named (snd m) ->
    all_named (fst (fold_left (unmarshal rs) ds m)) /\ all_named (snd (fold_left (unmarshal rs) ds m))).
  { clear - V. induction V as [|d ds V F IH]; intros m H; [exact H|]. cbn [fold_left]. apply IH, unmarshal_named; assumption. }
  destruct (Q ([], [])) as [H1 H2]; [split; constructor|]. injection E as <-. unfold all_named in H1, H2.
  rewrite Forall_forall in H1, H2. apply Forall_forall. intros c I. apply in_app_or in I.
  destruct I as [I|I]; apply in_map_iff in I; destruct I as [e [<- I]]; rewrite by_key_in in I; [apply H1|apply H2]; exact I.
Qed.

Lemma text_written op (rs : responses T) cs : proper rs -> responseCases u ref goSchema op rs = Ok cs ->
  exists ts, Forall2 written cs ts /\
    genResponseUnmarshal u ref goSchema op rs = Ok (if Nat.eqb (length cs) 0 then ""
                                                    else line "switch {" ++ String.concat "" ts ++ line "}")%string.
Proof.
  intros PR E. exists (map (fun c => (clause_text c ++ nl)%string) cs). split.
  - pose proof (cases_named op rs cs PR E) as N. clear E. induction N as [|c cs H N IH]; [constructor|]. cbn [map]. constructor; [|exact IH].
    apply written_case. exact H.
  - unfold genResponseUnmarshal. rewrite E. cbn [bind]. destruct cs as [|c cs]; reflexivity.
Qed.

(** *** Together *)

Lemma read_exact op (rs : responses T) : proper rs -> typed u ref goSchema rs -> (forall s p, settled (goSchema s p)) ->
  exists ds cs ts, getResponseTypeDefinitions u ref goSchema op rs = Ok ds /\ responseCases u ref goSchema op rs = Ok cs /\
    (forall status header, reads_as u ref goSchema rs status header (run cs status header)) /\
    (forall w n x f, In (Reads w n x f) cs -> exists d, In d ds /\ r_type d = f /\ r_decl d = x /\ r_status d = n) /\
    Forall2 written cs ts /\
    genResponseUnmarshal u ref goSchema op rs = Ok (if Nat.eqb (length cs) 0 then ""
                                                    else line "switch {" ++ String.concat "" ts ++ line "}")%string.
Proof.
  intros PR Ty En. destruct (responses_total u ref goSchema En op rs) as [[_ [ds E]]|[n [cs [c [x [e [_ [_ [_ [_ [_ N]]]]]]]]]]]; [|contradiction].
  destruct (reads_exact u ref goSchema op rs PR ds E) as [cs [C R]]. destruct (text_written op rs cs PR C) as [ts [W X]].
  exists ds, cs, ts. repeat split; try assumption. exact (case_declared u ref goSchema op rs PR ds E cs C).
Qed.

Lemma fields_distinct op (rs : responses T) ds : proper rs -> getResponseTypeDefinitions u ref goSchema op rs = Ok ds ->
  (forall n w c x c' x', has_content u ref goSchema rs n w c x -> has_content u ref goSchema rs n w c' x' -> c = c') ->
  NoDup (map r_type ds) /\
  forall d, In d ds <-> exists n w c x p, has_content u ref goSchema rs n w c x /\ In (w, p) words /\
    d = mkRType (p ++ shown n) x n c.
Proof.
  intros PR E U. split; [exact (fields_once u ref goSchema op rs PR ds E U)|]. intros d. split.
  - intros I. destruct (ds_content u ref goSchema op rs ds E d I) as [w [p [W [H [_ T0]]]]].
    exists (r_status d), w, (r_media d), (r_decl d), p. split; [exact H|]. split; [exact W|].
    unfold shown. rewrite <- (camel_valid u) by (destruct H as [? [? [K _]]]; destruct PR as [_ [V _]]; rewrite Forall_forall in V; exact (V _ K)).
    destruct d as [a b c d]. cbn in *. congruence.
  - intros [n [w [c [x [p [H [W ->]]]]]]]. destruct (content_ds u ref goSchema op rs ds E _ _ _ _ H) as [d [I [E1 [E2 [E3 E4]]]]].
    destruct (ds_content u ref goSchema op rs ds E d I) as [w' [p' [W' [_ [Ew T0]]]]].
    rewrite E2, <- E4 in Ew. subst w'. rewrite (word_once _ _ _ W W').
    unfold shown. rewrite <- (camel_valid u) by (destruct H as [? [? [K _]]]; destruct PR as [_ [V _]]; rewrite Forall_forall in V; exact (V _ K)).
    destruct d as [a1 a2 a3 a4]. cbn in *. subst. exact I.
Qed.
End Text.
